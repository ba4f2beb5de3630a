(** * rebulk/rules.py: the rule engine (lines 66-386, without the consequences)

    A rule object is named by a number; two rules are [==] iff they have the same class
    (rules.py:103-107), so a set of rules is a set of classes together with the object that
    represents each class in it.  The state [St] (the matches) and the responses [R] are
    arbitrary.  Not modelled: logging, [Rules.load_module] (loading a module), [context]
    (fixed during an execution, so part of the environment). *)
From Verif Require Import Base Topo.
Set Implicit Arguments.
Unset Strict Implicit.
Open Scope nat_scope.

(** rules.py:74 [dependency], as the list of what it declares: classes or rule objects
    (a single one is a list of one, rules.py:374-377) *)
Inductive dep := DClass (c : nat) | DInst (r : nat).

Record renv := REnv {
  r_class : nat -> nat;                      (* type(rule) *)
  r_prio : nat -> Z;                         (* rule.priority *)
  r_deps : nat -> list dep                   (* rule.dependency *)
}.
Record behav (St R : Type) := Behav {
  b_enabled : nat -> bool;                   (* rule.enabled(context) *)
  b_when : nat -> St -> St * res R;          (* rule.when(matches, context) *)
  b_then : nat -> St -> R -> St * res unit;  (* rule.then(matches, response, context) *)
  b_truthy : R -> bool                       (* bool(response) *)
}.

Section Schedule.
  Variable env : renv.
  (** iteration order of the sets of rules *)
  Variable perm : list nat -> list nat.
  Notation cls := (r_class env).

  (** rules.py:369-372: classes must differ inside a priority group *)
  Fixpoint dup_class (seen rs : list nat) : bool :=
    match rs with
    | [] => false
    | r :: t => inb (cls r) seen || dup_class (cls r :: seen) t
    end.
  (** rules.py:378-384: the dependencies of a rule, [g] being the priority group *)
  Definition dep_classes (g : list nat) (r : nat) : list nat :=
    fold_left (@set_add nat _)
      (flat_map (fun d => match d with
                          | DClass c => if inb c (map cls g) then [c] else []
                          | DInst i => [cls i]
                          end) (r_deps env r)) [].
  (** rules.py:373-385 *)
  Definition group_graph (g : list nat) : graph nat := map (fun r => (cls r, dep_classes g r)) g.
  (** the rule object standing for a class in the graph: the rule of the group, otherwise the
      first instance of that class declared as a dependency *)
  Definition instance_deps (g : list nat) : list nat :=
    flat_map (fun r => flat_map (fun d => match d with DInst i => [i] | DClass _ => [] end) (r_deps env r)) g.
  Definition rep (g : list nat) (c : nat) : nat :=
    match find (fun r => cls r =? c) g with
    | Some r => r
    | None => match find (fun r => cls r =? c) (instance_deps g) with Some r => r | None => 0 end
    end.

  (** [self.index(rule)] (rules.py:320): by class; None is ValueError *)
  Definition rindex (rules : list nat) (c : nat) : option nat := index_of (fun r => cls r =? c) rules.
  (** comparison of sort keys (the keys all exist: [run_layers] raises first otherwise) *)
  Definition idx_key (rules : list nat) (c : nat) : nat :=
    match rindex rules c with Some i => i | None => length rules end.
  Definition idx_lt (rules : list nat) (a b : nat) : bool := idx_key rules a <? idx_key rules b.

  (** rules.py:319-329 for the layers of one priority; the rules to execute, in order, and
      the exception that ends the iteration ([cyclic]: toposort leaves something) *)
  Fixpoint run_layers (rules g : list nat) (layers : list (list nat)) (cyclic : bool) : list nat * res unit :=
    match layers with
    | [] => ([], if cyclic then Err CyclicDependency else Ok tt)
    | layer :: t =>
        if forallb (fun c => match rindex rules c with Some _ => true | None => false end) layer then
          let '(l, r) := run_layers rules g t cyclic in
          (map (rep g) (sort_by (idx_lt rules) layer) ++ l, r)
        else ([], Err ValueError)
    end.
  Definition run_group (rules g : list nat) : list nat * res unit :=
    if dup_class [] g then ([], Err ValueError)
    else let '(layers, rest) := toposort perm (group_graph g) in
         run_layers rules g layers (match rest with [] => false | _ => true end).
  (** rules.py:317-318: groups of equal priority, in order *)
  Fixpoint run_groups (rules : list nat) (gs : list (list nat)) : list nat * res unit :=
    match gs with
    | [] => ([], Ok tt)
    | g :: t => match run_group rules g with
                | (l, Err e) => (l, Err e)
                | (l, Ok _) => let '(l', r) := run_groups rules t in (l ++ l', r)
                end
    end.
  (** rules.py:317: [sorted(self)] with [__lt__] comparing priorities (lines 95-96) *)
  Definition sorted_rules (rules : list nat) : list nat :=
    sort_by (fun a b => (r_prio env a >? r_prio env b)%Z) rules.
  (** the rules executed, in order, and the exception raised after them, if any *)
  Definition schedule (rules : list nat) : list nat * res unit :=
    run_groups rules (map snd (groupby (r_prio env) (sorted_rules rules))).
End Schedule.

Section Exec.
  Context {St R : Type} (bh : behav St R).
  (** rules.py:334-356 [execute_rule]: Some response when it was triggered *)
  Definition execute_rule (r : nat) (st : St) : St * res (option R) :=
    if b_enabled bh r then
      match b_when bh r st with
      | (st1, Err e) => (st1, Err e)
      | (st1, Ok resp) =>
          if b_truthy bh resp then
            match b_then bh r st1 resp with
            | (st2, Err e) => (st2, Err e)
            | (st2, Ok _) => (st2, Ok (Some resp))
            end
          else (st1, Ok None)
      end
    else (st, Ok None).
  (** rules.py:326-329 *)
  Fixpoint exec (l : list nat) (st : St) : St * res (list (nat * R)) :=
    match l with
    | [] => (st, Ok [])
    | r :: t =>
        match execute_rule r st with
        | (st1, Err e) => (st1, Err e)
        | (st1, Ok o) =>
            match exec t st1 with
            | (st2, Err e) => (st2, Err e)
            | (st2, Ok ret) => (st2, Ok (match o with Some resp => (r, resp) :: ret | None => ret end))
            end
        end
    end.
End Exec.

(** rules.py:304-331 [execute_all_rules].  The order is computed lazily while rules run, but
    does not depend on the state, so it is computed first here. *)
Definition execute_all_rules {St R} (env : renv) (perm : list nat -> list nat) (bh : behav St R)
    (rules : list nat) (st : St) : St * res (list (nat * R)) :=
  let '(l, fin) := schedule env perm rules in
  match exec bh l st with
  | (st', Err e) => (st', Err e)
  | (st', Ok ret) => (st', match fin with Ok _ => Ok ret | Err e => Err e end)
  end.

(** ** Specification vocabulary *)
(** [a] must wait for [b]: both registered with the same priority, [a] declares the class of
    [b] (or an object of that class) as a dependency *)
Definition waits_for (env : renv) (rules : list nat) (a b : nat) : Prop :=
  In a rules /\ In b rules /\ r_prio env a = r_prio env b /\ r_class env a <> r_class env b
  /\ (In (DClass (r_class env b)) (r_deps env a) \/ exists i, In (DInst i) (r_deps env a) /\ r_class env i = r_class env b).
(** rule objects are declared as dependencies only if a rule of that class is registered with
    the same priority *)
Definition instances_local (env : renv) (rules : list nat) : Prop :=
  forall a i, In a rules -> In (DInst i) (r_deps env a) ->
    exists b, In b rules /\ r_class env b = r_class env i /\ r_prio env b = r_prio env a.
(** [priority] and [dependency] are class attributes (rules.py:72-75): rules of one class have
    one priority *)
Definition class_prio (env : renv) : Prop := forall a b, r_class env a = r_class env b -> r_prio env a = r_prio env b.
(** [a] stands before [b] in [l] *)
Definition before {A} (l : list A) (a b : A) : Prop :=
  exists i j, nth_error l i = Some a /\ nth_error l j = Some b /\ i < j.
