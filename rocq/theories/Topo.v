(** * rebulk/toposort.py

    Sets are lists; [perm] stands for the order in which Python iterates a set (any
    permutation).  Items are compared with a decidable equality. *)
From Verif Require Import Base BaseFacts.
From Coq Require Import Relation_Operators.
Set Implicit Arguments.
Unset Strict Implicit.

Section Topo.
  Context {K : Type} `{Eqb K}.
  (** a dictionary item -> set of dependencies *)
  Definition graph := list (K * list K).
  Definition inb (x : K) (l : list K) : bool := existsb (eqb x) l.

  (** set.union, one element at a time *)
  Definition set_add (l : list K) (x : K) : list K := if inb x l then l else l ++ [x].
  Definition set_union (l r : list K) : list K := fold_left set_add r l.

  Variable perm : list K -> list K.

  (** toposort.py:48-49: [v.discard(k)] *)
  Definition no_self (data : graph) : graph :=
    map (fun kv => (fst kv, filter (fun y => negb (eqb (fst kv) y)) (snd kv))) data.
  (** toposort.py:51: [reduce(set.union, data.values()) - set(data.keys())] *)
  Definition extra_items (data : graph) : list K :=
    filter (fun x => negb (inb x (map fst data))) (fold_left set_union (map snd data) []).
  (** toposort.py:53 *)
  Definition complete (data : graph) : graph := data ++ map (fun x => (x, [])) (perm (extra_items data)).

  (** toposort.py:55: items without dependency *)
  Definition ready (data : graph) : list K :=
    map fst (filter (fun kv => match snd kv with [] => true | _ => false end) data).
  (** toposort.py:59 *)
  Definition strip (ordered : list K) (data : graph) : graph :=
    map (fun kv => (fst kv, filter (fun y => negb (inb y ordered)) (snd kv)))
        (filter (fun kv => negb (inb (fst kv) ordered)) data).
  (** toposort.py:54-59, the loop: the groups yielded, and what is left when no item is
      ready.  [fuel] bounds the number of groups (each group removes an item). *)
  Fixpoint topo_loop (fuel : nat) (data : graph) : list (list K) * graph :=
    match fuel with
    | O => ([], data)
    | S f => match ready data with
             | [] => ([], data)
             | ordered => let '(gs, rest) := topo_loop f (strip ordered data) in (perm ordered :: gs, rest)
             end
    end.
  (** toposort.py:27-61: the groups yielded and the argument of CyclicDependency ([[]] when
      the generator ends normally). *)
  Definition toposort (data : graph) : list (list K) * graph :=
    match data with
    | [] => ([], [])
    | _ => let d := complete (no_self data) in topo_loop (length d) d
    end.
End Topo.
Arguments graph K : clear implicits.

(** ** Specification of the dependency graph *)
Section TopoSpec.
  Context {K : Type}.
  (** [x] depends on [y] (other than itself) *)
  Definition depends (data : graph K) (x y : K) : Prop := exists ds, In (x, ds) data /\ In y ds /\ x <> y.
  (** the items: keys and dependencies *)
  Definition item (data : graph K) (x : K) : Prop :=
    In x (map fst data) \/ exists k ds, In (k, ds) data /\ In x ds /\ x <> k.
  Definition on_cycle (data : graph K) (x : K) : Prop := clos_trans K (depends data) x x.
  Definition reaches_cycle (data : graph K) (x : K) : Prop :=
    exists y, clos_refl_trans K (depends data) x y /\ on_cycle data y.
  (** [x] is in group number [n] *)
  Definition in_group (gs : list (list K)) (n : nat) (x : K) : Prop := exists g, nth_error gs n = Some g /\ In x g.
End TopoSpec.
