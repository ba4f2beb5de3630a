(** * rebulk/rebulk.py: the Rebulk object; rebulk/introspector.py reads the same attributes

    A Rebulk object is a value: patterns and rules are objects named by numbers, so that two
    Rebulk objects can share them.  The [context] is a value of any type [Ctx]; a callback
    which reads it ([disabled], a functional pattern, [enabled], [when], [then]) is a function
    of it.  Not modelled: logging; a callback [disabled] which raises; Rebulk objects
    containing each other (the children form a finite tree). *)
From Verif Require Import Base Match Coll Loose Conseq Processors Topo Rules Pattern Typed.
Set Implicit Arguments.
Unset Strict Implicit.
Open Scope Z_scope.

(** ** The attributes of a pattern which Rebulk and the introspector read *)
(** pattern.py: [patterns] of a StringPattern; [groupindex] of each expression of a RePattern;
    chain.py: the patterns of the parts of a Chain *)
Inductive pshape (I : Type) :=
| ShString (patterns : list pstr)
| ShRegex (groupindexes : list (list pstr))
| ShFunctional
| ShChain (parts : list I).
Arguments ShString {I}. Arguments ShRegex {I}. Arguments ShFunctional {I}.
Inductive pinfo := PInfo {
  pi_name : option pstr;
  pi_properties : dict pstr (list pyval);       (* pattern.py:381-390 *)
  pi_values : dict (option pstr) pyval;         (* pattern.py:132 *)
  pi_private : bool;
  pi_marker : bool;
  pi_private_names : list pstr;
  pi_private_children : bool;
  pi_shape : pshape pinfo
}.

Section Rebulk.
  Context {Ctx : Type}.

  (** a pattern object *)
  Record pat := Pat {
    pt_id : nat;
    pt_disabled : Ctx -> bool;                  (* pattern.py:144-148 *)
    pt_match : Ctx -> matcher;                  (* pattern.matches(string, context) *)
    pt_info : pinfo
  }.
  (** patterns have no [__eq__]: identity *)
  Definition pat_eq (a b : pat) : bool := Nat.eqb (pt_id a) (pt_id b).

  (** rebulk.py:80-104 attributes of a Rebulk *)
  Inductive rb := Rb {
    rb_disabled : Ctx -> bool;
    rb_patterns : list pat;                     (* _patterns *)
    rb_rules : list nat;                        (* _rules *)
    rb_keys : dict pstr key;                    (* _keys *)
    rb_children : list rb                       (* _rebulks *)
  }.

  (** rebulk.py:252-264 [effective_patterns] *)
  Definition effective_patterns (ctx : Ctx) (r : rb) : list pat :=
    fold_left (fun ps child => if rb_disabled child ctx then ps else extend_safe pat_eq (fun _ => true) ps (rb_patterns child))
              (rb_children r) (rb_patterns r).
  (** rules.py:103-107 [Rule.__eq__]: same class *)
  Definition rule_eq (env : renv) (a b : nat) : bool := Nat.eqb (r_class env a) (r_class env b).
  (** rebulk.py:167-180 [effective_rules] *)
  Definition effective_rules (env : renv) (ctx : Ctx) (r : rb) : list nat :=
    fold_left (fun rs child => if rb_disabled child ctx then rs else extend_safe (rule_eq env) (fun _ => true) rs (rb_rules child))
              (rb_children r) (rb_rules r).
  (** [dict.setdefault] *)
  Definition dsetdefault {V} (d : dict pstr V) (n : pstr) (v : V) : dict pstr V :=
    match dfind d n with Some _ => d | None => dset d n v end.
  Definition merge_keys {V} (keys new : dict pstr V) : dict pstr V := fold_left (fun ks nk => dsetdefault ks (fst nk) (snd nk)) new keys.
  (** rebulk.py:182-198 [effective_keys] *)
  Definition effective_keys (ctx : Ctx) (r : rb) : dict pstr key :=
    fold_left (fun ks child => if rb_disabled child ctx then ks else merge_keys ks (rb_keys child)) (rb_children r) (rb_keys r).

  (** ** The result of [matches]: [Matches] with its [markers] and [declared_keys];
      [fd_next] is the supply of identities *)
  Record found := Found { fd_next : nat; fd_matches : coll; fd_markers : coll; fd_keys : dict pstr key }.
  Definition with_matches (f : found) (c : coll) : found := Found (fd_next f) c (fd_markers f) (fd_keys f).
  Definition with_markers (f : found) (c : coll) : found := Found (fd_next f) (fd_matches f) c (fd_keys f).
  Definition with_next (f : found) (n : nat) : found := Found n (fd_matches f) (fd_markers f) (fd_keys f).

  (** rebulk.py:283-289 *)
  Fixpoint put (f : found) (ms : list mtch) : res found :=
    match ms with
    | [] => Ok f
    | m :: r =>
        if m_marker m
        then match append (fd_markers f) m with (c, Ok _) => put (with_markers f c) r | (_, Err e) => Err e end
        else match append (fd_matches f) m with (c, Ok _) => put (with_matches f c) r | (_, Err e) => Err e end
    end.
  (** rebulk.py:278-291, the loop *)
  Fixpoint run_patterns (ctx : Ctx) (input : pstr) (ps : list pat) (f : found) : res found :=
    match ps with
    | [] => Ok f
    | p :: r =>
        if pt_disabled p ctx then run_patterns ctx input r f
        else match pt_match p ctx (fd_next f) input with
             | Err e => Err e
             | Ok (n, (ms, _)) => match put (with_next f n) ms with
                                  | Err e => Err e
                                  | Ok f' => run_patterns ctx input r f'
                                  end
             end
    end.
  (** rebulk.py:266-291 [_matches_patterns] *)
  Definition matches_patterns (ctx : Ctx) (input : pstr) (r : rb) (f : found) : res found :=
    if rb_disabled r ctx then Ok f else run_patterns ctx input (effective_patterns ctx r) f.

  Section Run.
    Context {R : Type}.
    Variable env : renv.
    Variable perm : list nat -> list nat.          (* iteration order of the sets of rules *)
    Variable bh : Ctx -> behav found R.
    Variable isinst : pyval -> nat -> bool.
    Variable check_declared : bool.                (* debug.CHECK_DECLARED_KEYS *)

    (** rebulk.py:238-250 [_execute_rules] *)
    Definition execute_rules (ctx : Ctx) (r : rb) (f : found) : res found :=
      if rb_disabled r ctx then Ok f
      else match execute_all_rules env perm (bh ctx) (effective_rules env ctx r) f with
           | (f', Ok _) => Ok f'
           | (_, Err e) => Err e
           end.
    (** rebulk.py:138-165 [matches] *)
    Definition rb_matches (r : rb) (ctx : Ctx) (input : pstr) : res found :=
      let f0 := Found 0 (empty_coll KMatches (Some input)) (empty_coll KMarkers (Some input))
                      (if rb_disabled r ctx then [] else effective_keys ctx r) in
      match matches_patterns ctx input r f0 with
      | Err e => Err e
      | Ok f1 =>
          match (if check_declared then check_declared_keys isinst (fd_keys f1) (fd_matches f1) else Ok tt) with
          | Err e => Err e
          | Ok _ => execute_rules ctx r f1
          end
      end.
  End Run.

  (** ** The default rules (rebulk.py:102-103): rule 0 is ConflictSolver, rule 1 PrivateRemover
      (processors.py:45-59 and 110-117: priorities PRE_PROCESS = 2048 and POST_PROCESS = -2048) *)
  Definition default_env : renv := REnv (fun r => r) (fun r => match r with O => 2048 | S O => -2048 | _ => 0 end) (fun _ => []).
  Definition default_rules : list nat := [0; 1]%nat.
  (** their behaviour; [order] is the iteration order of the set of matches to remove *)
  Definition default_behav (solvers : nat -> mtch -> mtch -> verdict) (order : list mtch -> list mtch) : behav found (list mtch) :=
    Behav (fun _ => true)
          (fun r f => match r with
                      | O => let '(c, x) := conflict_when solvers (fd_matches f) in (with_matches f c, x)
                      | S O => (f, Ok (filter m_private (c_del (fd_matches f))))
                      | _ => (f, Ok [])
                      end)
          (fun r f resp => match r with
                           | O => let '(c, x) := drop_ret (remove_then (fd_matches f) (Many (order resp))) in (with_matches f c, x)
                           | S O => let '(c, x) := drop_ret (remove_then (fd_matches f) (Many resp)) in (with_matches f c, x)
                           | _ => (f, Ok tt)
                           end)
          (fun resp => match resp with [] => false | _ => true end).
  (** [Rebulk().pattern(...)]: no children, no keys *)
  Definition simple (ps : list pat) : rb := Rb (fun _ => false) ps default_rules [] [].

  (** Python's order of strings: lexicographic on code points *)
  Fixpoint pstr_lt (a b : pstr) : bool :=
    match a, b with
    | _, [] => false
    | [], _ :: _ => true
    | x :: a', y :: b' => (x <? y)%N || ((x =? y)%N && pstr_lt a' b')
    end.
  (** ** rebulk.py:30-50 [_producible_names] *)
  Definition str_truthy (n : option pstr) : list pstr := match n with Some (ch :: r) => [ch :: r] | _ => [] end.
  Fixpoint producible_names (i : pinfo) : list pstr :=
    dkeys (pi_properties i) ++ str_truthy (pi_name i)
    ++ match pi_shape i with
       | ShRegex gs => concat gs
       | ShChain parts => (fix go (l : list pinfo) := match l with [] => [] | p :: r => producible_names p ++ go r end) parts
       | _ => []
       end.
  (** rebulk.py:200-236 [check_keys]; [allowed] is the set given.
      The set [produced] is the list of its elements. *)
  Definition check_keys (allowed : list pstr) (r : rb) : list pstr :=
    let declared := fold_left (fun ks child => merge_keys ks (rb_keys child)) (rb_children r) (rb_keys r) in
    let patterns := rb_patterns r ++ flat_map rb_patterns (rb_children r) in
    let produced := flat_map (fun p => producible_names (pt_info p)) patterns in
    match declared with
    | [] => []
    | _ => sort_by pstr_lt (filter (fun n => negb (mem pstr_eqb n produced) && negb (mem pstr_eqb n allowed)) (dkeys declared))
    end.
End Rebulk.
Arguments pat : clear implicits.
Arguments rb : clear implicits.
