(** * Specification vocabulary for chains within chains (C118) *)
From Verif Require Import Base Match Pattern PropsPattern PropsChain Chain SpecChain.
Set Implicit Arguments.
Unset Strict Implicit.
Open Scope Z_scope.

(** A pattern, or a chain of patterns and chains to any depth, each part with its repeater (lower and upper
    bound) and whether it is hidden: what [chain()], [chain().chain()], ... assemble (builder.py:280-342) *)
Inductive ctree :=
| CPattern (p : popts) (src : psource)
| CChain (p : popts) (breaker : option (list mtch -> bool)) (parts : list (ctree * (Z * option Z * bool))).

(** its [matches]; a chain is given as many attempts as there are characters, and one more *)
Fixpoint tree_matches (c : ctree) : matcher :=
  match c with
  | CPattern p src => pattern_matches p src
  | CChain p breaker parts => fun n input =>
      chain_matches (S (length input)) p breaker
        (map (fun x => match x with (c, (a, b, hidden)) => CPart (tree_matches c) a b hidden end) parts) n input
  end.
Definition tree_part (x : ctree * (Z * option Z * bool)) : cpart :=
  match x with (c, (a, b, hidden)) => CPart (tree_matches c) a b hidden end.

(** the groups of an expression capture nothing before the start of the occurrence *)
Definition captures_inside (src : psource) : Prop :=
  match src with
  | SRegex _ rxs => forall rx t o caps sp, In rx rxs -> In o (rx_finditer rx t) -> In caps (oc_groups o) -> In sp caps -> fst (oc_span o) <= fst sp
  | _ => True
  end.
(** for the matches of each role: everything is accepted, or at least nothing empty is *)
Definition refuses_empty (p : popts) : Prop := forall child,
  (forall m, accepted p child m) \/ (forall m, m_start m = m_end m -> ~ accepted p child m).
Inductive well_made : ctree -> Prop :=
| made_pattern p src : no_processor p -> sound_source src -> captures_inside src -> well_made (CPattern p src)
| made_chain p breaker parts : no_processor p -> refuses_empty p ->
    (forall x, In x parts -> well_made (fst x)) -> well_made (CChain p breaker parts).
