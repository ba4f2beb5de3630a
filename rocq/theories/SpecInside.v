(** * Specification vocabulary for C121: which patterns return nothing outside the text *)
From Verif Require Import Base Match Pattern PropsPattern PropsChain Chain SpecChain SpecNest.
Set Implicit Arguments.
Unset Strict Implicit.
Open Scope Z_scope.

(** the span of [m] is inside [t], which is the text it refers to *)
Definition lies_in (t : pstr) (m : mtch) : Prop := m_input m = Some t /\ 0 <= m_start m <= m_end m /\ m_end m <= zlen t.
(** the functions of a functional pattern report positions inside the text (the engine and string search do: [sound_source]) *)
Definition reports_inside (src : psource) : Prop :=
  match src with
  | SFunctional fs => forall f t x, In f fs -> In x (results (f t)) -> snd (item_span x) <= zlen t
  | _ => True
  end.
(** the groups of an expression capture nothing outside the occurrence *)
Definition captures_within (src : psource) : Prop :=
  match src with
  | SRegex _ rxs => forall rx t o caps sp, In rx rxs -> In o (rx_finditer rx t) -> In caps (oc_groups o) -> In sp caps ->
      fst (oc_span o) <= fst sp /\ snd sp <= snd (oc_span o)
  | _ => True
  end.
(** A part of a chain: a single string, expression or function, found from left to right ([orderly_source]), or a chain
    of such parts that has no validator.  No processors. *)
Inductive in_order : ctree -> Prop :=
| in_order_pattern p src : no_processor p -> orderly_source src -> captures_within src -> in_order (CPattern p src)
| in_order_chain p breaker parts : no_processor p -> (forall child m, accepted p child m) ->
    (forall x, In x parts -> in_order (fst x)) -> in_order (CChain p breaker parts).
(** A pattern with any number of alternatives; or a chain of such parts, with any validators of its own *)
Inductive confined : ctree -> Prop :=
| confined_pattern p src : no_processor p -> sound_source src -> reports_inside src -> confined (CPattern p src)
| confined_chain p breaker parts : no_processor p -> (forall x, In x parts -> in_order (fst x)) -> confined (CChain p breaker parts).
