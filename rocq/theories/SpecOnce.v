(** * Specification vocabulary for C120: which patterns return no object twice *)
From Verif Require Import Base Match Pattern PropsPattern Chain SpecNest.
Set Implicit Arguments.
Unset Strict Implicit.
Open Scope Z_scope.

(** its matches are returned with, or replaced by, their children *)
Definition shows_children (p : popts) : bool := po_children p || po_every p || po_private_children p.
(** a pattern whose matches have no children: no expression with groups *)
Definition groupless (c : ctree) : Prop :=
  match c with
  | CPattern _ (SRegex _ rxs) => Forall (fun rx => rx_groups rx = []) rxs
  | CPattern _ _ => True
  | CChain _ _ _ => False
  end.
(** Every chain below, except [c] itself, hides its children or has none with children; no processors *)
Inductive flat_part : ctree -> Prop :=
| flat_pattern p src : no_processor p -> flat_part (CPattern p src)
| flat_chain p breaker parts : no_processor p -> (forall x, In x parts -> flat_part (fst x)) ->
    shows_children p = false \/ (forall x, In x parts -> groupless (fst x)) -> flat_part (CChain p breaker parts).
Inductive flat : ctree -> Prop :=
| flat_top_pattern p src : no_processor p -> flat (CPattern p src)
| flat_top_chain p breaker parts : no_processor p -> (forall x, In x parts -> flat_part (fst x)) -> flat (CChain p breaker parts).
