(** * Specification of slices with a step (Python's reference, "Common sequence operations")

    In [l[i:j:s]] a negative bound counts from the end; then bounds beyond the ends are
    reduced to the ends; an omitted bound is the end where the walk begins or stops, according
    to the sign of [s].  The members taken are those whose distance to the first is a multiple
    of [s], up to and not including the second bound. *)
From Verif Require Import Base Match Spec Coll SpecColl Slices.
Set Implicit Arguments.
Open Scope Z_scope.

Definition real (n i : Z) : Z := if i <? 0 then i + n else i.
(** the positions taken: ascending for a positive step, descending for a negative one *)
Definition taken_up (n : Z) (i j : option Z) (st : Z) : list Z :=
  let a := match i with None => 0 | Some i => Z.max 0 (real n i) end in
  let b := match j with None => n | Some j => real n j end in
  filter (fun p => (a <=? p) && (p <? b) && ((p - a) mod st =? 0)) (zrange 0 n).
Definition taken_down (n : Z) (i j : option Z) (st : Z) : list Z :=
  let a := match i with None => n - 1 | Some i => Z.min (n - 1) (real n i) end in
  let b := match j with None => -1 | Some j => real n j end in
  rev (filter (fun p => (p <=? a) && (b <? p) && ((a - p) mod (- st) =? 0)) (zrange 0 n)).
Definition taken_positions (n : Z) (i j : option Z) (st : Z) : list Z :=
  if 0 <? st then taken_up n i j st else taken_down n i j st.

(** [r] reads [l] at the positions [ps] *)
Definition reads {A} (l : list A) (ps : list Z) (r : list A) : Prop :=
  length r = length ps
  /\ forall k p, nth_error ps k = Some p -> nth_error r k = nth_error l (Z.to_nat p).
(** [l] without the positions [ps] *)
Definition without {A} (l : list A) (ps : list Z) : list A :=
  map snd (filter (fun px => negb (existsb (Z.eqb (fst px)) ps)) (combine (zrange 0 (zlen l)) l)).
(** [r] is [l] with [vs] stored at the positions [ps] *)
Definition stored {A} (l : list A) (ps : list Z) (vs r : list A) : Prop :=
  length r = length l
  /\ (forall k p v, nth_error ps k = Some p -> nth_error vs k = Some v -> nth_error r (Z.to_nat p) = Some v)
  /\ (forall p, 0 <= p -> ~ In p ps -> nth_error r (Z.to_nat p) = nth_error l (Z.to_nat p)).

(** What a call does to a plain list: contents after it, and what it returns. *)
Definition list_does (l : list mtch) (x : xop) (l' : list mtch) (r : out) : Prop :=
  match x with
  | XOp o => l' = fst (list_step l o) /\ (is_mutator o = true -> r = snd (list_step l o))
  | XDel i j st =>
      if st =? 0 then l' = l /\ r = RErr ValueError
      else l' = without l (taken_positions (zlen l) i j st) /\ r = RUnit
  | XSet i j st ms =>
      if st =? 0 then l' = l /\ r = RErr ValueError
      else if st =? 1 then l' = fst (list_step l (OSetslice i j ms)) /\ r = RUnit
      else let ps := taken_positions (zlen l) i j st in
           if zlen ps =? zlen ms then stored l ps ms l' /\ r = RUnit
           else l' = l /\ r = RErr ValueError
  end.

Definition xhanded (x : xop) : list mtch :=
  match x with XOp o => handed o | XDel _ _ _ => [] | XSet _ _ _ ms => ms end.
(** [acceptable] (SpecColl.v) for histories with stepped slices: [l] is the contents when the
    history starts, [asked] tells whether [ending] was called before. *)
Fixpoint xacceptable (k : kind) (asked : bool) (l : list mtch) (xs : list xop) : Prop :=
  match xs with
  | [] => True
  | x :: r =>
      Forall (fun m => accepts k m = true) (xhanded x)
      /\ match x with
         | XOp (ODelslice i j) => asked = true \/ furthest_last l (py_slice l i j)
         | XDel i j st => asked = true \/ forall seg, reads l (taken_positions (zlen l) i j st) seg -> furthest_last l seg
         | _ => True
         end
      /\ (forall l' o, list_does l x l' o -> xacceptable k (match x with XOp (OEnding _) => true | _ => asked end) l' r)
  end.
(** contents after a history, as a plain list *)
Inductive list_history : list mtch -> list xop -> list mtch -> Prop :=
| lh_nil l : list_history l [] l
| lh_step l x l' o r l2 : list_does l x l' o -> list_history l' r l2 -> list_history l (x :: r) l2.
Definition xassigns (x : xop) : bool :=
  match x with XOp o => is_assignment o | XSet _ _ _ _ => true | XDel _ _ _ => false end.
