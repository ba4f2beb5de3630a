(** * Specification of the sequence protocol: a plain Python list of matches

    The reference semantics the collection is compared with: what the same calls do
    on an ordinary list.  Lookups leave a list alone.  Also the conditions on
    histories used by the theorems. *)
From Verif Require Import Base Match Spec Coll.
Set Implicit Arguments.
Open Scope Z_scope.

Definition is_mutator (o : op) : bool :=
  match o with
  | OAppend _ | OInsert _ _ | OExtend _ | ORemove _ | ODelitem _ | ODelslice _ _ | OPop _ | OClear
  | OSetitem _ _ | OSetslice _ _ _ | OReverse => true
  | _ => false
  end.

(** A plain list under one call: new contents and what the call returns. *)
Definition list_step (l : list mtch) (o : op) : list mtch * out :=
  match o with
  | OAppend m => (l ++ [m], RUnit)
  | OInsert i m => (insert_nth (Z.to_nat (py_clip (zlen l) i)) m l, RUnit)
  | OExtend ms => (l ++ ms, RUnit)
  | ORemove m => match remove_first (meq m) l with
                 | Some l' => (l', RUnit)
                 | None => (l, RErr ValueError)
                 end
  | ODelitem i => match py_pos l i with
                  | Some n => (remove_nth n l, RUnit)
                  | None => (l, RErr IndexError)
                  end
  | ODelslice i j => (py_unslice l i j, RUnit)
  | OPop i => match py_pos l i with
              | Some n => match nth_error l n with
                          | Some x => (remove_nth n l, RMatch x)
                          | None => (l, RErr IndexError)
                          end
              | None => (l, RErr IndexError)
              end
  | OClear => ([], RUnit)
  | OSetitem i m => match py_pos l i with
                    | Some n => (replace_nth n m l, RUnit)
                    | None => (l, RErr IndexError)
                    end
  | OSetslice i j ms =>
      let a := match i with None => 0 | Some i => py_clip (zlen l) i end in
      let b := match j with None => zlen l | Some j => py_clip (zlen l) j end in
      (firstn (Z.to_nat a) l ++ ms ++ skipn (Z.to_nat (Z.max a b)) l, RUnit)
  | OReverse => (rev l, RUnit)
  | _ => (l, RUnit)
  end.
Definition list_run (l : list mtch) (ops : list op) : list mtch := fold_left (fun l o => fst (list_step l o)) ops l.

(** The matches a call hands over to the collection. *)
Definition handed (o : op) : list mtch :=
  match o with
  | OAppend m | OInsert _ m | OSetitem _ m => [m]
  | OExtend ms | OSetslice _ _ ms => ms
  | _ => []
  end.
Definition all_handed (ops : list op) : list mtch := flat_map handed ops.

(** [matches[i] = m], [matches[i:j] = ms], [matches.reverse()] *)
Definition is_assignment (o : op) : bool :=
  match o with OSetitem _ _ | OSetslice _ _ _ | OReverse => true | _ => false end.

(** Every match of [seg] but the last one ends before some member of [l]. *)
Definition furthest_last (l seg : list mtch) : Prop :=
  forall x, In x (removelast seg) -> exists y, In y l /\ m_end x < m_end y.

(** A history in which every match handed over is of the kind the collection accepts, and
    [del matches[i:j]] of more than one match is preceded by some [ending] lookup
    ([asked]), or no match of the slice, except maybe its last one, ends furthest in the
    collection (otherwise such a deletion may raise, see C02).  [l] is the contents, as a
    plain list, when the history starts. *)
Fixpoint acceptable (k : kind) (asked : bool) (l : list mtch) (ops : list op) : Prop :=
  match ops with
  | [] => True
  | o :: r =>
      Forall (fun m => accepts k m = true) (handed o)
      /\ match o with
         | ODelslice i j => asked = true \/ furthest_last l (py_slice l i j)
         | _ => True
         end
      /\ acceptable k (match o with OEnding _ => true | _ => asked end) (fst (list_step l o)) r
  end.

(** ... and in which no item is assigned *)
Definition no_assignment (ops : list op) : Prop := forallb (fun o => negb (is_assignment o)) ops = true.

(** ... and in which matches are only added at the end and never two [==] ones at a time *)
Fixpoint in_order (l : list mtch) (ops : list op) : Prop :=
  match ops with
  | [] => True
  | o :: r =>
      match o with OInsert i _ => zlen l <= i | _ => True end
      /\ no_equal (fst (list_step l o))
      /\ in_order (fst (list_step l o)) r
  end.

(** [p] does not distinguish [==] matches among those of [ms] (every predicate when no two
    distinct matches of [ms] are [==]; every function of span, value, name and parent). *)
Definition respects_eq_on (ms : list mtch) (p : mtch -> bool) : Prop :=
  forall a b, In a ms -> In b ms -> meq a b = true -> p a = p b.
