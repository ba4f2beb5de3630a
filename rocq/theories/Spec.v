(** * Specification vocabulary

    What the property theorems are stated in: positions covered by a match, maximal
    runs of positions, lists equal up to [Match.__eq__] and order.  Nothing here
    refers to the dictionaries, loops or caches of the model. *)
From Verif Require Import Base Match.
Set Implicit Arguments.
Open Scope Z_scope.

(** Position [i] lies inside match [m]. *)
Definition covers (m : mtch) (i : Z) : Prop := m_start m <= i < m_end m.
Definition coversb (i : Z) (m : mtch) : bool := (m_start m <=? i) && (i <? m_end m).

(** The match has a positive length. *)
Definition nonempty (m : mtch) : Prop := m_start m < m_end m.

(** [a] and [b] share a position. *)
Definition overlap (a b : mtch) : Prop := exists i, covers a i /\ covers b i.

(** No position is covered by two members of the list (counted with multiplicity). *)
Definition disjoint_list (l : list mtch) : Prop :=
  forall i, (length (filter (coversb i) l) <= 1)%nat.

(** [l] is the list, left to right, of the maximal non-empty intervals of [a,b) all of
    whose positions satisfy [p]. *)
Definition maximal_runs (p : Z -> bool) (a b : Z) (l : list (Z * Z)) : Prop :=
  Forall (fun r => a <= fst r /\ fst r < snd r /\ snd r <= b
                   /\ (forall i, fst r <= i < snd r -> p i = true)
                   /\ (fst r = a \/ p (fst r - 1) = false)
                   /\ (snd r = b \/ p (snd r) = false)) l
  /\ StronglySorted (fun x y => snd x < fst y) l
  /\ (forall i, a <= i < b -> p i = true -> exists r, In r l /\ fst r <= i < snd r).

(** Lists equal up to order and [==]: some reordering of [l] is pairwise [==] to [r]. *)
Definition same_members (l r : list mtch) : Prop :=
  exists r', Permutation r r' /\ Forall2 (fun a b => meq a b = true) l r'.

(** Lists pairwise [==], in the same order. *)
Definition same_sequence (l r : list mtch) : Prop := Forall2 (fun a b => meq a b = true) l r.

(** A predicate that does not distinguish [==] matches (any function of span, value, name
    and parent). *)
Definition respects_eq (p : mtch -> bool) : Prop := forall a b, meq a b = true -> p a = p b.

(** No two members of the list are [==]. *)
Definition no_equal (l : list mtch) : Prop := ForallOrdPairs (fun a b => meq a b = false) l.

(** [x] is an ancestor of (or is) [m]. *)
Inductive ancestor : mtch -> mtch -> Prop :=
| anc_refl m : ancestor m m
| anc_step m p x : m_parent m = Some p -> ancestor p x -> ancestor m x.

(** [x] is a leaf of the tree of children below (or is) [m]. *)
Inductive leaf : mtch -> mtch -> Prop :=
| leaf_self m : m_children m = [] -> leaf m m
| leaf_child m c x : In c (m_children m) -> leaf c x -> leaf m x.

(** Selections a lookup is asked for. *)
Definition name_is (n : pstr) (m : mtch) : bool := option_eqb pstr_eqb (m_name m) (Some n).
Definition starts_at (i : Z) (m : mtch) : bool := Z.eqb i (m_start m).
Definition ends_at (i : Z) (m : mtch) : bool := Z.eqb i (m_end m).
(** number of times a tag occurs among the tags of a match *)
Definition tag_count (t : pstr) (m : mtch) : nat := length (filter (pstr_eqb t) (m_tags m)).
(** every member once per occurrence of the tag (once when tags are not repeated) *)
Definition tagged_members (t : pstr) (l : list mtch) : list mtch :=
  flat_map (fun m => repeat m (tag_count t m)) l.

(** The longest prefix whose elements satisfy [p]. *)
Fixpoint take_while {A} (p : A -> bool) (l : list A) : list A :=
  match l with
  | [] => []
  | x :: r => if p x then x :: take_while p r else []
  end.

(** [x] has an [==] counterpart in [l]. *)
Definition found (x : mtch) (l : list mtch) : Prop := exists y, In y l /\ meq x y = true.
