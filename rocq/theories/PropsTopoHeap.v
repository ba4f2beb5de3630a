(** * C128: toposort and the sets it is given *)
From Verif Require Import Base BaseFacts Topo TopoFacts TopoHeap PropsRules.
From Coq Require Import Relation_Operators.
Set Implicit Arguments.
Unset Strict Implicit.

Section Facts.
  Context {K : Type} `{Eqb K}.
  Implicit Type h : setheap K.
  (** the set at address [a] loses the items it was given for *)
  Definition given_for (data : list (K * nat)) (a : nat) (x : K) : bool :=
    existsb (fun ka => Nat.eqb a (snd ka) && eqb (fst ka) x) data.
  Lemma discards data : forall h a, fold_left discard data h a = filter (fun x => negb (given_for data a x)) (h a).
  Proof.
    induction data as [|[k b] data IH]; intros h a.
    - cbn [fold_left given_for existsb negb]. symmetry. apply filter_all. intros. reflexivity.
    - cbn [fold_left]. rewrite IH. unfold discard. cbn [fst snd]. unfold given_for. cbn [existsb fst snd].
      destruct (Nat.eqb a b); cbn [andb orb].
      + rewrite filter_filter. apply filter_ext. intro x. destruct (eqb k x); reflexivity.
      + reflexivity.
  Qed.
  Lemma given_self data k a : In (k, a) data -> given_for data a k = true.
  Proof.
    intro H1. apply existsb_exists. exists (k, a). split; [exact H1|]. cbn [fst snd]. rewrite Nat.eqb_refl. cbn [andb]. apply eqb_eq. reflexivity.
  Qed.
  Lemma no_self_idem data h : no_self (contents (fold_left discard data h) data) = contents (fold_left discard data h) data.
  Proof.
    unfold no_self, contents. rewrite map_map. apply map_ext_in. intros [k a] Hin. cbn [fst snd]. f_equal.
    rewrite discards. apply filter_all. intros x Hx. apply filter_In in Hx as [_ Hx].
    destruct (eqb k x) eqn:E; [|reflexivity]. apply eqb_eq in E. subst. rewrite (given_self Hin) in Hx. discriminate.
  Qed.
  Lemma call_result perm h data : snd (toposort_call perm h data) = toposort perm (contents (fst (toposort_call perm h data)) data).
  Proof.
    destruct data as [|ka data]; [reflexivity|]. unfold toposort_call, toposort. cbv zeta. cbn [fst snd].
    rewrite no_self_idem. reflexivity.
  Qed.
  Lemma call_heap perm h data : fst (toposort_call perm h data) = fold_left discard data h.
  Proof. destruct data; reflexivity. Qed.
  Lemma given_alone data k a x : NoDup (map snd data) -> In (k, a) data -> given_for data a x = eqb k x.
  Proof.
    intros N Hin. destruct (eqb k x) eqn:E.
    - apply eqb_eq in E. subst. apply given_self, Hin.
    - unfold given_for. apply not_true_iff_false. intro T. apply existsb_exists in T as ([k' a'] & Hin' & T). cbn [fst snd] in T.
      apply andb_true_iff in T as [T1 T2]. apply Nat.eqb_eq in T1. apply eqb_eq in T2. subst.
      assert (k = x) as -> ; [|rewrite (proj2 (eqb_eq x x) eq_refl) in E; discriminate].
      revert N Hin Hin'. clear. induction data as [|[k0 a0] data IH]; [contradiction|]. cbn [map snd]. intro N. inversion N as [|? ? N1 N2]; subst.
      intros [E1|H1] [E2|H2]; try congruence.
      + injection E1 as -> ->. exfalso. apply N1, (in_map snd _ _ H2).
      + injection E2 as -> ->. exfalso. apply N1, (in_map snd _ _ H1).
      + apply IH; assumption.
  Qed.

  (** ** C128 *)
  (** What happens, always: each set loses the items it was given for, and then the contents are sorted. *)
  Theorem C128_exact : forall perm h data,
    let '(h', r) := toposort_call perm h data in
    (forall a x, In x (h' a) <-> In x (h a) /\ ~ In (x, a) data)
    /\ r = toposort perm (contents h' data).
  Proof.
    intros perm h data. pose proof (call_result perm h data) as R. pose proof (call_heap perm h data) as Hh.
    destruct (toposort_call perm h data) as [h' r]. cbn [fst snd] in *. subst h'. split; [|exact R].
    intros a x. rewrite discards, filter_In. apply and_iff_compat_l. rewrite negb_true_iff, <- not_true_iff_false. apply not_iff_compat.
    unfold given_for. rewrite existsb_exists. split.
    - intros ([k b] & Hin & T). cbn [fst snd] in T. apply andb_true_iff in T as [T1 T2]. apply Nat.eqb_eq in T1. apply eqb_eq in T2. subst. exact Hin.
    - intro Hin. exists (x, a). split; [exact Hin|]. cbn [fst snd]. rewrite Nat.eqb_refl. apply eqb_eq. reflexivity.
  Qed.
  (** With a set object of its own for each item, the result is that of the contents. *)
  Theorem C128_own_sets_partial : forall perm h data,
    NoDup (map snd data) -> snd (toposort_call perm h data) = toposort perm (contents h data).
  Proof.
    intros perm h data N. rewrite call_result, call_heap. destruct data as [|ka data]; [reflexivity|]. unfold toposort.
    rewrite no_self_idem.
    assert (contents (fold_left discard (ka :: data) h) (ka :: data) = no_self (contents h (ka :: data))) as ->; [|reflexivity].
    unfold no_self, contents. rewrite map_map. apply map_ext_in. intros [k a] Hin. cbn [fst snd]. f_equal.
    rewrite discards. apply filter_ext. intro x. rewrite (given_alone x N Hin). reflexivity.
  Qed.
  (** Without a set given for one of its own items, nothing is modified and the result is that of the contents. *)
  Theorem C128_unmodified_partial : forall perm h data,
    (forall k a, In (k, a) data -> ~ In k (h a)) ->
    (forall a, fst (toposort_call perm h data) a = h a) /\ snd (toposort_call perm h data) = toposort perm (contents h data).
  Proof.
    intros perm h data N.
    assert (forall a, fst (toposort_call perm h data) a = h a) as E.
    { intro a. rewrite call_heap, discards. apply filter_all. intros x Hx. apply negb_true_iff, not_true_iff_false. intro T.
      apply existsb_exists in T as ([k b] & Hin & T). cbn [fst snd] in T. apply andb_true_iff in T as [T1 T2]. apply Nat.eqb_eq in T1. apply eqb_eq in T2. subst.
      exact (N _ _ Hin Hx). }
    split; [exact E|]. rewrite call_result. f_equal. unfold contents. apply map_ext. intros [k a]. cbn [fst snd]. rewrite E. reflexivity.
  Qed.
End Facts.

(** Items 1 and 2 depend on each other and are given one set: no cycle is reported, and the caller's set is emptied. *)
Theorem C128_refuted :
  let h a := match a with O => [1; 2] | _ => [] end in
  let data := [(1, 0); (2, 0)] in
  contents h data = [(1, [1; 2]); (2, [1; 2])]
  /\ on_cycle (contents h data) 1
  /\ toposort_call (fun l => l) h [(1, 0); (2, 0)] = (fold_left discard data h, ([[1; 2]], []))
  /\ fst (toposort_call (fun l => l) h data) 0 = []
  /\ snd (toposort (fun l : list nat => l) (contents h data)) <> [].
Proof.
  cbv zeta. split; [reflexivity|]. split.
  - eapply t_trans; apply t_step; [exists [1; 2]; split; [left; reflexivity|] | exists [1; 2]; split; [right; left; reflexivity|]]; (split; [simpl; auto | discriminate]).
  - split; [reflexivity|]. split; [reflexivity|]. discriminate.
Qed.
Example C128_example :
  let h a := match a with O => [1; 2] | S O => [2; 3] | _ => [4] end in
  let data := [(1, 0); (2, 1); (3, 2)] in
  NoDup (map snd data) /\ snd (toposort_call (fun l => l) h data) = ([[4]; [3]; [2]; [1]], [])
  /\ (forall k a, In (k, a) [(3, 2); (5, 2)] -> ~ In k (h a))
  /\ snd (toposort_call (fun l => l) h [(3, 2); (5, 2)]) = ([[4]; [3; 5]], []).
Proof.
  cbv zeta. split; [repeat constructor; simpl; intuition discriminate|]. split; [reflexivity|]. split; [|reflexivity].
  intros k a [E|[E|[]]]; injection E as <- <-; simpl; intuition discriminate.
Qed.
Print Assumptions C128_exact.
Print Assumptions C128_own_sets_partial.
Print Assumptions C128_unmodified_partial.
