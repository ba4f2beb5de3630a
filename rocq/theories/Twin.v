(** * Collections that no sequence of calls can tell apart *)
From Coq Require Import Permutation ZifyBool.
From Verif Require Import Base BaseFacts Match MatchFacts Coll CollFacts Conseq Processors Topo Rules Rebulk Play.
Set Implicit Arguments.
Unset Strict Implicit.
Open Scope Z_scope.

(** the two dictionaries of ends answer the same; keys not above [M] may have been created in
    only one of them *)
Definition ends_agree (M : Z) (d d' : option (mdict Z)) : Prop :=
  match d, d' with
  | None, None => True
  | Some d, Some d' => (forall k, dget d k = dget d' k) /\ (forall k, M < k -> (In k (dkeys d) <-> In k (dkeys d')))
  | _, _ => False
  end.
Definition twin (c c' : coll) : Prop := exists d', c' = with_ending c d' /\ ends_agree (c_maxend c) (c_ending c) d'.
Definition trel {A} (r r' : coll * A) : Prop := twin (fst r) (fst r') /\ snd r = snd r'.

Lemma ends_agree_refl M d : ends_agree M d d.
Proof. destruct d; simpl; tauto. Qed.
Lemma ends_agree_sym M d d' : ends_agree M d d' -> ends_agree M d' d.
Proof. destruct d, d'; simpl; try tauto. intros [A B]. split; [intro k; symmetry; apply A | intros k Hk; symmetry; apply B, Hk]. Qed.
Lemma ends_agree_trans M a b c : ends_agree M a b -> ends_agree M b c -> ends_agree M a c.
Proof.
  destruct a, b, c; simpl; try tauto. intros [A B] [A' B'].
  split; [intro k; rewrite A; apply A' | intros k Hk; rewrite (B k Hk); apply B', Hk].
Qed.
Lemma ends_agree_le M M' d d' : M <= M' -> ends_agree M d d' -> ends_agree M' d d'.
Proof. intro H. destruct d, d'; simpl; try tauto. intros [A B]. split; [exact A|]. intros k Hk. apply B. lia. Qed.

Lemma with_ending_self c : with_ending c (c_ending c) = c.
Proof. destruct c; reflexivity. Qed.
Lemma twin_refl c : twin c c.
Proof. exists (c_ending c). split; [symmetry; apply with_ending_self | apply ends_agree_refl]. Qed.
Lemma twin_sym c c' : twin c c' -> twin c' c.
Proof. intros (d & -> & H). exists (c_ending c). split; [destruct c; reflexivity | apply ends_agree_sym, H]. Qed.
Lemma twin_trans a b c : twin a b -> twin b c -> twin a c.
Proof.
  intros (d & -> & H) (d' & -> & H'). exists d'. split; [reflexivity|].
  eapply ends_agree_trans; [exact H|exact H'].
Qed.
Lemma twin_del c c' : twin c c' -> c_del c = c_del c'.
Proof. intros (d & -> & _). reflexivity. Qed.
Lemma twin_max_end c c' : twin c c' -> max_end c = max_end c'.
Proof. intros (d & -> & _). reflexivity. Qed.
Lemma twin_maxend c c' : twin c c' -> c_maxend c = c_maxend c'.
Proof. intros (d & -> & _). reflexivity. Qed.
Lemma twin_input c c' : twin c c' -> c_input c = c_input c'.
Proof. intros (d & -> & _). reflexivity. Qed.
Lemma twin_range_end c c' e : twin c c' -> range_end c e = range_end c' e.
Proof. intros (d & -> & _). reflexivity. Qed.

Lemma trel_refl {A} (r : coll * A) : trel r r.
Proof. split; [apply twin_refl|reflexivity]. Qed.

(** ** lookups *)
Lemma q_named1_twin n c c' : twin c c' -> trel (q_named1 c n) (q_named1 c' n).
Proof. intros (d & -> & H). split; [|reflexivity]. exists d. split; [reflexivity|exact H]. Qed.
Lemma q_tagged_twin t c c' : twin c c' -> trel (q_tagged c t) (q_tagged c' t).
Proof. intros (d & -> & H). split; [|reflexivity]. exists d. split; [reflexivity|exact H]. Qed.
Lemma q_starting_twin i c c' : twin c c' -> trel (q_starting c i) (q_starting c' i).
Proof. intros (d & -> & H). split; [|reflexivity]. exists d. split; [reflexivity|exact H]. Qed.
Lemma q_at_index_twin i c c' : twin c c' -> trel (q_at_index c i) (q_at_index c' i).
Proof. intros (d & -> & H). split; [|reflexivity]. exists d. split; [reflexivity|exact H]. Qed.
Lemma q_names_twin c c' : twin c c' -> trel (q_names c) (q_names c').
Proof. intros (d & -> & H). split; [|reflexivity]. exists d. split; [reflexivity|exact H]. Qed.
Lemma q_tags_twin c c' : twin c c' -> trel (q_tags c) (q_tags c').
Proof. intros (d & -> & H). split; [|reflexivity]. exists d. split; [reflexivity|exact H]. Qed.

Lemma touch_agree M d d' i : ends_agree M (Some d) (Some d') -> ends_agree M (Some (dtouch d i)) (Some (dtouch d' i)).
Proof.
  intros [A B]. split; [intro k; rewrite !dget_dtouch; apply A|]. intros k Hk. rewrite !dkeys_dtouch_In. rewrite (B k Hk). tauto.
Qed.
Lemma ending_agree M c d' : ends_agree M (c_ending c) d' -> ends_agree M (Some (ending_dict c)) (Some (ending_dict (with_ending c d'))).
Proof.
  unfold ending_dict. cbn [with_ending c_ending c_del]. destruct (c_ending c), d'; try (intros []; fail).
  - tauto.
  - intros _. apply ends_agree_refl.
Qed.
Lemma q_ending_twin i c c' : twin c c' -> trel (q_ending c i) (q_ending c' i).
Proof.
  intros (d & -> & H). pose proof (touch_agree i (ending_agree H)) as Ht. split.
  - exists (Some (dtouch (ending_dict (with_ending c d)) i)). split; [reflexivity|]. exact Ht.
  - cbn [q_ending snd]. apply (proj1 Ht).
Qed.

Ltac pair2 H a b c := destruct H as [a b]; cbn [fst snd] in a, b; subst c.

Lemma q_named_loop_twin ns : forall c c', twin c c' -> trel (q_named_loop c ns) (q_named_loop c' ns).
Proof.
  induction ns as [|n ns IH]; intros c c' H; cbn [q_named_loop]; [split; [exact H|reflexivity]|].
  destruct (q_named1_twin n H) as [A B]. destruct (q_named1 c n) as [c1 l], (q_named1 c' n) as [c1' l']. cbn [fst snd] in A, B. subst l'.
  destruct (IH _ _ A) as [A' B']. destruct (q_named_loop c1 ns) as [c2 l2], (q_named_loop c1' ns) as [c2' l2']. cbn [fst snd] in A', B'. subst l2'.
  split; [exact A'|reflexivity].
Qed.
Lemma previous_loop_twin n : forall c c' cur, twin c c' -> trel (previous_loop n c cur) (previous_loop n c' cur).
Proof.
  induction n as [|n IH]; intros c c' cur H; cbn [previous_loop]; [split; [exact H|reflexivity]|].
  destruct (q_ending_twin cur H) as [A B]. destruct (q_ending c cur) as [c1 l], (q_ending c' cur) as [c1' l']. cbn [fst snd] in A, B. subst l'.
  destruct l; [apply IH, A | split; [exact A|reflexivity]].
Qed.
Lemma next_loop_twin n : forall c c' cur, twin c c' -> trel (next_loop n c cur) (next_loop n c' cur).
Proof.
  induction n as [|n IH]; intros c c' cur H; cbn [next_loop]; [split; [exact H|reflexivity]|].
  destruct (q_starting_twin cur H) as [A B]. destruct (q_starting c cur) as [c1 l], (q_starting c' cur) as [c1' l']. cbn [fst snd] in A, B. subst l'.
  destruct l; [apply IH, A | split; [exact A|reflexivity]].
Qed.
Lemma chain_loop_twin pred seps is : forall c c' ch, twin c c' -> trel (chain_loop pred seps is c ch) (chain_loop pred seps is c' ch).
Proof.
  induction is as [|i is IH]; intros c c' ch H; cbn [chain_loop]; [split; [exact H|reflexivity]|].
  rewrite <- (twin_input H).
  destruct (q_at_index_twin i H) as [A B]. destruct (q_at_index c i) as [c1 l], (q_at_index c' i) as [c1' l']. cbn [fst snd] in A, B. subst l'.
  destruct (filter pred l); [|apply IH, A].
  destruct (sep_at (c_input c) seps i) as [[|]|e]; [apply IH, A | split; [exact A|reflexivity] | split; [exact A|reflexivity]].
Qed.
Lemma hole_start_twin keep is : forall c c', twin c c' -> trel (hole_start_loop keep is c) (hole_start_loop keep is c').
Proof.
  induction is as [|i is IH]; intros c c' H; cbn [hole_start_loop]; [split; [exact H|reflexivity]|].
  destruct (q_starting_twin i H) as [A B]. destruct (q_starting c i) as [c1 l], (q_starting c' i) as [c1' l']. cbn [fst snd] in A, B. subst l'.
  destruct (existsb keep l); [split; [exact A|reflexivity] | apply IH, A].
Qed.
Lemma hole_end_twin keep is : forall c c', twin c c' -> trel (hole_end_loop keep is c) (hole_end_loop keep is c').
Proof.
  induction is as [|i is IH]; intros c c' H; cbn [hole_end_loop]; [split; [exact H|apply (twin_max_end H)]|].
  destruct (q_starting_twin i H) as [A B]. destruct (q_starting c i) as [c1 l], (q_starting c' i) as [c1' l']. cbn [fst snd] in A, B. subst l'.
  destruct (existsb keep l); [split; [exact A|reflexivity] | apply IH, A].
Qed.
Lemma holes_loop_twin keep seps st is : forall c c' ret hole last, twin c c' ->
  trel (holes_loop keep seps st is c ret hole last) (holes_loop keep seps st is c' ret hole last).
Proof.
  induction is as [|i is IH]; intros c c' ret hole last H; cbn [holes_loop]; [split; [exact H|reflexivity]|].
  rewrite <- (twin_input H).
  destruct (q_at_index_twin i H) as [A B]. destruct (q_at_index c i) as [c1 l], (q_at_index c' i) as [c1' l']. cbn [fst snd] in A, B. subst l'.
  cbv zeta.
  match goal with |- trel (match ?x with _ => _ end) _ => destruct x as [b|e] end; [|split; [exact A|reflexivity]].
  destruct b, hole as [h|]; try (apply IH, A); destruct (filter keep l); apply IH, A.
Qed.
Lemma q_holes_twin i j keep seps c c' : twin c c' -> trel (q_holes c i j keep seps) (q_holes c' i j keep seps).
Proof.
  intro H. unfold q_holes. rewrite <- (twin_input H). cbv zeta.
  match goal with |- trel (if ?x then _ else _) _ => destruct x end; [split; [exact H|reflexivity]|].
  rewrite <- (twin_range_end j H). unfold hole_start, hole_end.
  destruct (@hole_start_twin keep (rev (zrange 0 i)) _ _ H) as [A B].
  destruct (hole_start_loop keep (rev (zrange 0 i)) c) as [c1 ls], (hole_start_loop keep (rev (zrange 0 i)) c') as [c1' ls']. cbn [fst snd] in A, B. subst ls'.
  destruct (@holes_loop_twin keep seps i (zrange ls (range_end c j)) _ _ [] None i A) as [A' B'].
  destruct (holes_loop keep seps i (zrange ls (range_end c j)) c1 [] None i) as [c2 r], (holes_loop keep seps i (zrange ls (range_end c j)) c1' [] None i) as [c2' r'].
  cbn [fst snd] in A', B'. subst r'. destruct r as [[[ret [h|]] last]|e]; [|split; [exact A'|reflexivity]|split; [exact A'|reflexivity]].
  rewrite <- (twin_max_end A').
  destruct (@hole_end_twin keep (zrange last (max_end c2)) _ _ A') as [A2 B2].
  destruct (hole_end_loop keep (zrange last (max_end c2)) c2) as [c3 he], (hole_end_loop keep (zrange last (max_end c2)) c2') as [c3' he']. cbn [fst snd] in A2, B2. subst he'.
  split; [exact A2|reflexivity].
Qed.
Lemma conflicting_loop_twin is : forall c c' ret, twin c c' -> trel (conflicting_loop is c ret) (conflicting_loop is c' ret).
Proof.
  induction is as [|i is IH]; intros c c' ret H; cbn [conflicting_loop]; [split; [exact H|reflexivity]|].
  destruct (q_at_index_twin i H) as [A B]. destruct (q_at_index c i) as [c1 l], (q_at_index c' i) as [c1' l']. cbn [fst snd] in A, B. subst l'.
  apply IH, A.
Qed.
Lemma q_conflicting_twin m c c' : twin c c' -> trel (q_conflicting c m) (q_conflicting c' m).
Proof.
  intro H. unfold q_conflicting. destruct (@conflicting_loop_twin (zrange (m_start m) (m_end m)) _ _ [] H) as [A B].
  destruct (conflicting_loop _ c []) as [c1 l], (conflicting_loop _ c' []) as [c1' l']. cbn [fst snd] in A, B. subst l'.
  destruct (remove_first (meq m) l); split; try exact A; reflexivity.
Qed.
Lemma q_at_span_twin sp c c' : twin c c' -> trel (q_at_span c sp) (q_at_span c' sp).
Proof.
  intro H. unfold q_at_span.
  destruct (q_at_index_twin (fst sp) H) as [A B]. destruct (q_at_index c (fst sp)) as [c1 l], (q_at_index c' (fst sp)) as [c1' l']. cbn [fst snd] in A, B. subst l'.
  destruct (q_at_index_twin (snd sp - 1) A) as [A' B']. destruct (q_at_index c1 (snd sp - 1)) as [c2 l2], (q_at_index c1' (snd sp - 1)) as [c2' l2']. cbn [fst snd] in A', B'. subst l2'.
  split; [exact A'|reflexivity].
Qed.

(** ** mutators *)
Lemma with_del_twin c c' d : twin c c' -> twin (with_del c d) (with_del c' d).
Proof.
  intros (d' & -> & H). exists d'. split; [reflexivity|exact H].
Qed.
Lemma push_agree M ks m d d' : ends_agree M d d' -> ends_agree M (push_all ks m d) (push_all ks m d').
Proof.
  destruct d as [d|], d' as [d'|]; simpl; try tauto. intros [A B]. split.
  - intro k. rewrite !dget_fold_push, A. reflexivity.
  - intros k Hk. rewrite !dkeys_fold_push, (B k Hk). tauto.
Qed.
Lemma add_match_twin m c c' : twin c c' -> trel (add_match c m) (add_match c' m).
Proof.
  intros (d & -> & H). unfold add_match. cbn [with_ending c_kind].
  destruct (accepts (c_kind c) m); [|split; [exists d; split; [reflexivity|exact H] | reflexivity]].
  split; [|reflexivity]. exists (push_all (end_keys m) m d). split; [reflexivity|]. cbn [fst c_maxend c_ending].
  apply push_agree. eapply ends_agree_le; [|exact H]. lia.
Qed.
Lemma remove_keys_agree M ks m : forall d d', ends_agree M (Some d) (Some d') ->
  snd (remove_keys ks m d) = snd (remove_keys ks m d') /\ ends_agree M (Some (fst (remove_keys ks m d))) (Some (fst (remove_keys ks m d'))).
Proof.
  induction ks as [|k ks IH]; intros d d' H; cbn [remove_keys]; [split; [reflexivity|exact H]|].
  rewrite <- (proj1 H k). destruct (remove_first (meq m) (dget d k)) as [l|] eqn:E.
  - apply IH. destruct H as [A B]. split.
    + intro k'. rewrite !dget_dset, A. reflexivity.
    + intros k' Hk. rewrite !dkeys_dset_In, (B k' Hk). tauto.
  - split; [reflexivity|]. cbn [fst]. apply touch_agree, H.
Qed.
Lemma remove_all_agree M ks m d d' : ends_agree M d d' ->
  snd (remove_all ks m d) = snd (remove_all ks m d') /\ ends_agree M (fst (remove_all ks m d)) (fst (remove_all ks m d')).
Proof.
  destruct d as [d|], d' as [d'|]; try (intros []; fail).
  - intro H. unfold remove_all. destruct (@remove_keys_agree M ks m d d' H) as [A B].
    destruct (remove_keys ks m d) as [e r], (remove_keys ks m d') as [e' r']. cbn [fst snd] in *. split; assumption.
  - intros _. split; [reflexivity|exact I].
Qed.
Lemma fold_max_spec l : forall x y, fold_left Z.max l x = y <-> (y = x \/ In y l) /\ x <= y /\ forall z, In z l -> z <= y.
Proof.
  induction l as [|a l IH]; intros x y; simpl; split.
  - intros ->. split; [auto|]. split; [lia|tauto].
  - intros ([->|[]] & _); reflexivity.
  - intro E. apply IH in E as (A & B & C). split.
    + destruct A as [A|A]; [|auto]. destruct (Z.max_spec x a) as [[_ E]|[_ E]]; rewrite E in A; subst; auto.
    + split; [lia|]. intros z [->|Hz]; [lia|apply C, Hz].
  - intros (A & B & C). apply IH. pose proof (C a (or_introl eq_refl)). split.
    + destruct A as [->|[->|A]]; [left; lia|left; lia|auto].
    + split; [lia|]. intros z Hz. apply C; auto.
Qed.
Lemma zmax_list_spec l y : l <> [] -> (zmax_list l = y <-> In y l /\ forall z, In z l -> z <= y).
Proof.
  destruct l as [|x l]; [congruence|]. intros _. unfold zmax_list. rewrite fold_max_spec. split.
  - intros (A & B & C). split; [destruct A as [->|A]; simpl; auto|]. intros z [->|Hz]; [lia|apply C, Hz].
  - intros ([->|A] & B); (split; [auto|]; split; [apply B; simpl; auto | intros z Hz; apply B; simpl; auto]).
Qed.
(** the greatest key does not depend on the keys up to [M], if there is a key from [M] on *)
Lemma zmax_agree M l l' i : M <= i -> In i l -> In i l' -> (forall k, M < k -> (In k l <-> In k l')) -> zmax_list l = zmax_list l'.
Proof.
  intros Hi H H' E. assert (l' <> []) as N' by (intros ->; exact H'). assert (l <> []) as N by (intros ->; exact H).
  symmetry. apply zmax_list_spec; [exact N'|]. destruct (proj1 (@zmax_list_spec l (zmax_list l) N) eq_refl) as [A B].
  pose proof (B i H) as Bi. assert (forall z, In z l' -> z <= zmax_list l) as B'.
  { intros z Hz. destruct (Z.le_gt_cases z M); [lia|]. apply B, E; auto. }
  split; [|exact B']. destruct (Z.eq_dec (zmax_list l) i) as [->|]; [exact H'|]. apply E; [lia|exact A].
Qed.
Lemma zmax_ge l k : In k l -> k <= zmax_list l.
Proof. intro H. assert (l <> []) as N by (intros ->; exact H). apply (proj1 (@zmax_list_spec l (zmax_list l) N) eq_refl), H. Qed.

Lemma shrink_twin m c c' : twin c c' -> twin (shrink_maxend c m) (shrink_maxend c' m).
Proof.
  intros (d & -> & H). unfold shrink_maxend. cbn [with_ending c_maxend]. destruct (Z.geb_spec (m_end m) (c_maxend c)) as [Hm|Hm].
  2:{ exists d. split; [reflexivity|exact H]. }
  pose proof (touch_agree (m_end m) (ending_agree H)) as [A B]. cbv zeta. rewrite (A (m_end m)).
  set (d1 := dtouch (ending_dict c) (m_end m)) in *. set (d2 := dtouch (ending_dict (with_ending c d)) (m_end m)) in *.
  assert (zmax_list (dkeys d1) = zmax_list (dkeys d2)) as Ez.
  { apply zmax_agree with (M := c_maxend c) (i := m_end m); [lia| | |exact B]; apply dkeys_dtouch_In; auto. }
  assert (m_end m <= zmax_list (dkeys d1)) as Hz by (apply zmax_ge, dkeys_dtouch_In; auto).
  destruct (dget d2 (m_end m)).
  - exists (Some d2). split; [rewrite Ez; reflexivity|]. cbn [with_maxend with_ending c_maxend c_ending].
    split; [exact A|]. intros k Hk. apply B. lia.
  - exists (Some d2). split; [reflexivity|]. split; [exact A|exact B].
Qed.
Lemma remove_match_twin m c c' : twin c c' -> trel (remove_match c m) (remove_match c' m).
Proof.
  intros (d & -> & H). unfold remove_match. cbn [with_ending c_named].
  destruct (remove_all (name_keys m) m (c_named c)) as [n r1]. cbv zeta.
  destruct r1 as [u1|e]; [|split; [exists d; split; [reflexivity|exact H]|reflexivity]].
  cbn [with_named with_ending c_tagged].
  destruct (remove_all (tag_keys m) m (c_tagged c)) as [t r2].
  destruct r2 as [u2|e]; [|split; [exists d; split; [reflexivity|exact H]|reflexivity]].
  cbn [with_tagged with_named with_ending c_starting].
  destruct (remove_all (start_keys m) m (c_starting c)) as [st r3].
  destruct r3 as [u3|e]; [|split; [exists d; split; [reflexivity|exact H]|reflexivity]].
  cbn [with_starting with_tagged with_named with_ending c_ending].
  destruct (@remove_all_agree _ (end_keys m) m _ _ H) as [A B].
  destruct (remove_all (end_keys m) m (c_ending c)) as [en r4], (remove_all (end_keys m) m d) as [en' r4']. cbn [fst snd] in A, B. subst r4'.
  destruct r4 as [u4|e]; [|split; [exists en'; split; [reflexivity|exact B]|reflexivity]].
  cbn [with_starting with_tagged with_named with_ending c_indexed].
  destruct (remove_all (index_keys m) m (c_indexed c)) as [ix r5].
  destruct r5 as [u5|e]; [|split; [exists en'; split; [reflexivity|exact B]|reflexivity]].
  split; [|reflexivity]. cbn [fst]. apply shrink_twin. exists en'. split; [reflexivity|exact B].
Qed.

Lemma insert_twin i m c c' : twin c c' -> trel (insert c i m) (insert c' i m).
Proof. intro H. unfold insert. rewrite <- (twin_del H). apply add_match_twin, with_del_twin, H. Qed.
Lemma append_twin m c c' : twin c c' -> trel (append c m) (append c' m).
Proof. intro H. unfold append. rewrite <- (twin_del H). apply insert_twin, H. Qed.
Lemma extend_twin ms : forall c c', twin c c' -> trel (extend c ms) (extend c' ms).
Proof.
  induction ms as [|m ms IH]; intros c c' H; cbn [extend]; [split; [exact H|reflexivity]|].
  destruct (append_twin m H) as [A B]. destruct (append c m) as [c1 r], (append c' m) as [c1' r']. cbn [fst snd] in A, B. subst r'.
  destruct r; [apply IH, A | split; [exact A|reflexivity]].
Qed.
Lemma delitem_twin i c c' : twin c c' -> trel (delitem c i) (delitem c' i).
Proof.
  intro H. unfold delitem. rewrite <- (twin_del H). destruct (py_pos (c_del c) i); [|split; [exact H|reflexivity]].
  destruct (nth_error (c_del c) n); [|split; [exact H|reflexivity]]. apply remove_match_twin, with_del_twin, H.
Qed.
Lemma remove_matches_twin ms : forall c c', twin c c' -> trel (remove_matches c ms) (remove_matches c' ms).
Proof.
  induction ms as [|m ms IH]; intros c c' H; cbn [remove_matches]; [split; [exact H|reflexivity]|].
  destruct (remove_match_twin m H) as [A B]. destruct (remove_match c m) as [c1 r], (remove_match c' m) as [c1' r']. cbn [fst snd] in A, B. subst r'.
  destruct r; [apply IH, A | split; [exact A|reflexivity]].
Qed.
Lemma pop_twin i c c' : twin c c' -> trel (pop c i) (pop c' i).
Proof.
  intro H. unfold pop. rewrite <- (twin_del H). destruct (py_nth (c_del c) i); [|split; [exact H|reflexivity]].
  destruct (delitem_twin i H) as [A B]. destruct (delitem c i) as [c1 r], (delitem c' i) as [c1' r']. cbn [fst snd] in A, B. subst r'.
  destruct r; split; try exact A; reflexivity.
Qed.
Lemma remove_twin m c c' : twin c c' -> trel (remove c m) (remove c' m).
Proof.
  intro H. unfold remove, seq_index. rewrite <- (twin_del H). destruct (index_of (meq m) (c_del c)); [|split; [exact H|reflexivity]].
  apply delitem_twin, H.
Qed.
Lemma clear_loop_twin n : forall c c', twin c c' -> trel (clear_loop n c) (clear_loop n c').
Proof.
  induction n as [|n IH]; intros c c' H; cbn [clear_loop]; [split; [exact H|reflexivity]|].
  destruct (pop_twin (-1) H) as [A B]. destruct (pop c (-1)) as [c1 r], (pop c' (-1)) as [c1' r']. cbn [fst snd] in A, B. subst r'.
  destruct r as [x|e]; [apply IH, A|]. destruct e; split; try exact A; reflexivity.
Qed.
Lemma setitem_twin i m c c' : twin c c' -> trel (setitem c i m) (setitem c' i m).
Proof.
  intro H. unfold setitem. rewrite <- (twin_del H). destruct (py_pos (c_del c) i); [|split; [exact H|reflexivity]].
  apply add_match_twin, with_del_twin, H.
Qed.
Lemma add_matches_twin ms : forall c c', twin c c' -> trel (add_matches c ms) (add_matches c' ms).
Proof.
  induction ms as [|m ms IH]; intros c c' H; cbn [add_matches]; [split; [exact H|reflexivity]|].
  destruct (add_match_twin m H) as [A B]. destruct (add_match c m) as [c1 r], (add_match c' m) as [c1' r']. cbn [fst snd] in A, B. subst r'.
  destruct r; [apply IH, A | split; [exact A|reflexivity]].
Qed.
Lemma reverse_loop_twin n is : forall c c', twin c c' -> trel (reverse_loop n is c) (reverse_loop n is c').
Proof.
  induction is as [|i is IH]; intros c c' H; cbn [reverse_loop]; [split; [exact H|reflexivity]|].
  rewrite <- (twin_del H). destruct (py_nth (c_del c) (n - i - 1)) as [a|]; [|split; [exact H|reflexivity]].
  destruct (py_nth (c_del c) i) as [b|]; [|split; [exact H|reflexivity]].
  destruct (setitem_twin i a H) as [A B]. destruct (setitem c i a) as [c1 r], (setitem c' i a) as [c1' r']. cbn [fst snd] in A, B. subst r'.
  destruct r; [|split; [exact A|reflexivity]].
  destruct (setitem_twin (n - i - 1) b A) as [A' B']. destruct (setitem c1 (n - i - 1) b) as [c2 r], (setitem c1' (n - i - 1) b) as [c2' r']. cbn [fst snd] in A', B'. subst r'.
  destruct r; [apply IH, A' | split; [exact A'|reflexivity]].
Qed.

Lemma unit_out_twin r r' : trel r r' -> trel (unit_out r) (unit_out r').
Proof. intros [A B]. split; [exact A|]. unfold unit_out. cbn [snd]. rewrite B. reflexivity. Qed.
Lemma list_out_twin r r' : trel r r' -> trel (list_out r) (list_out r').
Proof. intros [A B]. split; [exact A|]. unfold list_out. cbn [snd]. rewrite B. reflexivity. Qed.
Lemma let_twin {A B} (g : A -> B) r r' : trel r r' -> trel (let '(c, x) := r in (c, g x)) (let '(c, x) := r' in (c, g x)).
Proof. destruct r as [c x], r' as [c' x']. intros [H E]. cbn [fst snd] in *. subst. split; [exact H|reflexivity]. Qed.

(** no call tells twins apart, and it leaves twins *)
Theorem step_twin o c c' : twin c c' -> trel (step c o) (step c' o).
Proof.
  intro H. destruct o; cbn [step].
  - apply unit_out_twin, append_twin, H.
  - apply unit_out_twin, insert_twin, H.
  - apply unit_out_twin, extend_twin, H.
  - apply unit_out_twin, remove_twin, H.
  - apply unit_out_twin, delitem_twin, H.
  - apply unit_out_twin. unfold delslice. rewrite <- (twin_del H). apply remove_matches_twin, with_del_twin, H.
  - apply (@let_twin (res mtch) out (fun r => match r with Ok m => RMatch m | Err e => RErr e end)), pop_twin, H.
  - apply unit_out_twin. unfold clear. rewrite <- (twin_del H). apply clear_loop_twin, H.
  - apply unit_out_twin, setitem_twin, H.
  - apply unit_out_twin. unfold setslice. rewrite <- (twin_del H). apply add_matches_twin, with_del_twin, H.
  - apply unit_out_twin. unfold reverse. rewrite <- (twin_del H). apply reverse_loop_twin, H.
  - apply (@let_twin (list mtch) out RList), q_named_loop_twin, H.
  - apply (@let_twin (list mtch) out RList), q_tagged_twin, H.
  - apply (@let_twin (list mtch) out RList), q_starting_twin, H.
  - apply (@let_twin (list mtch) out RList), q_ending_twin, H.
  - apply (@let_twin (list mtch) out RList), q_at_index_twin, H.
  - apply (@let_twin (list mtch) out RList), previous_loop_twin, H.
  - apply (@let_twin (list mtch) out RList). unfold q_next. rewrite <- (twin_maxend H). apply next_loop_twin, H.
  - split; [exact H|]. cbn [snd]. unfold q_range. rewrite <- (twin_del H), <- (twin_range_end j H). reflexivity.
  - apply (@let_twin (res (list (Z * Z))) out (fun r => match r with Ok l => RSpans l | Err e => RErr e end)), q_holes_twin, H.
  - apply list_out_twin, q_conflicting_twin, H.
  - apply (@let_twin (list mtch) out RList), q_at_span_twin, H.
  - apply list_out_twin. unfold q_chain_before. rewrite <- (twin_max_end H). apply chain_loop_twin, H.
  - apply list_out_twin. unfold q_chain_after. rewrite <- (twin_range_end en H). apply chain_loop_twin, H.
  - apply (@let_twin (list pstr) out RKeys), q_names_twin, H.
  - apply (@let_twin (list pstr) out RKeys), q_tags_twin, H.
Qed.

Lemma upd_dict_get {K} `{Eqb K} (g : mtch -> mtch) (d : mdict K) k :
  dget (map (fun kv => (fst kv, map g (snd kv))) d) k = map g (dget d k).
Proof.
  unfold dget. induction d as [|[k0 l] d IH]; [reflexivity|]. cbn [map fst snd dfind]. destruct (eqb k k0); [reflexivity|exact IH].
Qed.
Lemma upd_dict_keys {K} (g : mtch -> mtch) (d : mdict K) : dkeys (map (fun kv => (fst kv, map g (snd kv))) d) = dkeys d.
Proof. unfold dkeys. rewrite map_map. apply map_ext. reflexivity. Qed.
Lemma assign_twin id g c c' : twin c c' -> twin (assign id g c) (assign id g c').
Proof.
  intros (d & -> & H). exists (upd_dict (upd id g) d). split; [reflexivity|]. cbn [assign c_maxend c_ending].
  destruct (c_ending c) as [e|], d as [d|]; cbn [upd_dict]; try contradiction; [|exact I].
  destruct H as [A B]. split; [intro k; rewrite !upd_dict_get, A; reflexivity|]. intros k Hk. rewrite !upd_dict_keys. apply B, Hk.
Qed.

(** ** results that no computation tells apart *)
Definition twins (f f' : found) : Prop :=
  fd_next f = fd_next f' /\ twin (fd_matches f) (fd_matches f') /\ twin (fd_markers f) (fd_markers f') /\ fd_keys f = fd_keys f'.
Lemma twins_refl f : twins f f.
Proof. split; [reflexivity|]. split; [apply twin_refl|]. split; [apply twin_refl|reflexivity]. Qed.
Lemma twins_part w f f' : twins f f' -> twin (part_of w f) (part_of w f').
Proof. intros (_ & A & B & _). destruct w; assumption. Qed.
Lemma twins_with_part w f f' c c' : twins f f' -> twin c c' -> twins (with_part w f c) (with_part w f' c').
Proof. intros (N & A & B & K) H. destruct w; repeat split; assumption. Qed.

Lemma perform_twin {A} (p : play A) : forall f f', twins f f' -> snd (perform p f) = snd (perform p f') /\ twins (fst (perform p f)) (fst (perform p f')).
Proof.
  induction p as [x|e|w o k IH|w k IH|w k IH|k IH|k IH|id g k IH]; intros f f' H; cbn [perform].
  - split; [reflexivity|exact H].
  - split; [reflexivity|exact H].
  - destruct (step_twin o (twins_part w H)) as [P Q].
    destruct (step (part_of w f) o) as [c r], (step (part_of w f') o) as [c' r']. cbn [fst snd] in P, Q. subst r'.
    apply IH, twins_with_part; assumption.
  - rewrite <- (twin_del (twins_part w H)). apply IH, H.
  - rewrite <- (twin_max_end (twins_part w H)). apply IH, H.
  - destruct H as (N & P & Q & K). rewrite <- K. apply IH. repeat split; assumption.
  - destruct H as (N & P & Q & K). rewrite <- N. apply IH. repeat split; assumption.
  - destruct H as (N & P & Q & K). apply IH. split; [exact N|]. split; [apply assign_twin, P|]. split; [apply assign_twin, Q|exact K].
Qed.

(** ** removals in another order *)
Section Remove_first.
  Context {A : Type}.
  Fixpoint take (p : A -> bool) (l : list A) : option (A * list A) :=
    match l with
    | [] => None
    | x :: r => if p x then Some (x, r) else match take p r with Some (y, r') => Some (y, x :: r') | None => None end
    end.
  Lemma take_remove p l : remove_first p l = option_map snd (take p l).
  Proof.
    induction l as [|x l IH]; simpl; [reflexivity|]. destruct (p x); [reflexivity|]. rewrite IH.
    destruct (take p l) as [[y r]|]; reflexivity.
  Qed.
  Lemma take_true p l y r : take p l = Some (y, r) -> p y = true /\ In y l.
  Proof.
    revert r. induction l as [|x l IH]; simpl; intros r H; [discriminate|]. destruct (p x) eqn:E.
    - injection H as <- <-. auto.
    - destruct (take p l) as [[y' r']|]; [|discriminate]. injection H as -> <-. destruct (IH _ eq_refl). auto.
  Qed.
  Lemma take_ext p q l : (forall x, p x = q x) -> take p l = take q l.
  Proof. intro E. induction l as [|x l IH]; simpl; [reflexivity|]. rewrite E, IH. reflexivity. Qed.
  (** taking out two elements of different classes, in either order *)
  Lemma take_comm p q l a l1 b l2 : (forall x, p x = true -> q x = true -> False) ->
    take p l = Some (a, l1) -> take q l1 = Some (b, l2) -> exists l1', take q l = Some (b, l1') /\ take p l1' = Some (a, l2).
  Proof.
    intro D. revert l1 l2. induction l as [|x l IH]; simpl; intros l1 l2 H H'; [discriminate|].
    destruct (p x) eqn:Ep.
    - injection H as <- <-. destruct (q x) eqn:Eq; [destruct (D x Ep Eq)|]. rewrite H'. exists (x :: l2). split; [reflexivity|]. simpl. rewrite Ep. reflexivity.
    - destruct (take p l) as [[y r]|] eqn:Et; [|discriminate]. injection H as -> <-. simpl in H'. destruct (q x) eqn:Eq.
      + injection H' as <- <-. exists l. split; [reflexivity|exact Et].
      + destruct (take q r) as [[z r']|] eqn:Er; [|discriminate]. injection H' as -> <-.
        destruct (IH r r' eq_refl Er) as (l1' & E1 & E2). exists (x :: l1'). rewrite E1. split; [reflexivity|]. simpl. rewrite Ep, E2. reflexivity.
  Qed.
  Lemma take_none p q l a l1 : (forall x, p x = true -> q x = true -> False) -> take p l = Some (a, l1) -> take q l1 = None -> take q l = None.
  Proof.
    intro D. revert l1. induction l as [|x l IH]; simpl; intros l1 H H'; [discriminate|]. destruct (p x) eqn:Ep.
    - injection H as <- <-. destruct (q x) eqn:Eq; [destruct (D x Ep Eq)|]. rewrite H'. reflexivity.
    - destruct (take p l) as [[y r]|] eqn:Et; [|discriminate]. injection H as -> <-. simpl in H'. destruct (q x); [discriminate|].
      destruct (take q r) as [[z r']|] eqn:Er; [discriminate|]. rewrite (IH r eq_refl Er). reflexivity.
  Qed.
  Lemma take_none' p q l a l1 : (forall x, p x = true -> q x = true -> False) -> take p l = Some (a, l1) -> take q l = None -> take q l1 = None.
  Proof.
    intro D. revert l1. induction l as [|x l IH]; simpl; intros l1 H H'; [discriminate|]. destruct (q x) eqn:Eq; [discriminate|].
    destruct (take q l) as [[z r']|] eqn:Er; [discriminate|]. destruct (p x) eqn:Ep.
    - injection H as <- <-. exact Er.
    - destruct (take p l) as [[y r]|] eqn:Et; [|discriminate]. injection H as -> <-. simpl. rewrite Eq, (IH r eq_refl eq_refl). reflexivity.
  Qed.
  Lemma take_filter p q l a l1 : (forall x, p x = true -> q x = true) -> take p l = Some (a, l1) -> take p (filter q l) = Some (a, filter q l1).
  Proof.
    intro D. revert l1. induction l as [|x l IH]; simpl; intros l1 H; [discriminate|]. destruct (p x) eqn:Ep.
    - injection H as <- <-. rewrite (D x Ep). simpl. rewrite Ep. reflexivity.
    - destruct (take p l) as [[y r]|] eqn:Et; [|discriminate]. injection H as -> <-. simpl. specialize (IH r eq_refl).
      destruct (q x); simpl; [rewrite Ep|]; rewrite IH; reflexivity.
  Qed.
  Lemma take_filter_other p q l a l1 : q a = false -> take p l = Some (a, l1) -> filter q l = filter q l1.
  Proof.
    intro D. revert l1. induction l as [|x l IH]; simpl; intros l1 H; [discriminate|]. destruct (p x) eqn:Ep.
    - injection H as <- <-. rewrite D. reflexivity.
    - destruct (take p l) as [[y r]|] eqn:Et; [|discriminate]. injection H as -> <-. simpl. rewrite (IH r eq_refl). reflexivity.
  Qed.
  Lemma take_In p l a l1 : take p l = Some (a, l1) -> forall x, In x l <-> x = a \/ In x l1.
  Proof.
    revert l1. induction l as [|x l IH]; simpl; intros l1 H z; [discriminate|]. destruct (p x) eqn:Ep.
    - injection H as <- <-. intuition congruence.
    - destruct (take p l) as [[y r]|] eqn:Et; [|discriminate]. injection H as -> <-. simpl. rewrite (IH r eq_refl). tauto.
  Qed.
End Remove_first.

Lemma meq_trans_eq a b x : meq a b = true -> meq a x = meq b x.
Proof.
  intro H. apply meq_mkey in H. destruct (meq a x) eqn:E, (meq b x) eqn:E'; try reflexivity.
  - apply meq_mkey in E. assert (meq b x = true) by (apply meq_mkey; congruence). congruence.
  - apply meq_mkey in E'. assert (meq a x = true) by (apply meq_mkey; congruence). congruence.
Qed.
Lemma meq_classes a b x : meq a b = false -> meq a x = true -> meq b x = true -> False.
Proof. intros H E E'. apply meq_mkey in E, E'. assert (meq a b = true) by (apply meq_mkey; congruence). congruence. Qed.

(** [remove_first] for two matches, in either order *)
Lemma remove_first_comm a b l l1 l2 : remove_first (meq a) l = Some l1 -> remove_first (meq b) l1 = Some l2 ->
  exists l1', remove_first (meq b) l = Some l1' /\ remove_first (meq a) l1' = Some l2.
Proof.
  destruct (meq a b) eqn:E.
  - intros H H'. assert (forall l, remove_first (meq a) l = remove_first (meq b) l) as X.
    { intro l0. rewrite !take_remove. rewrite (@take_ext _ (meq a) (meq b)); [reflexivity|]. intro x. apply meq_trans_eq, E. }
    exists l1. rewrite <- X. split; [exact H|]. rewrite X. exact H'.
  - rewrite !take_remove. intros H H'. destruct (take (meq a) l) as [[x r]|] eqn:E1; [|discriminate]. simpl in H. injection H as ->.
    destruct (take (meq b) l1) as [[y r']|] eqn:E2; [|discriminate]. simpl in H'. injection H' as ->.
    destruct (@take_comm _ _ _ _ _ _ _ _ (fun z => @meq_classes a b z E) E1 E2) as (l1' & A & B).
    exists l1'. rewrite !take_remove, A, B. split; reflexivity.
Qed.

Section Dict_comm.
  Context {K : Type} `{EK : Eqb K}.
  Implicit Types d : mdict K.
  Lemma dset_twice d k u v : dset (dset d k u) k v = dset d k v.
  Proof.
    induction d as [|[k0 w] d IH]; cbn [dset]; [rewrite eqb_refl; reflexivity|]. destruct (eqb k k0) eqn:E; cbn [dset]; rewrite E; [reflexivity|]. rewrite IH. reflexivity.
  Qed.
  Lemma dset_comm d k k' u v : k <> k' -> In k (dkeys d) -> In k' (dkeys d) -> dset (dset d k u) k' v = dset (dset d k' v) k u.
  Proof.
    intros N. induction d as [|[k0 w] d IH]; cbn [dset dkeys map fst]; intros H H'; [destruct H|].
    destruct (eqb k k0) eqn:E, (eqb k' k0) eqn:E'; cbn [dset]; rewrite ?E, ?E'; try reflexivity.
    - apply eqb_eq in E, E'. congruence.
    - apply eqb_neq in E, E'. destruct H as [H|H]; [congruence|]. destruct H' as [H'|H']; [congruence|].
      f_equal. apply IH; assumption.
  Qed.
  (** one removal under one key *)
  Definition prim k m d : option (mdict K) := option_map (dset d k) (remove_first (meq m) (dget d k)).
  Lemma prim_comm k m k' m' d d1 d2 : prim k m d = Some d1 -> prim k' m' d1 = Some d2 ->
    exists d1', prim k' m' d = Some d1' /\ prim k m d1' = Some d2.
  Proof.
    unfold prim. destruct (remove_first (meq m) (dget d k)) as [l|] eqn:E; [|discriminate]. intro H. injection H as <-.
    rewrite dget_dset. destruct (eqb k' k) eqn:Ek.
    - apply eqb_eq in Ek as ->. destruct (remove_first (meq m') l) as [l2|] eqn:E'; [|discriminate]. intro H. injection H as <-.
      destruct (remove_first_comm E E') as (l1' & A & B). rewrite A. exists (dset d k l1'). split; [reflexivity|].
      rewrite dget_dset, eqb_refl, B. cbn [option_map]. rewrite !dset_twice. reflexivity.
    - destruct (remove_first (meq m') (dget d k')) as [l2|] eqn:E'; [|discriminate]. intro H. injection H as <-.
      exists (dset d k' l2). split; [reflexivity|]. rewrite dget_dset. assert (eqb k k' = false) as Ek'.
      { apply eqb_neq. apply eqb_neq in Ek. congruence. }
      rewrite Ek', E. cbn [option_map]. f_equal. symmetry. apply eqb_neq in Ek. apply dset_comm; [congruence| |];
        apply dget_In_keys; intro X; rewrite X in *; discriminate.
  Qed.
  Fixpoint prims (ks : list K) m d : option (mdict K) :=
    match ks with [] => Some d | k :: r => match prim k m d with Some d1 => prims r m d1 | None => None end end.
  Lemma remove_keys_prims ks m : forall d, remove_keys ks m d = match prims ks m d with Some d' => (d', Ok tt) | None => (fst (remove_keys ks m d), Err ValueError) end.
  Proof.
    induction ks as [|k ks IH]; intro d; cbn [remove_keys prims]; [reflexivity|]. unfold prim.
    destruct (remove_first (meq m) (dget d k)) as [l|]; cbn [option_map]; [apply IH|reflexivity].
  Qed.
  Lemma prims_prim ks m k' m' : forall d d1 d2, prims ks m d = Some d1 -> prim k' m' d1 = Some d2 ->
    exists d1', prim k' m' d = Some d1' /\ prims ks m d1' = Some d2.
  Proof.
    induction ks as [|k ks IH]; cbn [prims]; intros d d1 d2 H H'; [injection H as ->; exists d2; split; [exact H'|reflexivity]|].
    destruct (prim k m d) as [d0|] eqn:E; [|discriminate]. destruct (IH _ _ _ H H') as (d0' & A & B).
    destruct (prim_comm E A) as (d1' & A' & B'). exists d1'. rewrite B'. split; assumption.
  Qed.
  Lemma prims_comm ks m ks' m' : forall d d1 d2, prims ks m d = Some d1 -> prims ks' m' d1 = Some d2 ->
    exists d1', prims ks' m' d = Some d1' /\ prims ks m d1' = Some d2.
  Proof.
    induction ks' as [|k ks' IH]; cbn [prims]; intros d d1 d2 H H'; [injection H' as ->; exists d; split; [reflexivity|exact H]|].
    destruct (prim k m' d1) as [d3|] eqn:E; [|discriminate]. destruct (prims_prim H E) as (d0 & A & B). rewrite A.
    apply (IH _ _ _ B H').
  Qed.
  Lemma remove_keys_ok ks m d d' : remove_keys ks m d = (d', Ok tt) <-> prims ks m d = Some d'.
  Proof. rewrite remove_keys_prims. destruct (prims ks m d); split; intro H; congruence. Qed.
  Lemma remove_all_comm ks m ks' m' (d d1 d2 : option (mdict K)) :
    remove_all ks m d = (d1, Ok tt) -> remove_all ks' m' d1 = (d2, Ok tt) ->
    exists o, remove_all ks' m' d = (o, Ok tt) /\ remove_all ks m o = (d2, Ok tt).
  Proof.
    destruct d as [d|]; cbn [remove_all].
    - destruct (remove_keys ks m d) as [e r] eqn:E. intro H. injection H as <- ->. cbn [remove_all].
      destruct (remove_keys ks' m' e) as [e' r'] eqn:E'. intro H. injection H as <- ->.
      apply remove_keys_ok in E, E'. destruct (prims_comm E E') as (d1' & A & B). exists (Some d1'). cbn [remove_all].
      rewrite (proj2 (remove_keys_ok _ _ _ _) A), (proj2 (remove_keys_ok _ _ _ _) B). split; reflexivity.
    - intro H. injection H as <-. cbn [remove_all]. intro H. injection H as <-. exists None. split; reflexivity.
  Qed.
  Lemma prims_keys ks m : forall d d', prims ks m d = Some d' -> dkeys d' = dkeys d.
  Proof.
    induction ks as [|k ks IH]; cbn [prims]; intros d d' H; [injection H as ->; reflexivity|].
    unfold prim in H. destruct (remove_first (meq m) (dget d k)) as [l|] eqn:E; [|discriminate]. cbn [option_map] in H.
    rewrite (IH _ _ H), dkeys_dset. destruct (dmem d k) eqn:Em; [reflexivity|].
    assert (In k (dkeys d)) as X by (apply dget_In_keys; intro X; rewrite X in E; discriminate).
    apply dmem_In in X. congruence.
  Qed.
  Lemma remove_all_err ks m (d d1 : option (mdict K)) e : remove_all ks m d = (d1, Err e) -> e = ValueError.
  Proof.
    destruct d as [d|]; cbn [remove_all]; [|discriminate]. rewrite remove_keys_prims. destruct (prims ks m d); intro H; congruence.
  Qed.
End Dict_comm.
