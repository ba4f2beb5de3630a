(** Facts: each dictionary of the collection is the register of SpecFiled.v, by key. *)
From Verif Require Import Base BaseFacts Match Spec MatchFacts Coll CollFacts CollQuery CollSem CollSem2 SpecColl CollHist CollUniv CollOrder SpecFiled.
From Coq Require Import ZifyBool.
Set Implicit Arguments.
Unset Strict Implicit.
Open Scope Z_scope.

(** the dictionary of family [f] exists and lists the matches of [g], by key and in order *)
Definition fam (f : family) (c : coll) (g : list mtch) : Prop :=
  match f with
  | ByName => exists d, c_named c = Some d /\ forall k, dget d k = occ name_keys k g
  | ByTag => exists d, c_tagged c = Some d /\ forall k, dget d k = occ tag_keys k g
  | ByStart => exists d, c_starting c = Some d /\ forall k, dget d k = occ start_keys k g
  | ByEnd => exists d, c_ending c = Some d /\ forall k, dget d k = occ end_keys k g
  | ByIndex => exists d, c_indexed c = Some d /\ forall k, dget d k = occ index_keys k g
  end.
Definition unfilled (f : family) (c : coll) : Prop :=
  match f with
  | ByName => c_named c = None
  | ByTag => c_tagged c = None
  | ByStart => c_starting c = None
  | ByEnd => c_ending c = None
  | ByIndex => c_indexed c = None
  end.

Lemma fam_with_del f c l g : fam f c g -> fam f (with_del c l) g.
Proof. destruct f; exact (fun H => H). Qed.
Lemma unfilled_with_del f c l : unfilled f c -> unfilled f (with_del c l).
Proof. destruct f; exact (fun H => H). Qed.

(** ** Additions *)
Lemma push_some {K} `{Eqb K} (ks : mtch -> list K) m od g :
  (exists d, od = Some d /\ forall k, dget d k = occ ks k g) ->
  exists d, push_all (ks m) m od = Some d /\ forall k, dget d k = occ ks k (g ++ [m]).
Proof.
  intros (d & -> & Hd). simpl. eexists. split; [reflexivity|]. intro k. rewrite dget_fold_push, Hd, occ_app. simpl. rewrite app_nil_r. reflexivity.
Qed.
Lemma fam_add f c m g : accepts (c_kind c) m = true -> fam f c g -> fam f (fst (add_match c m)) (g ++ [m]).
Proof.
  intros Ha Hf. unfold add_match. rewrite Ha. destruct f; cbn [fst fam c_named c_tagged c_starting c_ending c_indexed] in *; apply push_some; exact Hf.
Qed.
Lemma unfilled_add f c m : unfilled f c -> unfilled f (fst (add_match c m)).
Proof.
  unfold add_match. destruct (accepts (c_kind c) m); [|auto].
  destruct f; cbn [fst unfilled c_named c_tagged c_starting c_ending c_indexed]; intros ->; reflexivity.
Qed.

(** ** Removals *)
Lemma remove_first_exact' m x a n b : (forall y, In y a -> meq m y = false) -> meq m x = true ->
  remove_first (meq m) (a ++ repeat x (S n) ++ b) = Some (a ++ repeat x n ++ b).
Proof.
  intros Ha Hx. induction a as [|y a IH]; simpl.
  - rewrite Hx. reflexivity.
  - rewrite (Ha y) by (left; reflexivity). simpl in IH. rewrite IH by (intros; apply Ha; right; assumption). reflexivity.
Qed.
Lemma remove_keys_exact' {K} `{Eqb K} m x (keys : list K) (A B : K -> list mtch) :
  (forall k y, In y (A k) -> meq m y = false) -> meq m x = true ->
  forall d : mdict K, (forall k, dget d k = A k ++ repeat x (countb (eqb k) keys) ++ B k) ->
  exists d', remove_keys keys m d = (d', Ok tt) /\ forall k, dget d' k = A k ++ B k.
Proof.
  intros HA Hx. induction keys as [|k0 keys IH]; intros d Hd; simpl.
  - exists d. split; [reflexivity|]. intro k. rewrite Hd. reflexivity.
  - rewrite (Hd k0), countb_cons, eqb_refl.
    change ((if true then 1 else 0) + countb (eqb k0) keys)%nat with (S (countb (eqb k0) keys)) || idtac.
    rewrite remove_first_exact' by (try exact Hx; intros y Hy; eapply HA; exact Hy).
    apply IH. intro k. rewrite dget_dset. destruct (eqb k k0) eqn:E.
    + apply eqb_eq in E. subst. reflexivity.
    + rewrite (Hd k), countb_cons, E. reflexivity.
Qed.
Lemma occ_empty {K} `{Eqb K} (ks : mtch -> list K) x k : ks x = [] -> occ ks k [x] = [].
Proof. intro E. simpl. rewrite E. reflexivity. Qed.

Lemma remove_some {K} `{Eqb K} (ks : mtch -> list K) m d g r od' :
  (forall k, dget d k = occ ks k g) -> (forall x, In x g -> meq m x = true -> ks x = ks m) ->
  remove_all (ks m) m (Some d) = (od', r) -> r = Ok tt ->
  exists d', od' = Some d' /\ forall k, dget d' k = occ ks k (note g (Gone m)).
Proof.
  intros Hd Hk Hr ->. cbn [note]. destruct (remove_first (meq m) g) as [g'|] eqn:E.
  - apply remove_first_Some in E as (a & x & b & -> & Hx & Ha & ->).
    assert (ks x = ks m) as Hkx by (apply Hk; [apply in_or_app; right; left; reflexivity | exact Hx]).
    destruct (@remove_keys_exact' _ _ m x (ks m) (fun k => occ ks k a) (fun k => occ ks k b)) with (d := d) as (d' & E & Hd').
    + intros k y Hy. apply occ_In in Hy as [Hy _]. auto.
    + exact Hx.
    + intro k. rewrite Hd, occ_app, occ_cons, Hkx. reflexivity.
    + cbn [remove_all] in Hr. rewrite E in Hr. injection Hr as <-. exists d'. split; [reflexivity|].
      intro k. rewrite Hd', occ_app. reflexivity.
  - cbn [remove_all] in Hr. destruct (ks m) as [|k0 keys] eqn:Ek.
    + simpl in Hr. injection Hr as <-. exists d. auto.
    + exfalso. cbn [remove_keys] in Hr. rewrite (proj2 (@remove_first_None _ (meq m) (dget d k0))) in Hr; [discriminate|].
      intros x Hx. rewrite Hd in Hx. apply occ_In in Hx as [Hx _]. rewrite remove_first_None in E. auto.
Qed.

(** [==] matches are filed under the same keys (for the tags this is a hypothesis) *)
Definition like_keys (f : family) (m : mtch) (g : list mtch) : Prop :=
  f = ByTag -> forall x, In x g -> meq m x = true -> m_tags x = m_tags m.
Lemma meq_keys m x : meq m x = true -> name_keys x = name_keys m /\ start_keys x = start_keys m /\ end_keys x = end_keys m /\ index_keys x = index_keys m.
Proof.
  intro H. apply meq_mkey in H. unfold name_keys, start_keys, end_keys, index_keys.
  assert (m_name m = m_name x /\ m_start m = m_start x /\ m_end m = m_end x) as (-> & -> & ->).
  { pose proof (mkey_name _ _ H). pose proof (mkey_start _ _ H). pose proof (mkey_end _ _ H). auto. }
  auto.
Qed.

Lemma remove_match_parts c m c' : remove_match c m = (c', Ok tt) ->
  exists n t st en ix,
    remove_all (name_keys m) m (c_named c) = (n, Ok tt) /\ remove_all (tag_keys m) m (c_tagged c) = (t, Ok tt)
    /\ remove_all (start_keys m) m (c_starting c) = (st, Ok tt) /\ remove_all (end_keys m) m (c_ending c) = (en, Ok tt)
    /\ remove_all (index_keys m) m (c_indexed c) = (ix, Ok tt)
    /\ c' = shrink_maxend (Coll (c_kind c) (c_input c) (c_maxend c) (c_del c) n t st en ix) m.
Proof.
  unfold remove_match. destruct (remove_all (name_keys m) m (c_named c)) as [n [[]|]]; [|discriminate].
  cbn [c_tagged with_named]. destruct (remove_all (tag_keys m) m (c_tagged c)) as [t [[]|]]; [|discriminate].
  cbn [c_starting with_tagged with_named]. destruct (remove_all (start_keys m) m (c_starting c)) as [st [[]|]]; [|discriminate].
  cbn [c_ending with_starting with_tagged with_named]. destruct (remove_all (end_keys m) m (c_ending c)) as [en [[]|]]; [|discriminate].
  cbn [c_indexed with_ending with_starting with_tagged with_named]. destruct (remove_all (index_keys m) m (c_indexed c)) as [ix [[]|]]; [|discriminate].
  intro H. injection H as <-. exists n, t, st, en, ix. repeat split.
Qed.
Lemma shrink_others c m : c_named (shrink_maxend c m) = c_named c /\ c_tagged (shrink_maxend c m) = c_tagged c
  /\ c_starting (shrink_maxend c m) = c_starting c /\ c_indexed (shrink_maxend c m) = c_indexed c /\ c_del (shrink_maxend c m) = c_del c.
Proof. unfold shrink_maxend. destruct (m_end m >=? c_maxend c); [|auto]. destruct (dget _ _); auto. Qed.
Lemma remove_all_none {K} `{Eqb K} (keys : list K) m od r : remove_all keys m None = (od, r) -> od = None.
Proof. simpl. congruence. Qed.

Lemma fam_remove f c m g c' : like_keys f m g -> remove_match c m = (c', Ok tt) -> fam f c g -> fam f c' (note g (Gone m)).
Proof.
  intros Hk Hr Hf. apply remove_match_parts in Hr as (n & t & st & en & ix & R1 & R2 & R3 & R4 & R5 & ->).
  destruct (shrink_others (Coll (c_kind c) (c_input c) (c_maxend c) (c_del c) n t st en ix) m) as (S1 & S2 & S3 & S5 & _).
  destruct f; cbn [fam] in *; destruct Hf as (d & Ed & Hd).
  - rewrite Ed in R1. rewrite S1. apply (remove_some Hd) in R1; [exact R1 | | reflexivity]. intros x _ Hx. apply meq_keys, Hx.
  - rewrite Ed in R2. rewrite S2. apply (remove_some Hd) in R2; [exact R2 | | reflexivity]. intros x Hx Hm. apply Hk; auto.
  - rewrite Ed in R3. rewrite S3. apply (remove_some Hd) in R3; [exact R3 | | reflexivity]. intros x _ Hx. apply meq_keys, Hx.
  - rewrite Ed in R4. apply (remove_some Hd) in R4; [| |reflexivity]; [|intros x _ Hx; apply meq_keys, Hx].
    destruct R4 as (d' & -> & Hd'). unfold shrink_maxend. cbn [c_maxend c_ending ending_dict].
    destruct (m_end m >=? c_maxend c); [|exists d'; auto].
    match goal with |- context [match ?x with [] => _ | _ => _ end] => destruct x end;
      (eexists; split; [reflexivity|]; intro k; rewrite dget_dtouch; apply Hd').
  - rewrite Ed in R5. rewrite S5. apply (remove_some Hd) in R5; [exact R5 | | reflexivity]. intros x _ Hx. apply meq_keys, Hx.
Qed.
(** an unfilled register stays so, except that of the ends, which is then filled with the contents *)
Lemma unfilled_remove f c m c' : remove_match c m = (c', Ok tt) -> unfilled f c ->
  unfilled f c' \/ (f = ByEnd /\ c_maxend c <= m_end m /\ fam ByEnd c' (c_del c)).
Proof.
  intros Hr Hf. apply remove_match_parts in Hr as (n & t & st & en & ix & R1 & R2 & R3 & R4 & R5 & ->).
  destruct (shrink_others (Coll (c_kind c) (c_input c) (c_maxend c) (c_del c) n t st en ix) m) as (S1 & S2 & S3 & S5 & _).
  destruct f; cbn [unfilled] in *.
  - left. rewrite S1. rewrite Hf in R1. eapply remove_all_none, R1.
  - left. rewrite S2. rewrite Hf in R2. eapply remove_all_none, R2.
  - left. rewrite S3. rewrite Hf in R3. eapply remove_all_none, R3.
  - rewrite Hf in R4. apply remove_all_none in R4. subst en. unfold shrink_maxend. cbn [c_maxend c_ending].
    destruct (Z.geb_spec (m_end m) (c_maxend c)); [right | left; reflexivity]. split; [reflexivity|]. split; [lia|].
    match goal with |- context [match ?x with [] => _ | _ => _ end] => destruct x end;
      (cbn [fam]; eexists; split; [reflexivity|]; intro k; rewrite dget_dtouch; unfold ending_dict; cbn [c_ending]; apply build_ending_get).
  - left. rewrite S5. rewrite Hf in R5. eapply remove_all_none, R5.
Qed.
Lemma remove_match_del c m : c_del (fst (remove_match c m)) = c_del c.
Proof.
  unfold remove_match.
  repeat match goal with |- context [let '(_, _) := ?x in _] => destruct x as [? [|]]; cbn [fst c_del with_named with_tagged with_starting with_ending with_indexed]; try reflexivity end.
  match goal with |- c_del (shrink_maxend ?c ?m) = _ => destruct (shrink_others c m) as (_ & _ & _ & _ & ->) end. reflexivity.
Qed.

(** ** Lookups *)
Definition same_dict (f : family) (c c' : coll) : Prop :=
  match f with
  | ByName => c_named c' = c_named c
  | ByTag => c_tagged c' = c_tagged c
  | ByStart => c_starting c' = c_starting c
  | ByEnd => c_ending c' = c_ending c
  | ByIndex => c_indexed c' = c_indexed c
  end.
Lemma same_unfilled f c c' : same_dict f c c' -> unfilled f c -> unfilled f c'.
Proof. destruct f; cbn; congruence. Qed.
Definition grows (fs : family -> bool) (c c' : coll) : Prop :=
  forall f, (unfilled f c' -> unfilled f c) /\ (fs f = false -> same_dict f c c').
Lemma grows_refl fs c : grows fs c c.
Proof. intro f. split; [auto|]. destruct f; reflexivity. Qed.
Lemma grows_trans fs a b c : grows fs a b -> grows fs b c -> grows fs a c.
Proof. intros H1 H2 f. destruct (H1 f) as [A1 A2], (H2 f) as [B1 B2]. split; [auto|]. intro E. specialize (A2 E). specialize (B2 E). destruct f; cbn in *; congruence. Qed.
Definition only (f : family) : family -> bool :=
  fun f' => match f, f' with
            | ByName, ByName | ByTag, ByTag | ByStart, ByStart | ByEnd, ByEnd | ByIndex, ByIndex => true
            | _, _ => false
            end.
Lemma grows_weaken fs fs' c c' : grows fs c c' -> (forall f, fs f = true -> fs' f = true) -> grows fs' c c'.
Proof.
  intros H Hf f. destruct (H f) as [H1 H2]. split; [exact H1|]. intro E. apply H2. destruct (fs f) eqn:Ef; [|reflexivity].
  rewrite (Hf f Ef) in E. discriminate.
Qed.
Ltac prim := intros []; cbn; split; intros; congruence || discriminate || auto.
Lemma grows_named1 c n : grows (only ByName) c (fst (q_named1 c n)).
Proof. prim. Qed.
Lemma grows_tagged c n : grows (only ByTag) c (fst (q_tagged c n)).
Proof. prim. Qed.
Lemma grows_starting c n : grows (only ByStart) c (fst (q_starting c n)).
Proof. prim. Qed.
Lemma grows_ending c n : grows (only ByEnd) c (fst (q_ending c n)).
Proof. prim. Qed.
Lemma grows_at c n : grows (only ByIndex) c (fst (q_at_index c n)).
Proof. prim. Qed.
Lemma grows_names c : grows (only ByName) c (fst (q_names c)).
Proof. prim. Qed.
Lemma grows_tags c : grows (only ByTag) c (fst (q_tags c)).
Proof. prim. Qed.
Lemma grows_named ns : forall c, grows (only ByName) c (fst (q_named_loop c ns)).
Proof.
  induction ns as [|n ns IH]; intro c; cbn [q_named_loop]; [apply grows_refl|].
  pose proof (grows_named1 c n) as H. destruct (q_named1 c n) as [c1 l]. cbn [fst] in H. specialize (IH c1).
  destruct (q_named_loop c1 ns). cbn [fst] in *. eapply grows_trans; eauto.
Qed.
Lemma grows_previous n : forall c i, grows (only ByEnd) c (fst (previous_loop n c i)).
Proof.
  induction n as [|n IH]; intros c i; cbn [previous_loop]; [apply grows_refl|].
  pose proof (grows_ending c i) as H. destruct (q_ending c i) as [c1 [|x l]]; cbn [fst] in *; [|exact H].
  eapply grows_trans; [exact H | apply IH].
Qed.
Lemma grows_next n : forall c i, grows (only ByStart) c (fst (next_loop n c i)).
Proof.
  induction n as [|n IH]; intros c i; cbn [next_loop]; [apply grows_refl|].
  pose proof (grows_starting c i) as H. destruct (q_starting c i) as [c1 [|x l]]; cbn [fst] in *; [|exact H].
  eapply grows_trans; [exact H | apply IH].
Qed.
Lemma grows_chain p seps is : forall c ch, grows (only ByIndex) c (fst (chain_loop p seps is c ch)).
Proof.
  induction is as [|i is IH]; intros c ch; cbn [chain_loop]; [apply grows_refl|].
  pose proof (grows_at c i) as H. destruct (q_at_index c i) as [c1 l]; cbn [fst] in *.
  destruct (filter p l); [destruct (sep_at (c_input c) seps i) as [[]|]|]; cbn [fst];
    first [exact H | eapply grows_trans; [exact H | apply IH]].
Qed.
Lemma grows_conflicting is : forall c l, grows (only ByIndex) c (fst (conflicting_loop is c l)).
Proof.
  induction is as [|i is IH]; intros c ch; cbn [conflicting_loop]; [apply grows_refl|].
  pose proof (grows_at c i) as H. destruct (q_at_index c i) as [c1 l]; cbn [fst] in *. eapply grows_trans; [exact H | apply IH].
Qed.
Lemma grows_hole_start keep is : forall c, grows (only ByStart) c (fst (hole_start_loop keep is c)).
Proof.
  induction is as [|i is IH]; intros c; cbn [hole_start_loop]; [apply grows_refl|].
  pose proof (grows_starting c i) as H. destruct (q_starting c i) as [c1 l]; cbn [fst] in *.
  destruct (existsb keep l); [exact H | eapply grows_trans; [exact H | apply IH]].
Qed.
Lemma grows_hole_end keep is : forall c, grows (only ByStart) c (fst (hole_end_loop keep is c)).
Proof.
  induction is as [|i is IH]; intros c; cbn [hole_end_loop]; [apply grows_refl|].
  pose proof (grows_starting c i) as H. destruct (q_starting c i) as [c1 l]; cbn [fst] in *.
  destruct (existsb keep l); [exact H | eapply grows_trans; [exact H | apply IH]].
Qed.
Lemma grows_holes_loop keep seps st is : forall c ret h last, grows (only ByIndex) c (fst (holes_loop keep seps st is c ret h last)).
Proof.
  induction is as [|i is IH]; intros c ret h last; cbn [holes_loop]; [apply grows_refl|].
  pose proof (grows_at c i) as H. destruct (q_at_index c i) as [c1 l]; cbn [fst] in *.
  match goal with |- context [match ?x with Ok _ => _ | Err _ => _ end] => destruct x as [[|]|e] end; [| |exact H];
  destruct h as [h|]; destruct (filter keep l); cbn [fst]; first [exact H | eapply grows_trans; [exact H | apply IH]].
Qed.
Lemma lookup_grows c o : is_lookup o = true -> grows (fun f => may_need f o) c (fst (step c o)).
Proof.
  destruct o; intro Hl; try discriminate; clear Hl; cbn [step].
  - unfold q_named. destruct ns as [|n ns]; [apply grows_refl|].
    match goal with |- context [q_named_loop c ?x] => pose proof (grows_named x c) as H; destruct (q_named_loop c x) end. cbn [fst] in *.
    eapply grows_weaken; [exact H|]. intros []; cbn; congruence.
  - eapply grows_weaken; [apply grows_tagged|]. intros []; cbn; congruence.
  - eapply grows_weaken; [apply grows_starting|]. intros []; cbn; congruence.
  - eapply grows_weaken; [apply grows_ending|]. intros []; cbn; congruence.
  - eapply grows_weaken; [apply grows_at|]. intros []; cbn; congruence.
  - unfold q_previous. match goal with |- context [previous_loop ?n c ?x] => pose proof (grows_previous n c x) as H; destruct (previous_loop n c x) end. cbn [fst] in *.
    eapply grows_weaken; [exact H|]. intros []; cbn; congruence.
  - unfold q_next. match goal with |- context [next_loop ?n c ?x] => pose proof (grows_next n c x) as H; destruct (next_loop n c x) end. cbn [fst] in *.
    eapply grows_weaken; [exact H|]. intros []; cbn; congruence.
  - apply grows_refl.
  - unfold q_holes.
    match goal with |- context [if ?b then _ else _] => destruct b end; [apply grows_refl|].
    unfold hole_start. match goal with |- context [hole_start_loop ?n ?x c] => pose proof (grows_hole_start n x c) as H; destruct (hole_start_loop n x c) as [c1 ls] end.
    match goal with |- context [holes_loop ?a ?b ?d ?e c1 ?g ?h ?x] => pose proof (grows_holes_loop a b d e c1 g h x) as H1; destruct (holes_loop a b d e c1 g h x) as [c2 [[[ret [h'|]] last]|]] end; cbn [fst] in *.
    + unfold hole_end. match goal with |- context [hole_end_loop ?n ?x c2] => pose proof (grows_hole_end n x c2) as H2; destruct (hole_end_loop n x c2) as [c3 he] end. cbn [fst] in *.
      eapply grows_trans; [|eapply grows_trans]; eapply grows_weaken; [exact H | | exact H1 | | exact H2 | ]; intros []; cbn; congruence.
    + eapply grows_trans; eapply grows_weaken; [exact H | | exact H1 | ]; intros []; cbn; congruence.
    + eapply grows_trans; eapply grows_weaken; [exact H | | exact H1 | ]; intros []; cbn; congruence.
  - unfold q_conflicting. match goal with |- context [conflicting_loop ?n c ?x] => pose proof (grows_conflicting n c x) as H; destruct (conflicting_loop n c x) as [c1 ret] end. cbn [fst] in *.
    destruct (remove_first (meq m) ret); cbn [list_out fst]; (eapply grows_weaken; [exact H|]); intros []; cbn; congruence.
  - unfold q_at_span. pose proof (grows_at c (fst sp)) as H. destruct (q_at_index c (fst sp)) as [c1 l1]. cbn [fst] in H.
    pose proof (grows_at c1 (snd sp - 1)) as H1. destruct (q_at_index c1 (snd sp - 1)) as [c2 l2]. cbn [fst] in *.
    eapply grows_trans; eapply grows_weaken; [exact H | | exact H1 | ]; intros []; cbn; congruence.
  - unfold q_chain_before. match goal with |- context [chain_loop ?a ?b ?d c ?x] => pose proof (grows_chain a b d c x) as H; destruct (chain_loop a b d c x) end. cbn [fst list_out] in *.
    eapply grows_weaken; [exact H|]. intros []; cbn; congruence.
  - unfold q_chain_after. match goal with |- context [chain_loop ?a ?b ?d c ?x] => pose proof (grows_chain a b d c x) as H; destruct (chain_loop a b d c x) end. cbn [fst list_out] in *.
    eapply grows_weaken; [exact H|]. intros []; cbn; congruence.
  - eapply grows_weaken; [apply grows_names|]. intros []; cbn; congruence.
  - eapply grows_weaken; [apply grows_tags|]. intros []; cbn; congruence.
Qed.

(** the view of a family, filled or not *)
Definition shows (f : family) (c : coll) (g : list mtch) : Prop :=
  match f with
  | ByName => forall k, vname c k = occ name_keys k g
  | ByTag => forall k, vtag c k = occ tag_keys k g
  | ByStart => forall k, vstart c k = occ start_keys k g
  | ByEnd => forall k, vend c k = occ end_keys k g
  | ByIndex => forall k, vat c k = occ index_keys k g
  end.
Lemma fam_shows f c g : fam f c g -> shows f c g.
Proof. destruct f; intros (d & E & H) k; [unfold vname, named_dict | unfold vtag, tagged_dict | unfold vstart, starting_dict | unfold vend, ending_dict | unfold vat, indexed_dict]; rewrite E; apply H. Qed.
Lemma shows_fam f c g : shows f c g -> ~ unfilled f c -> fam f c g.
Proof.
  destruct f; cbn [shows unfilled fam]; unfold vname, named_dict, vtag, tagged_dict, vstart, starting_dict, vend, ending_dict, vat, indexed_dict.
  - destruct (c_named c) as [d|]; [eauto | tauto].
  - destruct (c_tagged c) as [d|]; [eauto | tauto].
  - destruct (c_starting c) as [d|]; [eauto | tauto].
  - destruct (c_ending c) as [d|]; [eauto | tauto].
  - destruct (c_indexed c) as [d|]; [eauto | tauto].
Qed.
Lemma unfilled_shows f c : unfilled f c -> shows f c (c_del c).
Proof.
  destruct f; cbn [shows unfilled]; intros E k; unfold vname, named_dict, vtag, tagged_dict, vstart, starting_dict, vend, ending_dict, vat, indexed_dict; rewrite E;
  [apply build_named_get | apply build_tagged_get | apply build_starting_get | apply build_ending_get | apply build_indexed_get].
Qed.
Lemma unfilled_dec f c : unfilled f c \/ ~ unfilled f c.
Proof.
  destruct f; cbn [unfilled];
  [destruct (c_named c) | destruct (c_tagged c) | destruct (c_starting c) | destruct (c_ending c) | destruct (c_indexed c)]; first [left; reflexivity | right; discriminate].
Qed.
Lemma obs_shows f c c' g : obs c c' -> shows f c g -> shows f c' g.
Proof.
  intros (_ & _ & _ & O1 & O2 & O3 & O4 & O5 & _). destruct f; cbn [shows]; unfold vname, vtag, vstart, vend, vat; intros H k;
  [rewrite O1 | rewrite O2 | rewrite O3 | rewrite O4 | rewrite O5]; apply H.
Qed.
Lemma fam_filled f c g : fam f c g -> ~ unfilled f c.
Proof. destruct f; intros (d & E & _); cbn [unfilled]; rewrite E; discriminate. Qed.

Lemma lookup_fam f c o g : is_lookup o = true -> fam f c g -> fam f (fst (step c o)) g.
Proof.
  intros Hl Hf. apply shows_fam.
  - eapply obs_shows; [apply lookup_obs, Hl | apply fam_shows, Hf].
  - intro H. apply (fam_filled Hf). apply (proj1 (lookup_grows c Hl f)), H.
Qed.
Lemma lookup_unfilled f c o : is_lookup o = true -> unfilled f c ->
  unfilled f (fst (step c o)) \/ (may_need f o = true /\ fam f (fst (step c o)) (c_del c)).
Proof.
  intros Hl Hf. destruct (unfilled_dec f (fst (step c o))) as [H|H]; [left; exact H | right]. split.
  - destruct (may_need f o) eqn:E; [reflexivity|]. exfalso. apply H. eapply same_unfilled; [|exact Hf]. apply (proj2 (lookup_grows c Hl f)), E.
  - apply shows_fam; [|exact H]. eapply obs_shows; [apply lookup_obs, Hl | apply unfilled_shows, Hf].
Qed.
Lemma asks_lookup f o : asks f o = true -> is_lookup o = true.
Proof. destruct f, o; cbn; congruence. Qed.
Lemma asks_fills f c o : asks f o = true -> ~ unfilled f (fst (step c o)).
Proof.
  assert (forall n ns c, c_named (fst (q_named_loop c (n :: ns))) <> None) as G.
  { intros n ns c0 H. cbn [q_named_loop] in H. pose proof (grows_named ns (fst (q_named1 c0 n)) ByName) as [H1 _].
    destruct (q_named1 c0 n) as [c1 l] eqn:E. cbn [fst] in H1. destruct (q_named_loop c1 ns) as [c2 l']. cbn [fst] in *.
    specialize (H1 H). unfold q_named1 in E. injection E as <- _. discriminate H1. }
  destruct f, o; cbn [asks]; try discriminate; intro Ha; cbn [step unfilled]; try (cbn; discriminate).
  - destruct ns as [|n ns]; [discriminate|]. unfold q_named.
    change (dedup pstr_eqb (n :: ns)) with (n :: filter (fun y => negb (pstr_eqb n y)) (dedup pstr_eqb ns)).
    match goal with |- context [q_named_loop c ?x] => specialize (G n (filter (fun y => negb (pstr_eqb n y)) (dedup pstr_eqb ns)) c); destruct (q_named_loop c x) end. exact G.
Qed.

(** ** Mutators *)
Lemma notes_app g a b : notes g (a ++ b) = notes (notes g a) b.
Proof. apply fold_left_app. Qed.
Lemma notes_added g ms : notes g (map Added ms) = g ++ ms.
Proof.
  revert g. induction ms as [|m ms IH]; intro g; cbn [map notes fold_left note]; [rewrite app_nil_r; reflexivity|].
  fold (notes (g ++ [m]) (map Added ms)). rewrite IH, <- app_assoc. reflexivity.
Qed.

Lemma notes_empty ms : forall g, Permutation (map mkey g) (map mkey ms) -> notes g (map Gone ms) = [].
Proof.
  induction ms as [|m ms IH]; intros g Hp; cbn [map notes fold_left note].
  - apply Permutation_sym, Permutation_nil in Hp. destruct g; [reflexivity | discriminate].
  - fold (notes (match remove_first (meq m) g with Some g' => g' | None => g end) (map Gone ms)).
    destruct (remove_first (meq m) g) as [g'|] eqn:E.
    + apply remove_first_Some in E as (a & x & b & -> & Hx & _ & ->). apply IH. apply meq_mkey in Hx.
      rewrite map_app in Hp. cbn [map] in Hp. rewrite <- Hx in Hp. rewrite map_app.
      apply Permutation_cons_inv with (a := mkey m). rewrite <- Hp. apply Permutation_middle.
    + exfalso. rewrite remove_first_None in E.
      assert (In (mkey m) (map mkey g)) as Hin by (eapply Permutation_in; [symmetry; exact Hp | left; reflexivity]).
      apply in_map_iff in Hin as (y & Ey & Hy). specialize (E y Hy). apply meq_false_mkey in E. congruence.
Qed.
Lemma Forall_firstn' (P : mtch -> Prop) n l : Forall P l -> Forall P (firstn n l).
Proof. intro H. rewrite <- (firstn_skipn n l) in H. apply Forall_app in H. apply H. Qed.
Lemma Forall_skipn' (P : mtch -> Prop) n l : Forall P l -> Forall P (skipn n l).
Proof. intro H. rewrite <- (firstn_skipn n l) in H. apply Forall_app in H. apply H. Qed.

(** A relation between collections and some account of the news told to them. *)
Section Track.
  Variable U : mtch -> Prop.
  Variable f : family.
  Variable G : Type.
  Variable R : coll -> G -> Prop.
  Variable act : G -> news -> G.
  Definition acts (g : G) (es : list news) : G := fold_left act es g.
  Hypothesis R_del : forall c l g, Forall U l -> R c g -> R (with_del c l) g.
  Hypothesis R_add : forall c m g, accepts (c_kind c) m = true -> U m -> R c g -> R (fst (add_match c m)) (act g (Added m)).
  Hypothesis R_rem : forall c m g c', U m -> remove_match c m = (c', Ok tt) -> R c g -> R c' (act g (Gone m)).

  Definition tracks (c c' : coll) (es : list news) : Prop := forall g, R c g -> R c' (acts g es).
  Lemma tracks_nil c c' : (forall g, R c g -> R c' g) -> tracks c c' [].
  Proof. intros H g Hf. apply H, Hf. Qed.
  Lemma tracks_app a b c es1 es2 : tracks a b es1 -> tracks b c es2 -> tracks a c (es1 ++ es2).
  Proof. intros H1 H2 g Hf. unfold acts. rewrite fold_left_app. apply H2, H1, Hf. Qed.
  Lemma tracks_with_del c l c' es : Forall U l -> tracks (with_del c l) c' es -> tracks c c' es.
  Proof. intros Hl H g Hf. apply H. apply R_del; assumption. Qed.

  Lemma tracks_add c m : accepts (c_kind c) m = true -> U m -> tracks c (fst (add_match c m)) [Added m].
  Proof. intros Ha Hm g Hf. apply R_add; assumption. Qed.
  Lemma tracks_remove c m c' : U m -> remove_match c m = (c', Ok tt) -> tracks c c' [Gone m].
  Proof. intros Hm Hr g Hf. eapply R_rem; eauto. Qed.

  Lemma U_insert n x l : U x -> Forall U l -> Forall U (insert_nth n x l).
  Proof.
    intros Hx Hl. apply Forall_forall. intros y Hy. eapply Permutation_in in Hy; [|apply insert_nth_perm].
    rewrite Forall_forall in Hl. destruct Hy as [<-|Hy]; auto.
  Qed.
  Lemma U_replace n x l : U x -> Forall U l -> Forall U (replace_nth n x l).
  Proof.
    intros Hx Hl. unfold replace_nth. apply Forall_app. split; [apply Forall_firstn', Hl|]. constructor; [exact Hx|]. apply Forall_skipn', Hl.
  Qed.
  Lemma U_remove n l : Forall U l -> Forall U (remove_nth n l).
  Proof. intro Hl. unfold remove_nth. apply Forall_app. split; [apply Forall_firstn', Hl | apply Forall_skipn', Hl]. Qed.
  Lemma tracks_insert c i m : accepts (c_kind c) m = true -> U m -> Forall U (c_del c) ->
    tracks c (fst (insert c i m)) [Added m] /\ (unfilled f c -> unfilled f (fst (insert c i m))) /\ Forall U (c_del (fst (insert c i m))).
  Proof.
    intros Ha Hm Hl. unfold insert. split; [|split].
    - eapply tracks_with_del; [|apply tracks_add; assumption]. apply U_insert; assumption.
    - intro H. apply unfilled_add, unfilled_with_del, H.
    - unfold add_match. cbn [c_kind with_del]. rewrite Ha. cbn [fst c_del]. apply U_insert; assumption.
  Qed.
  Lemma insert_kind c i m : accepts (c_kind c) m = true -> exists c', insert c i m = (c', Ok tt) /\ c_kind c' = c_kind c.
  Proof. intro Ha. unfold insert, add_match. cbn [c_kind with_del]. rewrite Ha. eauto. Qed.
  Lemma tracks_extend ms : forall c, Forall (fun m => accepts (c_kind c) m = true) ms -> Forall U ms -> Forall U (c_del c) ->
    tracks c (fst (extend c ms)) (map Added ms) /\ (unfilled f c -> unfilled f (fst (extend c ms))).
  Proof.
    induction ms as [|m ms IH]; intros c Ha Hm Hl; cbn [extend map]; [split; [apply tracks_nil; auto | auto]|].
    inversion Ha; inversion Hm; subst. unfold append. destruct (@insert_kind c (zlen (c_del c)) m) as (c1 & E & Ek); [assumption|].
    destruct (@tracks_insert c (zlen (c_del c)) m) as (T1 & T2 & T3); [assumption | assumption | assumption|]. rewrite E in *. cbn [fst] in *.
    destruct (IH c1) as [I1 I2]; [rewrite Ek; assumption | assumption | assumption|].
    split; [apply (tracks_app T1 I1) | auto].
  Qed.
  Lemma tracks_add_matches ms : forall c, Forall (fun m => accepts (c_kind c) m = true) ms -> Forall U ms ->
    tracks c (fst (add_matches c ms)) (map Added ms) /\ (unfilled f c -> unfilled f (fst (add_matches c ms))).
  Proof.
    induction ms as [|m ms IH]; intros c Ha Hm; cbn [add_matches map]; [split; [apply tracks_nil; auto | auto]|].
    inversion Ha as [|? ? A1 A2]; inversion Hm; subst. pose proof (@tracks_add c m A1) as T1.
    pose proof (@unfilled_add f c m) as T2. unfold add_match in *. rewrite A1 in *. cbn [fst] in *.
    match goal with |- context [add_matches ?c1 ms] => destruct (IH c1) as [I1 I2] end; [exact A2 | assumption|].
    split; [eapply (tracks_app (T1 _) I1) | auto]. Unshelve. assumption.
  Qed.
  Lemma tracks_setitem c i m n : py_pos (c_del c) i = Some n -> accepts (c_kind c) m = true -> U m -> Forall U (c_del c) ->
    tracks c (fst (setitem c i m)) [Added m] /\ (unfilled f c -> unfilled f (fst (setitem c i m))).
  Proof.
    intros Ep Ha Hm Hl. unfold setitem. rewrite Ep. split.
    - eapply tracks_with_del; [|apply tracks_add; assumption]. apply U_replace; assumption.
    - intro H. apply unfilled_add, unfilled_with_del, H.
  Qed.

  (** [reverse]: the same loop as [swaps] *)
  Definition swap_news (l : list mtch) (i : nat) : list news :=
    match nth_error l (length l - 1 - i), nth_error l i with
    | Some a, Some b => [Added a; Added b]
    | _, _ => []
    end.
  Lemma tracks_reverse l k : forall i c,
    (i + k)%nat = Nat.div (length l) 2 -> swapped l i (c_del c) ->
    Forall (fun m => accepts (c_kind c) m = true) l -> Forall U l -> Forall U (c_del c) ->
    tracks c (fst (reverse_loop (zlen l) (zrange (Z.of_nat i) (Z.of_nat (i + k))) c)) (flat_map (swap_news l) (seq i k))
    /\ (unfilled f c -> unfilled f (fst (reverse_loop (zlen l) (zrange (Z.of_nat i) (Z.of_nat (i + k))) c))).
  Proof.
    induction k as [|k IH]; intros i c Hik Hsw HF HUl HUc.
    - rewrite Nat.add_0_r. rewrite zrange_nil by lia. cbn [reverse_loop seq flat_map fst]. split; [apply tracks_nil; auto | auto].
    - rewrite zrange_cons by lia. cbn [reverse_loop seq flat_map]. destruct Hsw as [Hlen Hsw].
      assert (2 * (length l / 2) <= length l)%nat as Hdiv by (apply Nat.mul_div_le; lia).
      assert (2 * i + 2 <= length l)%nat as Hi by lia.
      set (q := (length l - 1 - i)%nat).
      assert (i < q)%nat as Hiq by (subst q; lia).
      assert (zlen l - Z.of_nat i - 1 = Z.of_nat q) as -> by (unfold zlen; subst q; lia).
      destruct (@py_nth_nonneg _ (c_del c) (Z.of_nat q)) as [Eq Pq]; [unfold zlen; subst q; lia|].
      destruct (@py_nth_nonneg _ (c_del c) (Z.of_nat i)) as [Ei Pi]; [unfold zlen; lia|].
      rewrite Nat2Z.id in *. rewrite Eq, Ei.
      assert (exists a, nth_error (c_del c) q = Some a /\ nth_error l q = Some a) as (a & Ea & Ela).
      { assert (q < length l)%nat as Hq by (subst q; lia). rewrite (Hsw q Hq).
        replace (Nat.ltb q i || Nat.leb (length l - i) q) with false by (subst q; symmetry; apply orb_false_iff; split; [apply Nat.ltb_ge; lia | apply Nat.leb_gt; lia]).
        destruct (nth_error l q) eqn:E; [eauto|]. apply nth_error_None in E. lia. }
      assert (exists b, nth_error (c_del c) i = Some b /\ nth_error l i = Some b) as (b & Eb & Elb).
      { rewrite (Hsw i) by lia.
        replace (Nat.ltb i i || Nat.leb (length l - i) i) with false by (symmetry; apply orb_false_iff; split; [apply Nat.ltb_ge; lia | apply Nat.leb_gt; lia]).
        destruct (nth_error l i) eqn:E; [eauto|]. apply nth_error_None in E. lia. }
      rewrite Ea, Eb. pose proof HF as HF'. rewrite Forall_forall in HF. pose proof HUl as HUl'. rewrite Forall_forall in HUl.
      assert (accepts (c_kind c) a = true) as Aa by (apply HF; eapply nth_error_In; eauto).
      assert (accepts (c_kind c) b = true) as Ab by (apply HF; eapply nth_error_In; eauto).
      assert (U a) as Ua by (apply HUl; eapply nth_error_In; eauto).
      assert (U b) as Ub by (apply HUl; eapply nth_error_In; eauto).
      destruct (tracks_setitem Pi Aa Ua HUc) as [T1 F1].
      assert (exists c1, setitem c (Z.of_nat i) a = (c1, Ok tt) /\ c_kind c1 = c_kind c /\ c_del c1 = replace_nth i a (c_del c)) as (c1 & E1 & Hk1 & Hd1).
      { unfold setitem. rewrite Pi. unfold add_match. cbn [c_kind with_del]. rewrite Aa. eexists. split; [reflexivity|]. split; reflexivity. }
      rewrite E1 in *. cbn [fst] in *.
      assert (length (c_del c1) = length l) as Hlen1 by (rewrite Hd1, replace_nth_length; lia).
      destruct (@py_nth_nonneg _ (c_del c1) (Z.of_nat q)) as [_ Pq1]; [unfold zlen; subst q; lia|]. rewrite Nat2Z.id in Pq1.
      assert (accepts (c_kind c1) b = true) as Ab1 by (rewrite Hk1; exact Ab).
      assert (Forall U (c_del c1)) as HUc1 by (rewrite Hd1; apply U_replace; assumption).
      destruct (tracks_setitem Pq1 Ab1 Ub HUc1) as [T2 F2].
      assert (exists c2, setitem c1 (Z.of_nat q) b = (c2, Ok tt) /\ c_kind c2 = c_kind c /\ c_del c2 = replace_nth q b (c_del c1)) as (c2 & E2 & Hk2 & Hd2).
      { unfold setitem. rewrite Pq1. unfold add_match. cbn [c_kind with_del]. rewrite Ab1. eexists. split; [reflexivity|]. split; [exact Hk1 | reflexivity]. }
      rewrite E2 in *. cbn [fst] in *.
      replace (Z.of_nat i + 1) with (Z.of_nat (S i)) by lia. replace (i + S k)%nat with (S i + k)%nat by lia.
      destruct (IH (S i) c2) as [T3 F3].
      + lia.
      + split; [rewrite Hd2, replace_nth_length; subst q; lia|]. intros j Hj. rewrite Hd2, nth_error_replace by (subst q; lia).
        rewrite Hd1, nth_error_replace by lia. rewrite (Hsw j Hj).
        destruct (Nat.eqb_spec j q) as [->|Hjq]; [|destruct (Nat.eqb_spec j i) as [->|Hji]].
        * replace (Nat.ltb q (S i) || Nat.leb (length l - S i) q) with true.
          { rewrite <- Elb. f_equal. subst q. lia. }
          symmetry. apply orb_true_iff. right. apply Nat.leb_le. subst q; lia.
        * replace (Nat.ltb i (S i)) with true by (symmetry; apply Nat.ltb_lt; lia). simpl. rewrite <- Ela. reflexivity.
        * replace (Nat.ltb j (S i) || Nat.leb (length l - S i) j) with (Nat.ltb j i || Nat.leb (length l - i) j); [reflexivity|].
          apply eq_true_iff_eq. rewrite !orb_true_iff, !Nat.ltb_lt, !Nat.leb_le. subst q; lia.
      + rewrite Hk2. exact HF'.
      + exact HUl'.
      + rewrite Hd2. apply U_replace; assumption.
      + split; [|auto]. unfold swap_news at 1. fold q. rewrite Ela, Elb.
        change ([Added a; Added b] ++ flat_map (swap_news l) (seq (S i) k)) with ([Added a] ++ ([Added b] ++ flat_map (swap_news l) (seq (S i) k))).
        apply (tracks_app T1). apply (tracks_app T2). exact T3.
  Qed.

  (** removals *)
  Definition empties (c : coll) (c' : coll) : Prop :=
    unfilled f c -> unfilled f c' \/ (f = ByEnd /\ fam f c' (c_del c')).
  Lemma tracks_delitem c i n x c' : py_pos (c_del c) i = Some n -> nth_error (c_del c) n = Some x -> U x -> Forall U (c_del c) -> delitem c i = (c', Ok tt) ->
    tracks c c' [Gone x] /\ empties c c'.
  Proof.
    intros Ep Ex Hx Hl. unfold delitem. rewrite Ep, Ex. intro E. split.
    - eapply tracks_with_del; [|eapply tracks_remove; eauto]. apply U_remove, Hl.
    - intro Hf. pose proof (remove_match_del (with_del c (remove_nth n (c_del c))) x) as Hd. rewrite E in Hd. cbn [fst] in Hd.
      destruct (unfilled_remove E (unfilled_with_del (remove_nth n (c_del c)) Hf)) as [H|(-> & _ & H)]; [left; exact H | right].
      split; [reflexivity|]. rewrite Hd. exact H.
  Qed.
  Lemma tracks_remove_matches ms : forall c c', Forall U ms -> remove_matches c ms = (c', Ok tt) -> tracks c c' (map Gone ms).
  Proof.
    induction ms as [|m ms IH]; intros c c' Hm E; cbn [remove_matches map] in *; [injection E as <-; apply tracks_nil; auto|].
    destruct (remove_match c m) as [c1 [[]|]] eqn:E1; [|discriminate]. inversion Hm; subst.
    change (Gone m :: map Gone ms) with ([Gone m] ++ map Gone ms). eapply tracks_app; [eapply tracks_remove; eauto | apply IH; assumption].
  Qed.
  Lemma empties_remove_matches ms : forall c c', (f = ByEnd -> Forall (fun x => m_end x < c_maxend c) (removelast ms)) ->
    remove_matches c ms = (c', Ok tt) -> empties c c'.
  Proof.
    induction ms as [|m ms IH]; intros c c' Hm E Hf; cbn [remove_matches] in *; [injection E as <-; left; exact Hf|].
    destruct (remove_match c m) as [c1 [[]|]] eqn:E1; [|discriminate].
    pose proof (remove_match_del c m) as Hd. pose proof (@remove_match_maxend c m) as Hmx. rewrite E1 in Hd, Hmx. cbn [fst] in *.
    destruct (unfilled_remove E1 Hf) as [H|(Ef & Hge & H)].
    - apply (IH c1 c'); [|exact E | exact H]. intro Ef. specialize (Hm Ef). destruct ms; [constructor|]. cbn [removelast] in *.
      inversion Hm as [|? ? _ Hm']; subst. eapply Forall_impl; [|exact Hm']. cbn beta. intros; lia.
    - destruct ms as [|m' ms]; [|exfalso].
      + cbn [remove_matches] in E. injection E as <-. right. split; [exact Ef|]. rewrite Hd, Ef. exact H.
      + specialize (Hm Ef). cbn [removelast] in Hm. inversion Hm; subst. lia.
  Qed.

  Lemma py_pos_last {A} (l : list A) n : py_pos l (-1) = Some n -> length l = S n.
  Proof. intro H. apply py_pos_spec in H. unfold zlen in H. lia. Qed.
  Lemma remove_nth_last {A} (l : list A) n x : length l = S n -> nth_error l n = Some x -> l = remove_nth n l ++ [x].
  Proof.
    intros Hl Hx. pose proof (split_nth _ _ Hx) as E. unfold remove_nth. rewrite (@skipn_all2 _ (S n) l) in * by lia.
    rewrite app_nil_r. exact E.
  Qed.
  Lemma tracks_clear P n : forall c, Inv P c -> (length (c_del c) < n)%nat -> Forall U (c_del c) ->
    tracks c (fst (clear_loop n c)) (map Gone (rev (c_del c))).
  Proof.
    induction n as [|n IH]; intros c HI Hn Hl; [lia|]. cbn [clear_loop].
    pose proof (pop_ok (-1) HI) as Hp. destruct (py_pos (c_del c) (-1)) as [k|] eqn:Ep.
    - destruct Hp as (c1 & x & Ex & E1 & HI1 & He1 & Hd1 & Hm1 & Hn1). rewrite E1.
      assert (c_del c = c_del c1 ++ [x]) as Hc by (rewrite Hd1; apply remove_nth_last; [apply py_pos_last, Ep | exact Ex]).
      assert (Forall U (c_del c1) /\ U x) as [Hl1 Hx] by (rewrite Hc, Forall_app in Hl; destruct Hl as [? Hl']; inversion Hl'; auto).
      assert (delitem c (-1) = (c1, Ok tt)) as Ed.
      { unfold pop in E1. unfold py_nth in E1. rewrite Ep, Ex in E1. destruct (delitem c (-1)) as [c2 [[]|]]; [injection E1 as ->; reflexivity | discriminate]. }
      destruct (tracks_delitem Ep Ex Hx Hl Ed) as [T1 _].
      pose proof (IH c1 HI1) as T2. rewrite Hc, rev_app_distr. cbn [rev app map]. change (Gone x :: map Gone (rev (c_del c1))) with ([Gone x] ++ map Gone (rev (c_del c1))).
      eapply tracks_app; [exact T1 | apply T2; [rewrite Hc, app_length in Hn; simpl in Hn; lia | exact Hl1]].
    - rewrite Hp. cbn [fst]. apply py_pos_None in Ep. unfold zlen in Ep. destruct (c_del c); [|simpl in Ep; lia]. cbn [rev map].
      apply tracks_nil; auto.
  Qed.

  Lemma member_equal_index m l : member_equal m l = match index_of (meq m) l with Some n => nth_error l n | None => None end.
  Proof.
    induction l as [|x l IH]; cbn [member_equal index_of]; [reflexivity|]. destruct (meq m x); [reflexivity|]. rewrite IH.
    destruct (index_of (meq m) l); reflexivity.
  Qed.

  Lemma track_step P c o : is_mutator o = true -> Inv P c ->
    Forall (fun m => accepts (c_kind c) m = true) (handed o) ->
    (match o with ODelslice i j => c_ending c <> None \/ Forall (fun x => m_end x < c_maxend c) (removelast (py_slice (c_del c) i j)) | _ => True end) ->
    Forall U (c_del c) -> (forall m, In (Added m) (told (c_del c) o) -> U m) ->
    tracks c (fst (step c o)) (told (c_del c) o)
    /\ (o <> OClear -> unfilled f c -> unfilled f (fst (step c o)) \/ (may_need f o = true /\ fam f (fst (step c o)) (c_del (fst (step c o))))).
  Proof.
    intros Em HI HF HS Hl Hh.
    assert (forall j x, py_nth (c_del c) j = Some x -> U x) as Hn.
    { intros j x Hx. unfold py_nth in Hx. destruct (py_pos (c_del c) j); [|discriminate]. apply nth_error_In in Hx.
      rewrite Forall_forall in Hl. auto. }
    assert (forall c', empties c c' -> may_need ByEnd o = true -> unfilled f c -> unfilled f c' \/ (may_need f o = true /\ fam f c' (c_del c'))) as HE.
    { intros c' He Hmn Hf. destruct (He Hf) as [H|[Ef H]]; [left; exact H | right]. rewrite Ef in *. auto. }
    assert (forall ms, (forall m, In (Added m) (map Added ms) -> U m) -> Forall U ms) as HM.
    { intros ms H. apply Forall_forall. intros x Hx. apply H, in_map, Hx. }
    destruct o; try discriminate; cbn [step unit_out told handed] in *.
    - pose proof (Hh m (or_introl eq_refl)). inversion HF; subst. destruct (@tracks_insert c (zlen (c_del c)) m) as (T1 & T2 & _); auto.
    - pose proof (Hh m (or_introl eq_refl)). inversion HF; subst. destruct (@tracks_insert c i m) as (T1 & T2 & _); auto.
    - destruct (@tracks_extend ms c HF (HM _ Hh) Hl) as [T1 T2]. auto.
    - rewrite member_equal_index. pose proof (remove_ok m HI) as Hr. rewrite remove_first_index in Hr. unfold remove, seq_index in *.
      destruct (index_of (meq m) (c_del c)) as [n|] eqn:Ei.
      + apply index_of_Some in Ei as (x & Ex & _ & _). rewrite Ex. destruct Hr as (c' & E & _). rewrite E. cbn [fst].
        assert (n < length (c_del c))%nat as Hlt by (apply nth_error_Some; congruence).
        assert (py_pos (c_del c) (Z.of_nat n) = Some n) as Ep by (apply py_pos_spec; repeat split; lia).
        destruct (@tracks_delitem c (Z.of_nat n) n x c' Ep Ex) as [T1 T2]; [rewrite Forall_forall in Hl; apply Hl; eapply nth_error_In; eauto | exact Hl | exact E|].
        split; [exact T1 | intros _; apply HE; [exact T2 | reflexivity]].
      + cbn [fst]. split; [apply tracks_nil; auto | auto].
    - unfold py_nth in *. pose proof (delitem_ok i HI) as Hd. destruct (py_pos (c_del c) i) as [n|] eqn:Ep.
      + destruct (py_pos_nth _ _ Ep) as [x Ex]. rewrite Ex. destruct Hd as (c' & E & _). rewrite E. cbn [fst].
        destruct (@tracks_delitem c i n x c' Ep Ex) as [T1 T2]; [apply (Hn i); rewrite Ep; exact Ex | exact Hl | exact E|].
        split; [exact T1 | intros _; apply HE; [exact T2 | reflexivity]].
      + rewrite Hd. cbn [fst]. split; [apply tracks_nil; auto | auto].
    - destruct (delslice_ok HI HS) as (c' & E & _). rewrite E. cbn [fst].
      assert (Forall U (py_slice (c_del c) i j)) as Hsl.
      { destruct (py_slice_unslice (c_del c) i j) as (a & b & _ & El). rewrite El in Hl. rewrite !Forall_app in Hl. tauto. }
      assert (Forall U (py_unslice (c_del c) i j)) as Hul.
      { destruct (py_slice_unslice (c_del c) i j) as (a & b & -> & El). rewrite El in Hl. rewrite !Forall_app in *. tauto. }
      unfold delslice in E. split.
      + eapply tracks_with_del; [exact Hul|]. eapply tracks_remove_matches; eauto.
      + intros _. apply HE; [|reflexivity]. intro Hf. refine (empties_remove_matches _ E (unfilled_with_del _ Hf)).
        intro Ef. destruct HS as [HS|HS]; [|exact HS]. rewrite Ef in Hf. cbn [unfilled] in Hf. congruence.
    - unfold py_nth in *. pose proof (pop_ok i HI) as Hd. destruct (py_pos (c_del c) i) as [n|] eqn:Ep.
      + destruct Hd as (c' & x & Ex & E & _). rewrite Ex, E. cbn [fst].
        assert (delitem c i = (c', Ok tt)) as Ed.
        { unfold pop in E. unfold py_nth in E. rewrite Ep, Ex in E. destruct (delitem c i) as [c2 [[]|]]; [injection E as ->; reflexivity | discriminate]. }
        destruct (@tracks_delitem c i n x c' Ep Ex) as [T1 T2]; [apply (Hn i); rewrite Ep; exact Ex | exact Hl | exact Ed|].
        split; [exact T1 | intros _; apply HE; [exact T2 | reflexivity]].
      + rewrite Hd. cbn [fst]. split; [apply tracks_nil; auto | auto].
    - split; [|congruence]. eapply tracks_clear; [exact HI | lia | exact Hl].
    - inversion HF; subst. unfold py_nth in *. destruct (py_pos (c_del c) i) as [n|] eqn:Ep.
      + destruct (py_pos_nth _ _ Ep) as [x Ex]. rewrite Ex in *. pose proof (Hh m (or_introl eq_refl)). destruct (@tracks_setitem c i m n Ep) as [T1 T2]; auto.
      + unfold setitem. rewrite Ep. cbn [fst]. split; [apply tracks_nil; auto | auto].
    - unfold setslice. match goal with |- context [add_matches (with_del c ?l) ms] => destruct (@tracks_add_matches ms (with_del c l)) as [T1 T2] end; [exact HF | exact (HM _ Hh)|].
      split; [eapply tracks_with_del; [|exact T1]; rewrite !Forall_app; repeat split; [apply Forall_firstn', Hl | exact (HM _ Hh) | apply Forall_skipn', Hl]|].
      intros _ Hf. left. apply T2, unfilled_with_del, Hf.
    - unfold reverse.
      assert (zlen (c_del c) / 2 = Z.of_nat (0 + length (c_del c) / 2)) as -> by (unfold zlen; rewrite Nat.add_0_l, Nat2Z.inj_div; reflexivity).
      destruct (@tracks_reverse (c_del c) (length (c_del c) / 2) 0 c) as [T1 T2]; auto.
      + split; [reflexivity|]. intros j Hj. replace (Nat.ltb j 0 || Nat.leb (length (c_del c) - 0) j) with false; [reflexivity|].
        symmetry. apply orb_false_iff. split; [apply Nat.ltb_ge; lia | apply Nat.leb_gt; lia].
      + apply HI.
  Qed.
End Track.

(** ** The registers *)
Section Register.
  Variable U : mtch -> Prop.
  Variable f : family.
  Hypothesis HU : f = ByTag -> forall a b, U a -> U b -> meq a b = true -> m_tags a = m_tags b.
  Definition famU (c : coll) (g : list mtch) : Prop := fam f c g /\ Forall U g.
  Lemma famU_del c l g : Forall U l -> famU c g -> famU (with_del c l) g.
  Proof. intros _ [H1 H2]. split; [apply fam_with_del, H1 | exact H2]. Qed.
  Lemma famU_add c m g : accepts (c_kind c) m = true -> U m -> famU c g -> famU (fst (add_match c m)) (note g (Added m)).
  Proof. intros Ha Hm [H1 H2]. split; [apply fam_add; assumption|]. cbn [note]. rewrite Forall_app. auto. Qed.
  Lemma famU_rem c m g c' : U m -> remove_match c m = (c', Ok tt) -> famU c g -> famU c' (note g (Gone m)).
  Proof.
    intros Hm Hr [Hf Hg]. split.
    - eapply fam_remove; eauto. intros Ef x Hx E. symmetry. apply HU; auto. rewrite Forall_forall in Hg. auto.
    - cbn [note]. destruct (remove_first (meq m) g) as [g'|] eqn:E; [|exact Hg]. apply remove_first_Some in E as (a & x & b & -> & _ & _ & ->).
      rewrite Forall_app in *. destruct Hg as [Ga Gb]. inversion Gb. auto.
  Qed.
  Lemma clear_empties P n : forall c, Inv P c -> (length (c_del c) < n)%nat -> Forall U (c_del c) ->
    unfilled f c -> unfilled f (fst (clear_loop n c)) \/ (f = ByEnd /\ fam f (fst (clear_loop n c)) []).
  Proof.
    induction n as [|n IH]; intros c HI Hn Hl Hf; [lia|]. cbn [clear_loop].
    pose proof (pop_ok (-1) HI) as Hp. destruct (py_pos (c_del c) (-1)) as [k|] eqn:Ep.
    - destruct Hp as (c1 & x & Ex & E1 & HI1 & He1 & Hd1 & Hm1 & Hn1). rewrite E1.
      assert (c_del c = c_del c1 ++ [x]) as Hc by (rewrite Hd1; apply remove_nth_last; [apply py_pos_last, Ep | exact Ex]).
      assert (Forall U (c_del c1) /\ U x) as [Hl1 Hx] by (rewrite Hc, Forall_app in Hl; destruct Hl as [? Hl']; inversion Hl'; auto).
      assert (delitem c (-1) = (c1, Ok tt)) as Ed.
      { unfold pop in E1. unfold py_nth in E1. rewrite Ep, Ex in E1. destruct (delitem c (-1)) as [c2 [[]|]]; [injection E1 as ->; reflexivity | discriminate]. }
      destruct (tracks_delitem f famU_del famU_rem Ep Ex Hx Hl Ed) as [_ F1].
      assert (length (c_del c1) < n)%nat as Hn' by (rewrite Hc, app_length in Hn; simpl in Hn; lia).
      destruct (F1 Hf) as [H|[Ef H]]; [apply IH; assumption|]. right. split; [exact Ef|].
      destruct (tracks_clear f famU_del famU_rem HI1 Hn' Hl1 (conj H Hl1)) as [H2 _].
      change (fam f (fst (clear_loop n c1)) (notes (c_del c1) (map Gone (rev (c_del c1))))) in H2.
      rewrite notes_empty in H2; [exact H2|]. rewrite map_rev. apply Permutation_rev.
    - rewrite Hp. left. exact Hf.
  Qed.
  Lemma fam_step P c o : Inv P c ->
    Forall (fun m => accepts (c_kind c) m = true) (handed o) ->
    (match o with ODelslice i j => c_ending c <> None \/ Forall (fun x => m_end x < c_maxend c) (removelast (py_slice (c_del c) i j)) | _ => True end) ->
    Forall U (c_del c) -> (forall m, In (Added m) (told (c_del c) o) -> U m) ->
    (forall g, famU c g -> famU (fst (step c o)) (notes g (told (c_del c) o)))
    /\ (unfilled f c -> unfilled f (fst (step c o)) \/ (may_need f o = true /\ fam f (fst (step c o)) (c_del (fst (step c o))))).
  Proof.
    intros HI HF HS Hl Hh.
    destruct (is_mutator o) eqn:Em.
    2: { assert (is_lookup o = true) as Hlk by (rewrite is_lookup_mutator, Em; reflexivity).
         replace (told (c_del c) o) with (@nil news) by (destruct o; try discriminate; reflexivity). split.
         - intros g [H1 H2]. split; [apply lookup_fam; assumption | exact H2].
         - intro Hf. destruct (lookup_unfilled Hlk Hf) as [H|[H1 H2]]; [left; exact H | right]. split; [exact H1|].
           destruct (lookup_obs c Hlk) as (-> & _). exact H2. }
    destruct (track_step f famU_del famU_add famU_rem Em HI HF HS Hl Hh) as [T1 T2]. split; [exact T1|].
    destruct o; try discriminate; try (apply T2; discriminate).
    intro Hf. destruct (clear_ok HI) as (c' & E & _ & _ & Hd & _).
    destruct (@clear_empties P (S (length (c_del c))) c HI) as [H|[Ef H]]; [lia | exact Hl | exact Hf | |].
    - left. exact H.
    - right. split; [rewrite Ef; reflexivity|]. cbn [step unit_out fst]. unfold clear in E. rewrite E in H. unfold clear. rewrite E. cbn [fst] in *. rewrite Hd. exact H.
  Qed.
End Register.


(** ** Whole histories *)
Lemma told_handed l o m : In (Added m) (told l o) -> In m (handed o) \/ In m l.
Proof.
  assert (forall ms, In (Added m) (map Added ms) -> In m ms) as HA.
  { intros ms H. apply in_map_iff in H as (y & E & Hy). congruence. }
  assert (forall ms, ~ In (Added m) (map Gone ms)) as HG.
  { intros ms H. apply in_map_iff in H as (y & E & Hy). discriminate. }
  destruct o; cbn [told handed]; intro H; try (destruct H as [H|[]]; left; left; congruence); try contradiction.
  - left. apply HA, H.
  - destruct (member_equal m0 l); [destruct H as [H|[]]; discriminate | contradiction].
  - destruct (py_nth l i); [destruct H as [H|[]]; discriminate | contradiction].
  - exfalso. exact (HG _ H).
  - destruct (py_nth l i); [destruct H as [H|[]]; discriminate | contradiction].
  - exfalso. exact (HG _ H).
  - destruct (py_nth l i); [destruct H as [H|[]] | contradiction]. left; left; congruence.
  - left. apply HA, H.
  - right. unfold swaps in H. apply in_flat_map in H as (i & _ & H).
    destruct (nth_error l (length l - 1 - i)) as [a|] eqn:Ea; [|contradiction]. destruct (nth_error l i) as [b|] eqn:Eb; [|contradiction].
    destruct H as [H|[H|[]]]; injection H as <-; eapply nth_error_In; eauto.
Qed.
Lemma register_app a o : forall g l, register g l (a ++ [o]) = notes (register g l a) (told (list_run l a) o).
Proof. induction a as [|x a IH]; intros g l; cbn [app register list_run fold_left]; [reflexivity | rewrite IH; reflexivity]. Qed.
Lemma list_run_snoc l a o : list_run l (a ++ [o]) = fst (list_step (list_run l a) o).
Proof. unfold list_run. rewrite fold_left_app. reflexivity. Qed.

Lemma reach_filed k input f ops :
  acceptable k false [] ops ->
  (f = ByTag -> forall a b, In a (all_handed ops) -> In b (all_handed ops) -> meq a b = true -> m_tags a = m_tags b) ->
  let c := run (empty_coll k input) ops in
  (unfilled f c /\ forallb (fun o => negb (asks f o)) ops = true)
  \/ exists before after, ops = before ++ after /\ forallb (fun o => negb (asks f o)) (removelast before) = true
      /\ (exists b o, before = b ++ [o] /\ may_need f o = true)
      /\ fam f c (register (list_run [] before) (list_run [] before) after).
Proof.
  intros Hacc HT c.
  set (U := fun m => In m (all_handed ops)).
  assert (HU : f = ByTag -> forall a b, U a -> U b -> meq a b = true -> m_tags a = m_tags b) by (intros; apply HT; auto).
  assert (forall pre post, ops = pre ++ post ->
    let c := run (empty_coll k input) pre in
    (unfilled f c /\ forallb (fun o => negb (asks f o)) pre = true)
    \/ exists before after, pre = before ++ after /\ forallb (fun o => negb (asks f o)) (removelast before) = true
      /\ (exists b o, before = b ++ [o] /\ may_need f o = true)
      /\ fam f c (register (list_run [] before) (list_run [] before) after)
      /\ Forall U (register (list_run [] before) (list_run [] before) after)) as G.
  2: { destruct (G ops [] (eq_sym (app_nil_r ops))) as [H|(be & af & H1 & H2 & H3 & H4 & _)]; [left; exact H | right; exists be, af; auto]. }
  induction pre as [|o pre IH] using rev_ind; intros post E.
  - left. split; [destruct f; reflexivity | reflexivity].
  - rewrite <- app_assoc in E. specialize (IH _ E). cbn zeta in *.
    assert (acceptable k false [] (pre ++ [o])) as Hacc'.
    { rewrite E in Hacc. change (pre ++ [o] ++ post) with (pre ++ ([o] ++ post)) in Hacc. rewrite app_assoc in Hacc. apply acceptable_app in Hacc. apply Hacc. }
    apply acceptable_app in Hacc' as [A1 A2]. cbn [acceptable] in A2. destruct A2 as (B1 & B2 & _).
    pose proof (Inv_empty (fun _ => True) k input) as HI0.
    assert (false = true -> c_ending (empty_coll k input) <> None) as Hf by discriminate.
    destruct (@run_ok (fun _ => True) k pre false (empty_coll k input) eq_refl HI0 Hf A1 (or_intror (fun _ => I))) as (R1 & R2 & R3 & _).
    pose proof (@asked_built k (empty_coll k input) pre false eq_refl HI0 Hf A1) as Hask.
    rewrite run_app. change (run (run (empty_coll k input) pre) [o]) with (fst (step (run (empty_coll k input) pre) o)).
    set (c0 := run (empty_coll k input) pre) in *. cbn [c_del empty_coll] in R3.
    assert (Forall U (c_del c0)) as HUc.
    { destruct (reached_univ k input pre) as (H & _). unfold reached in H. fold c0 in H. eapply Forall_impl; [|exact H].
      intros x Hx. unfold U. rewrite E. unfold all_handed in *. rewrite flat_map_app. apply in_or_app. left. exact Hx. }
    assert (forall m, In (Added m) (told (c_del c0) o) -> U m) as HUh.
    { intros x Hx. apply told_handed in Hx as [Hx|Hx]; [|rewrite Forall_forall in HUc; auto]. unfold U. rewrite E. unfold all_handed. rewrite flat_map_app. apply in_or_app. right. cbn [app flat_map]. apply in_or_app. left. exact Hx. }
    assert (match o with ODelslice i j => c_ending c0 <> None \/ Forall (fun x => m_end x < c_maxend c0) (removelast (py_slice (c_del c0) i j)) | _ => True end) as HS.
    { destruct o; auto. destruct B2 as [B2|B2]; [left; apply Hask; exact B2 | right; eapply furthest_below; [exact R1 | rewrite R3; exact B2]]. }
    assert (Forall (fun m => accepts (c_kind c0) m = true) (handed o)) as HFo by (destruct R2 as [-> _]; exact B1).
    destruct (@fam_step U f HU (fun _ => True) c0 o R1 HFo HS HUc HUh) as [T1 T2].
    destruct (@step_ok (fun _ => True) c0 o R1 HFo (fun _ _ => I) HS) as (S1 & S2 & S3 & _).
    assert (Forall U (c_del (fst (step c0 o)))) as HUc'.
    { destruct (reached_univ k input (pre ++ [o])) as (H & _). unfold reached in H. rewrite run_app in H.
      change (run (run (empty_coll k input) pre) [o]) with (fst (step c0 o)) in H. eapply Forall_impl; [|exact H].
      intros x Hx. unfold U. rewrite E. unfold all_handed in *. rewrite app_assoc, flat_map_app. apply in_or_app. left. exact Hx. }
    destruct IH as [[Hu Hasks]|(be & af & H1 & H2 & H3 & H4 & H5)].
    + destruct (T2 Hu) as [H|[Hmn H]].
      * left. split; [exact H|]. rewrite forallb_app, Hasks. cbn [forallb]. destruct (asks f o) eqn:Ea; [|reflexivity].
        exfalso. exact (asks_fills Ea H).
      * right. exists (pre ++ [o]), []. rewrite app_nil_r, removelast_last. cbn [register].
        rewrite list_run_snoc, <- R3, <- S3. repeat split; auto. exists pre, o. auto.
    + right. exists be, (af ++ [o]). rewrite register_app.
      assert (list_run (list_run [] be) af = c_del c0) as Hl by (rewrite R3, H1; unfold list_run; rewrite fold_left_app; reflexivity).
      rewrite Hl. destruct (T1 _ (conj H4 H5)) as [T3 T4]. rewrite H1, <- app_assoc. repeat split; auto.
Qed.

Lemma answers_filed k input f ops :
  acceptable k false [] ops ->
  (f = ByTag -> forall a b, In a (all_handed ops) -> In b (all_handed ops) -> meq a b = true -> m_tags a = m_tags b) ->
  exists g, holds f ops g /\ shows f (run (empty_coll k input) ops) g.
Proof.
  intros Hacc HT. destruct (@reach_filed k input f ops Hacc HT) as [[Hu Ha]|(be & af & H1 & H2 & H3 & H4)].
  - exists (list_run [] ops). split.
    + exists ops, []. split; [|reflexivity]. split; [symmetry; apply app_nil_r|]. split; [|left; reflexivity].
      destruct ops as [|o ops _] using rev_ind; [reflexivity|]. rewrite removelast_last. rewrite forallb_app in Ha. apply andb_true_iff in Ha. tauto.
    + apply unfilled_shows in Hu. pose proof (Inv_empty (fun _ => True) k input) as HI0.
      assert (false = true -> c_ending (empty_coll k input) <> None) as Hf by discriminate.
      destruct (@run_ok (fun _ => True) k ops false (empty_coll k input) eq_refl HI0 Hf Hacc (or_intror (fun _ => I))) as (_ & _ & R3 & _).
      cbn [c_del empty_coll] in R3. rewrite <- R3. exact Hu.
  - eexists. split; [|apply fam_shows, H4]. exists be, af. split; [|reflexivity]. split; [exact H1|]. split; [exact H2 | right; exact H3].
Qed.
