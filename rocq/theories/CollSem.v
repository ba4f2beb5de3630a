(** What the lookups answer in a state whose dictionaries reflect the sequence. *)
From Verif Require Import Base BaseFacts Match Spec MatchFacts Coll CollFacts CollQuery.
From Coq Require Import ZifyBool.
Set Implicit Arguments.
Unset Strict Implicit.
Open Scope Z_scope.

Definition no_ghost : mtch -> Prop := fun _ => False.

(** ** Lists up to [==] *)
Lemma perm_same_members l r : Permutation (map mkey l) (map mkey r) <-> same_members l r.
Proof.
  split.
  - intro H. apply Permutation_map_inv in H as (r' & E & Hp). exists r'. split; [exact Hp|].
    clear Hp r. revert r' E. induction l as [|x l IH]; intros [|y r'] E; try discriminate; constructor.
    + simpl in E. injection E as E1 _. apply meq_mkey; exact E1.
    + simpl in E. injection E as _ E2. apply IH; exact E2.
  - intros (r' & Hp & Hf). rewrite (Permutation_map mkey Hp). clear Hp r.
    induction Hf as [|x y l r' Hxy Hf IH]; simpl; [constructor|].
    apply meq_mkey in Hxy. rewrite Hxy. constructor; exact IH.
Qed.

Lemma no_equal_NoDup l : no_equal l <-> NoDup (map mkey l).
Proof.
  unfold no_equal. split.
  - induction 1 as [|x l Hx Hl IH]; simpl; constructor; auto.
    intro Hin. apply in_map_iff in Hin as (y & E & Hy). rewrite Forall_forall in Hx.
    specialize (Hx y Hy). apply meq_false_mkey in Hx. congruence.
  - induction l as [|x l IH]; simpl; intro H; constructor; inversion H; subst; auto.
    apply Forall_forall. intros y Hy. apply meq_false_mkey. intro E. apply H2. rewrite E. apply in_map, Hy.
Qed.

Lemma found_mkey x l : found x l <-> In (mkey x) (map mkey l).
Proof.
  unfold found. rewrite in_map_iff. split; intros (y & H1 & H2); exists y.
  - split; [symmetry; apply meq_mkey; exact H2 | exact H1].
  - split; [exact H2 | apply meq_mkey; congruence].
Qed.

(** ** Views under the invariant *)
Section Views.
  Variable c : coll.
  Hypothesis HI : Inv no_ghost c.

  Lemma ghost_nil g : Forall no_ghost g -> g = [].
  Proof. destruct g; [reflexivity|]. intro H; inversion H; contradiction. Qed.

  Lemma vname_perm n : Permutation (map mkey (vname c n)) (map mkey (occ name_keys n (c_del c))).
  Proof. destruct HI as (HD & _). destruct (named_dict_ok HD) as (g & Hg & Hok). rewrite (ghost_nil Hg) in Hok. apply Hok. Qed.
  Lemma vtag_perm n : Permutation (map mkey (vtag c n)) (map mkey (occ tag_keys n (c_del c))).
  Proof. destruct HI as (HD & _). destruct (tagged_dict_ok HD) as (g & Hg & Hok). rewrite (ghost_nil Hg) in Hok. apply Hok. Qed.
  Lemma vstart_perm n : Permutation (map mkey (vstart c n)) (map mkey (occ start_keys n (c_del c))).
  Proof. destruct HI as (HD & _). destruct (starting_dict_ok HD) as (g & Hg & Hok). rewrite (ghost_nil Hg) in Hok. apply Hok. Qed.
  Lemma vend_perm n : Permutation (map mkey (vend c n)) (map mkey (occ end_keys n (c_del c))).
  Proof.
    destruct HI as (HD & _). destruct (@ending_dict_ok no_ghost c (c_del c)) as (g & Hg & Hok); [apply HD | reflexivity |].
    rewrite (ghost_nil Hg) in Hok. apply Hok.
  Qed.
  Lemma vat_perm n : Permutation (map mkey (vat c n)) (map mkey (occ index_keys n (c_del c))).
  Proof. destruct HI as (HD & _). destruct (indexed_dict_ok HD) as (g & Hg & Hok). rewrite (ghost_nil Hg) in Hok. apply Hok. Qed.
End Views.

Lemma occ_name n l : n <> [] -> occ name_keys n l = filter (name_is n) l.
Proof.
  intro Hn. rewrite occ_filter by (intros; apply name_keys_NoDup). apply filter_ext. intro m.
  unfold name_keys, name_is. destruct (m_name m) as [[|a r]|]; simpl; try reflexivity.
  - destruct n; [congruence | reflexivity].
  - rewrite orb_false_r. change (list_eqb N.eqb n (a :: r)) with (eqb n (a :: r)).
    change (pstr_eqb (a :: r) n) with (eqb (a :: r) n). apply eqb_sym.
Qed.
Lemma occ_tag n l : occ tag_keys n l = tagged_members n l.
Proof. reflexivity. Qed.
Lemma occ_start n l : occ start_keys n l = filter (starts_at n) l.
Proof. unfold start_keys. rewrite occ_single. reflexivity. Qed.
Lemma occ_end n l : occ end_keys n l = filter (ends_at n) l.
Proof. unfold end_keys. rewrite occ_single. reflexivity. Qed.
Lemma occ_at n l : occ index_keys n l = filter (coversb n) l.
Proof.
  rewrite occ_filter by (intros; apply NoDup_zrange). apply filter_ext. intro m.
  destruct (coversb n m) eqn:E.
  - apply existsb_exists. exists n. split; [|apply eqb_refl]. apply in_zrange. unfold coversb in E. lia.
  - apply existsb_false_iff. intros x Hx. apply in_zrange in Hx. apply eqb_neq. intros ->. unfold coversb in E. lia.
Qed.

Section Sem.
  Variable c : coll.
  Hypothesis HI : Inv no_ghost c.
  Let del := c_del c.

  Lemma vat_key i k : In k (map mkey (vat c i)) <-> exists y, In y del /\ covers y i /\ mkey y = k.
  Proof.
    split.
    - intro H. apply (Permutation_in _ (vat_perm HI i)) in H. rewrite occ_at in H.
      apply in_map_iff in H as (y & E & Hy). apply filter_In in Hy as [Hy Hc]. apply coversb_spec in Hc. eauto.
    - intros (y & Hy & Hc & <-). apply (Permutation_in _ (Permutation_sym (vat_perm HI i))). rewrite occ_at.
      apply in_map, filter_In. split; [exact Hy | apply coversb_spec; exact Hc].
  Qed.
  Lemma vstart_key i k : In k (map mkey (vstart c i)) <-> exists y, In y del /\ m_start y = i /\ mkey y = k.
  Proof.
    split.
    - intro H. apply (Permutation_in _ (vstart_perm HI i)) in H. rewrite occ_start in H.
      apply in_map_iff in H as (y & E & Hy). apply filter_In in Hy as [Hy Hc]. apply Z.eqb_eq in Hc. eauto.
    - intros (y & Hy & Hc & <-). apply (Permutation_in _ (Permutation_sym (vstart_perm HI i))). rewrite occ_start.
      apply in_map, filter_In. split; [exact Hy | apply Z.eqb_eq; congruence].
  Qed.
  Lemma vend_key i k : In k (map mkey (vend c i)) <-> exists y, In y del /\ m_end y = i /\ mkey y = k.
  Proof.
    split.
    - intro H. apply (Permutation_in _ (vend_perm HI i)) in H. rewrite occ_end in H.
      apply in_map_iff in H as (y & E & Hy). apply filter_In in Hy as [Hy Hc]. apply Z.eqb_eq in Hc. eauto.
    - intros (y & Hy & Hc & <-). apply (Permutation_in _ (Permutation_sym (vend_perm HI i))). rewrite occ_end.
      apply in_map, filter_In. split; [exact Hy | apply Z.eqb_eq; congruence].
  Qed.

  Lemma view_nil {V} (f : V -> list mtch) i (Q : mtch -> Prop) :
    (forall k, In k (map mkey (f i)) <-> exists y, In y del /\ Q y /\ mkey y = k) ->
    (f i = [] <-> forall y, In y del -> ~ Q y).
  Proof.
    intro H. split.
    - intros E y Hy HQ. assert (In (mkey y) (map mkey (f i))) as Hin by (apply H; eauto). rewrite E in Hin; destruct Hin.
    - intro Hno. destruct (f i) as [|x l]; [reflexivity|].
      assert (In (mkey x) (map mkey (x :: l))) as Hin by (left; reflexivity).
      apply H in Hin as (y & Hy & HQ & _). exfalso. eapply Hno; eauto.
  Qed.

  (** a predicate that agrees on the entries of the dictionaries and the members equal to them *)
  Definition agrees (p : mtch -> bool) : Prop :=
    forall x y, ((exists i, In x (vat c i)) \/ (exists i, In x (vstart c i))) -> In y del ->
                mkey x = mkey y -> p x = p y.
  Lemma respects_agrees p : respects_eq p -> agrees p.
  Proof. intros H x y _ _ E. apply H, meq_mkey, E. Qed.

  Lemma covered_vat p i : agrees p -> existsb p (vat c i) = existsb (fun m => coversb i m && p m) del.
  Proof.
    intro Hp. destruct (existsb p (vat c i)) eqn:E; symmetry.
    - apply existsb_exists in E as (x & Hx & Hpx).
      destruct (proj1 (vat_key i (mkey x)) (in_map mkey _ _ Hx)) as (y & Hy & Hc & Ek).
      apply existsb_exists. exists y. split; [exact Hy|]. apply andb_true_iff. split; [apply coversb_spec; exact Hc|].
      rewrite <- (Hp x y); eauto.
    - apply existsb_false_iff. intros y Hy. destruct (coversb i y) eqn:Ec; [|reflexivity]. simpl.
      apply coversb_spec in Ec.
      assert (In (mkey y) (map mkey (vat c i))) as Hin by (apply vat_key; eauto).
      apply in_map_iff in Hin as (x & Ek & Hx). rewrite <- (Hp x y); eauto.
      rewrite existsb_false_iff in E. apply E; exact Hx.
  Qed.
  Lemma started_vstart p i : agrees p -> existsb p (vstart c i) = existsb (fun m => (m_start m =? i) && p m) del.
  Proof.
    intro Hp. destruct (existsb p (vstart c i)) eqn:E; symmetry.
    - apply existsb_exists in E as (x & Hx & Hpx).
      destruct (proj1 (vstart_key i (mkey x)) (in_map mkey _ _ Hx)) as (y & Hy & Hc & Ek).
      apply existsb_exists. exists y. split; [exact Hy|]. apply andb_true_iff. split; [apply Z.eqb_eq; exact Hc|].
      rewrite <- (Hp x y); eauto.
    - apply existsb_false_iff. intros y Hy. destruct (m_start y =? i) eqn:Ec; [|reflexivity]. simpl.
      apply Z.eqb_eq in Ec.
      assert (In (mkey y) (map mkey (vstart c i))) as Hin by (apply vstart_key; eauto).
      apply in_map_iff in Hin as (x & Ek & Hx). rewrite <- (Hp x y); eauto.
      rewrite existsb_false_iff in E. apply E; exact Hx.
  Qed.

  (** ** previous and next *)
  Lemma prev_pure_spec v : forall f cur,
    (prev_pure v f cur = [] /\ forall j, cur - Z.of_nat f < j <= cur -> v j = [])
    \/ exists e, cur - Z.of_nat f < e <= cur /\ prev_pure v f cur = v e /\ v e <> [] /\ forall j, e < j <= cur -> v j = [].
  Proof.
    induction f as [|f IH]; intro cur; cbn [prev_pure].
    - left. split; [reflexivity|]. intros; lia.
    - destruct (v cur) as [|x l] eqn:E.
      + destruct (IH (cur - 1)) as [[H1 H2]|(e & H1 & H2 & H3 & H4)].
        * left. split; [exact H1|]. intros j Hj. destruct (Z.eq_dec j cur); [subst; exact E | apply H2; lia].
        * right. exists e. repeat split; try lia; auto. intros j Hj.
          destruct (Z.eq_dec j cur); [subst; exact E | apply H4; lia].
      + right. exists cur. repeat split; try lia; try congruence; intros; lia.
  Qed.
  Lemma next_pure_spec v : forall f cur,
    (next_pure v f cur = [] /\ forall j, cur <= j < cur + Z.of_nat f -> v j = [])
    \/ exists e, cur <= e < cur + Z.of_nat f /\ next_pure v f cur = v e /\ v e <> [] /\ forall j, cur <= j < e -> v j = [].
  Proof.
    induction f as [|f IH]; intro cur; cbn [next_pure].
    - left. split; [reflexivity|]. intros; lia.
    - destruct (v cur) as [|x l] eqn:E.
      + destruct (IH (cur + 1)) as [[H1 H2]|(e & H1 & H2 & H3 & H4)].
        * left. split; [exact H1|]. intros j Hj. destruct (Z.eq_dec j cur); [subst; exact E | apply H2; lia].
        * right. exists e. repeat split; try lia; auto. intros j Hj.
          destruct (Z.eq_dec j cur); [subst; exact E | apply H4; lia].
      + right. exists cur. repeat split; try lia; try congruence; intros; lia.
  Qed.

  Lemma previous_sem m : (forall x, In x del -> 0 <= m_end x) ->
    let r := prev_pure (vend c) (Z.to_nat (m_start m + 1)) (m_start m) in
    (r = [] /\ forall x, In x del -> m_start m < m_end x)
    \/ exists e, e <= m_start m /\ r <> [] /\ same_members r (filter (ends_at e) del)
        /\ forall x, In x del -> m_end x <= m_start m -> m_end x <= e.
  Proof.
    intros Hpos r. subst r.
    destruct (prev_pure_spec (vend c) (Z.to_nat (m_start m + 1)) (m_start m)) as [[H1 H2]|(e & H1 & H2 & H3 & H4)].
    - left. split; [exact H1|]. intros x Hx. destruct (Z_lt_ge_dec (m_start m) (m_end x)) as [|Hge]; [assumption|].
      exfalso. specialize (Hpos x Hx).
      assert (vend c (m_end x) = []) as E by (apply H2; lia).
      exact (proj1 (view_nil (Q := fun y => m_end y = m_end x) (vend_key (m_end x))) E x Hx eq_refl).
    - right. exists e. rewrite H2. repeat split; [lia | exact H3 | |].
      + apply perm_same_members. rewrite (vend_perm HI e), occ_end. reflexivity.
      + intros x Hx Hle. destruct (Z_le_gt_dec (m_end x) e); [assumption|]. exfalso.
        assert (vend c (m_end x) = []) as E by (apply H4; lia).
        exact (proj1 (view_nil (Q := fun y => m_end y = m_end x) (vend_key (m_end x))) E x Hx eq_refl).
  Qed.

  Lemma next_sem m : (forall x, In x del -> m_start x <= m_end x) ->
    let r := next_pure (vstart c) (Z.to_nat (c_maxend c - m_start m)) (m_start m + 1) in
    (r = [] /\ forall x, In x del -> m_start x <= m_start m)
    \/ exists e, m_start m < e /\ r <> [] /\ same_members r (filter (starts_at e) del)
        /\ forall x, In x del -> m_start m < m_start x -> e <= m_start x.
  Proof.
    intros Hpos r. subst r. destruct HI as (_ & (_ & HM) & _).
    assert (forall x, In x del -> vstart c (m_start x) <> []) as Hne.
    { intros x Hx E. exact (proj1 (view_nil (Q := fun y => m_start y = m_start x) (vstart_key (m_start x))) E x Hx eq_refl). }
    destruct (next_pure_spec (vstart c) (Z.to_nat (c_maxend c - m_start m)) (m_start m + 1)) as [[H1 H2]|(e & H1 & H2 & H3 & H4)].
    - left. split; [exact H1|]. intros x Hx. destruct (Z_le_gt_dec (m_start x) (m_start m)) as [|Hgt]; [assumption|].
      exfalso. specialize (Hpos x Hx). specialize (HM x Hx). apply (Hne x Hx). apply H2. lia.
    - right. exists e. rewrite H2. repeat split; [lia | exact H3 | |].
      + apply perm_same_members. rewrite (vstart_perm HI e), occ_start. reflexivity.
      + intros x Hx Hle. destruct (Z_le_gt_dec e (m_start x)); [assumption|]. exfalso.
        apply (Hne x Hx). apply H4. lia.
  Qed.

  (** ** conflicting and at_span *)
  Lemma chain_add_keys l : forall ret k,
    In k (map mkey (chain_add ret l)) <-> In k (map mkey ret) \/ In k (map mkey l).
  Proof.
    unfold chain_add. induction l as [|x l IH]; intros ret k; simpl; [tauto|].
    rewrite IH. destruct (mem meq x ret) eqn:E.
    - apply mem_spec in E as (y & Hy & E). apply meq_mkey in E. split; [tauto|].
      intros [H|[<-|H]]; auto. left. rewrite E. apply in_map, Hy.
    - rewrite map_app, in_app_iff. simpl. tauto.
  Qed.
  Lemma chain_add_NoDup l : forall ret, NoDup (map mkey ret) -> NoDup (map mkey (chain_add ret l)).
  Proof.
    unfold chain_add. induction l as [|x l IH]; intros ret Hn; simpl; [exact Hn|].
    apply IH. destruct (mem meq x ret) eqn:E; [exact Hn|].
    rewrite map_app. simpl. apply Permutation_NoDup with (l := mkey x :: map mkey ret).
    - apply Permutation_cons_append.
    - constructor; [|exact Hn]. intro Hin. apply in_map_iff in Hin as (y & Ey & Hy).
      assert (mem meq x ret = true); [|congruence]. apply mem_spec. exists y. split; [exact Hy | apply meq_mkey; congruence].
  Qed.
  Lemma chain_add_In l : forall ret x, In x (chain_add ret l) -> In x ret \/ In x l.
  Proof.
    unfold chain_add. induction l as [|y l IH]; intros ret x; simpl; [tauto|].
    intro H. apply IH in H. destruct H as [H|H]; [|tauto].
    destruct (mem meq y ret); [tauto|]. apply in_app_or in H. simpl in H. tauto.
  Qed.

  Lemma conflicting_sem m :
    match remove_first (meq m) (chain_add [] (flat_map (vat c) (zrange (m_start m) (m_end m)))) with
    | None => forall x, In x del -> meq m x = true -> ~ nonempty m
    | Some r => nonempty m /\ found m del /\ no_equal r
        /\ (forall x, In x del -> (found x r <-> overlap x m /\ meq x m = false))
        /\ (forall y, In y r -> exists x, In x del /\ meq x y = true)
    end.
  Proof.
    set (L := flat_map (vat c) (zrange (m_start m) (m_end m))).
    assert (forall k, In k (map mkey L) <-> exists x, In x del /\ overlap x m /\ mkey x = k) as HL.
    { intro k. subst L. rewrite flat_map_concat_map, concat_map, in_concat. split.
      - intros (l & Hl & Hk). rewrite map_map in Hl. apply in_map_iff in Hl as (i & <- & Hi).
        apply in_zrange in Hi. apply vat_key in Hk as (y & Hy & Hc & E). exists y. repeat split; auto. exists i. split; [exact Hc | exact Hi].
      - intros (x & Hx & (i & Hc & Hm) & E). exists (map mkey (vat c i)). split.
        + rewrite map_map. apply in_map_iff. exists i. split; [reflexivity|]. apply in_zrange. exact Hm.
        + apply vat_key. eauto. }
    assert (forall k, In k (map mkey (chain_add [] L)) <-> exists x, In x del /\ overlap x m /\ mkey x = k) as HL'.
    { intro k. rewrite chain_add_keys, HL. simpl. tauto. }
    assert (NoDup (map mkey (chain_add [] L))) as Hnd by (apply chain_add_NoDup; constructor).
    destruct (remove_first (meq m) (chain_add [] L)) as [r|] eqn:E.
    - apply remove_first_Some in E as (a & z & b & El & Hz & Ha & ->). apply meq_mkey in Hz.
      rewrite El in *. rewrite map_app in *. simpl in *.
      assert (In (mkey m) (map mkey a ++ mkey z :: map mkey b)) as Hin.
      { rewrite Hz. apply in_or_app; right; left; reflexivity. }
      apply HL' in Hin as (x & Hx & (i & Hc & Hm) & Ex).
      split; [unfold nonempty; unfold covers in Hm; lia|].
      split; [exists x; split; [exact Hx | apply meq_mkey; congruence]|].
      apply NoDup_remove in Hnd as [Hnd1 Hnd2].
      split; [apply no_equal_NoDup; rewrite map_app; exact Hnd1|]. split.
      + intros y Hy. rewrite found_mkey, map_app. split.
        * intro Hk. assert (In (mkey y) (map mkey a ++ mkey z :: map mkey b)) as Hk'.
          { apply in_app_or in Hk. apply in_or_app. simpl. tauto. }
          apply HL' in Hk' as (w & Hw & (j & Hcj & Hmj) & Ew). split.
          -- exists j. split; [|exact Hmj]. unfold covers in *. rewrite <- (@mkey_start _ _ Ew), <- (@mkey_end _ _ Ew). exact Hcj.
          -- apply meq_false_mkey. intro Ey. apply Hnd2. rewrite <- Hz, <- Ey. exact Hk.
        * intros [Hov Hne]. apply meq_false_mkey in Hne.
          assert (In (mkey y) (map mkey a ++ mkey z :: map mkey b)) as Hk by (apply HL'; eauto).
          apply in_app_or in Hk. apply in_or_app. simpl in Hk. destruct Hk as [?|[Ek|?]]; auto. congruence.
      + intros y Hy. assert (In (mkey y) (map mkey a ++ mkey z :: map mkey b)) as Hk.
        { apply in_app_or in Hy. apply in_or_app. simpl. destruct Hy as [Hy|Hy]; apply (in_map mkey) in Hy; auto. }
        apply HL' in Hk as (w & Hw & _ & Ew). exists w. split; [exact Hw | apply meq_mkey; exact Ew].
    - intros x Hx Ex Hne. apply meq_mkey in Ex.
      assert (exists w, In w (chain_add [] L) /\ mkey w = mkey m) as (w & Hw & Ew).
      { assert (In (mkey m) (map mkey (chain_add [] L))) as Hin.
        { apply HL'. exists x. split; [exact Hx|]. split; [|congruence]. exists (m_start m). unfold nonempty, covers in *.
          rewrite <- (@mkey_start _ _ Ex), <- (@mkey_end _ _ Ex). lia. }
        apply in_map_iff in Hin as (w & Ew & Hw). eauto. }
      rewrite remove_first_None in E. specialize (E w Hw). apply meq_false_mkey in E. congruence.
  Qed.
End Sem.
