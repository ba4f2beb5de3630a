(** Facts about Match.v: equality, order, crop, split, initiator, names. *)
From Verif Require Import Base BaseFacts Match Spec.
From Coq Require Import ZifyBool.
Set Implicit Arguments.
Open Scope Z_scope.

(** Induction along the parent chain. *)
Lemma parent_ind (P : mtch -> Prop) :
  (forall m, (forall p, m_parent m = Some p -> P p) -> P m) -> forall m, P m.
Proof.
  intro H. fix IH 1. intro m. apply H. intros p.
  destruct m as [? ? ? ? ? ? ? ? ? ? ? ? ? ? ? par ch]; simpl.
  destruct par as [q|]; intro E; [|discriminate].
  injection E as <-. apply IH.
Qed.

(** Induction on the tree of children. *)
Lemma children_ind (P : mtch -> Prop) :
  (forall m, (forall c, In c (m_children m) -> P c) -> P m) -> forall m, P m.
Proof.
  intro H. fix IH 1. intro m. apply H.
  destruct m as [? ? ? ? ? ? ? ? ? ? ? ? ? ? ? par ch]; simpl.
  induction ch as [|c ch IHch]; intros x Hx; [destruct Hx|]. destruct Hx as [Hx|Hx]; [rewrite <- Hx; apply IH | apply IHch, Hx].
Qed.

(** What [==] compares, along the parent chain. *)
Fixpoint mkey (m : mtch) : list (Z * Z * pyval * option pstr) :=
  (m_start m, m_end m, canon (m_value m), m_name m)
  :: match m_parent m with Some p => mkey p | None => [] end.

Lemma mkey_unfold m :
  mkey m = (m_start m, m_end m, canon (m_value m), m_name m)
           :: match m_parent m with Some p => mkey p | None => [] end.
Proof. destruct m; reflexivity. Qed.

Lemma meq_unfold a b :
  meq a b = (m_start a =? m_start b) && (m_end a =? m_end b)
            && py_eqb (m_value a) (m_value b)
            && option_eqb pstr_eqb (m_name a) (m_name b)
            && match m_parent a, m_parent b with
               | Some p, Some q => meq p q
               | None, None => true
               | _, _ => false
               end.
Proof. destruct a; reflexivity. Qed.

Lemma mne_unfold a b :
  mne a b = negb ((m_start a =? m_start b) && (m_end a =? m_end b))
            || negb (py_eqb (m_value a) (m_value b))
            || negb (option_eqb pstr_eqb (m_name a) (m_name b))
            || match m_parent a, m_parent b with
               | Some p, Some q => mne p q
               | None, None => false
               | _, _ => true
               end.
Proof. destruct a; reflexivity. Qed.

Lemma meq_mkey : forall a b, meq a b = true <-> mkey a = mkey b.
Proof.
  intro a. induction a as [a IH] using parent_ind. intro b.
  rewrite meq_unfold, (mkey_unfold a), (mkey_unfold b). split.
  - intro H. repeat (apply andb_true_iff in H; destruct H as [H ?]).
    apply Z.eqb_eq in H. apply Z.eqb_eq in H3. apply py_eqb_canon in H2. apply opt_pstr_eqb_eq in H1.
    f_equal; [congruence|].
    destruct (m_parent a) as [p|] eqn:Ea, (m_parent b) as [q|] eqn:Eb; try discriminate; [|reflexivity].
    apply IH; auto.
  - intro H. injection H as Hs He Hv Hn Hp.
    rewrite Hs, He, Hn, !Z.eqb_refl. apply py_eqb_canon in Hv. rewrite Hv.
    replace (option_eqb pstr_eqb (m_name b) (m_name b)) with true
      by (symmetry; apply opt_pstr_eqb_eq; reflexivity). simpl.
    destruct (m_parent a) as [p|] eqn:Ea, (m_parent b) as [q|] eqn:Eb; try reflexivity.
    + apply (IH p); auto.
    + rewrite (mkey_unfold p) in Hp; discriminate.
    + rewrite (mkey_unfold q) in Hp; discriminate.
Qed.

Lemma meq_false_mkey a b : meq a b = false <-> mkey a <> mkey b.
Proof. rewrite <- meq_mkey. destruct (meq a b); split; congruence. Qed.

Lemma meq_refl a : meq a a = true.
Proof. apply meq_mkey; reflexivity. Qed.
Lemma meq_sym a b : meq a b = meq b a.
Proof.
  destruct (meq a b) eqn:E; symmetry.
  - apply meq_mkey; apply meq_mkey in E; congruence.
  - apply meq_false_mkey; apply meq_false_mkey in E; congruence.
Qed.
Lemma meq_trans a b c : meq a b = true -> meq b c = true -> meq a c = true.
Proof. rewrite !meq_mkey; congruence. Qed.

Lemma mkey_start a b : mkey a = mkey b -> m_start a = m_start b.
Proof. rewrite (mkey_unfold a), (mkey_unfold b); congruence. Qed.
Lemma mkey_end a b : mkey a = mkey b -> m_end a = m_end b.
Proof. rewrite (mkey_unfold a), (mkey_unfold b); congruence. Qed.
Lemma mkey_name a b : mkey a = mkey b -> m_name a = m_name b.
Proof. rewrite (mkey_unfold a), (mkey_unfold b); congruence. Qed.
Lemma mkey_value a b : mkey a = mkey b -> canon (m_value a) = canon (m_value b).
Proof. rewrite (mkey_unfold a), (mkey_unfold b); congruence. Qed.

Lemma meq_spec a b :
  meq a b = true <->
  m_span a = m_span b /\ py_eqb (m_value a) (m_value b) = true /\ m_name a = m_name b
  /\ match m_parent a, m_parent b with
     | Some p, Some q => meq p q = true
     | None, None => True
     | _, _ => False
     end.
Proof.
  rewrite meq_unfold. unfold m_span. split.
  - intro H. repeat (apply andb_true_iff in H; destruct H as [H ?]).
    apply Z.eqb_eq in H. apply Z.eqb_eq in H3. apply opt_pstr_eqb_eq in H1.
    repeat split; try congruence. destruct (m_parent a), (m_parent b); auto; discriminate.
  - intros (Hsp & Hv & Hn & Hp). injection Hsp as Hs He. rewrite Hs, He, Hv, Hn, !Z.eqb_refl.
    replace (option_eqb pstr_eqb (m_name b) (m_name b)) with true
      by (symmetry; apply opt_pstr_eqb_eq; reflexivity). simpl.
    destruct (m_parent a), (m_parent b); auto; contradiction.
Qed.

Lemma mne_negb : forall a b, mne a b = negb (meq a b).
Proof.
  intro a. induction a as [a IH] using parent_ind. intro b.
  rewrite meq_unfold, mne_unfold.
  destruct (m_start a =? m_start b), (m_end a =? m_end b), (py_eqb (m_value a) (m_value b)),
    (option_eqb pstr_eqb (m_name a) (m_name b)); simpl; try reflexivity.
  destruct (m_parent a) as [p|] eqn:Ep, (m_parent b) as [q|]; try reflexivity. apply IH; reflexivity.
Qed.

(** ** Order *)
Lemma mlt_spec a b : mlt a b = true <-> m_start a < m_start b \/ (m_start a = m_start b /\ m_end a < m_end b).
Proof. unfold mlt, span_ltb, m_span; simpl. lia. Qed.
Lemma mlt_false a b : mlt a b = false <-> m_start b < m_start a \/ (m_start b = m_start a /\ m_end b <= m_end a).
Proof. unfold mlt, span_ltb, m_span; simpl. lia. Qed.
Lemma mle_negb a b : mle a b = negb (mlt b a).
Proof. unfold mle, mlt, span_leb, span_ltb, m_span; simpl. lia. Qed.
Lemma mlt_asym a b : mlt a b = true -> mlt b a = false.
Proof. rewrite mlt_spec, mlt_false. lia. Qed.
Lemma mlt_le_trans a b c : mlt b a = false -> mlt c b = false -> mlt c a = false.
Proof. rewrite !mlt_false. lia. Qed.
Lemma mlt_tie a b : mlt a b = false -> mlt b a = false -> m_span a = m_span b.
Proof. rewrite !mlt_false. unfold m_span. intros. f_equal; lia. Qed.

(** ** Truth value and length *)
Lemma mtrue_spec m : mtrue m = true <-> m_start m <> m_end m.
Proof. unfold mtrue, mlen. lia. Qed.

Lemma coversb_spec i m : coversb i m = true <-> covers m i.
Proof. unfold coversb, covers. lia. Qed.

(** ** crop *)
Definition crop_attrs (m p : mtch) : Prop := p = set_end (set_start m (m_start p)) (m_end p).

Lemma crop_attrs_refl m : crop_attrs m m.
Proof. destruct m; reflexivity. Qed.
Lemma crop_attrs_start m p v : crop_attrs m p -> crop_attrs m (set_start p v).
Proof. unfold crop_attrs. intro H. rewrite H at 1. destruct m; simpl. reflexivity. Qed.
Lemma crop_attrs_end m p v : crop_attrs m p -> crop_attrs m (set_end p v).
Proof. unfold crop_attrs. intro H. rewrite H at 1. destruct m; simpl. reflexivity. Qed.

Definition cnt (i : Z) (l : list mtch) : nat := length (filter (coversb i) l).
Lemma cnt_app i l r : cnt i (l ++ r) = (cnt i l + cnt i r)%nat.
Proof. unfold cnt. rewrite filter_app, app_length. reflexivity. Qed.
Lemma cnt_cons i m l : cnt i (m :: l) = ((if coversb i m then 1 else 0) + cnt i l)%nat.
Proof. unfold cnt. simpl. destruct (coversb i m); reflexivity. Qed.
Lemma cnt_nil i : cnt i [] = 0%nat.
Proof. reflexivity. Qed.

Lemma cnt_In i m l : In m l -> coversb i m = true -> (1 <= cnt i l)%nat.
Proof.
  intros H Hc. apply in_split in H as (a & b & ->). rewrite cnt_app, cnt_cons, Hc. lia.
Qed.

Lemma no_equal_piece cur done :
  nonempty cur -> (forall i, (cnt i (done ++ [cur]) <= 1)%nat) -> remove_first (meq cur) done = None.
Proof.
  intros Hc Hd. apply remove_first_None. intros x Hx.
  destruct (meq cur x) eqn:E; [|reflexivity]. exfalso.
  apply meq_mkey in E. pose proof (mkey_start _ _ E) as Es. pose proof (mkey_end _ _ E) as Ee.
  specialize (Hd (m_start cur)). rewrite cnt_app, cnt_cons in Hd.
  unfold nonempty in Hc.
  assert (coversb (m_start cur) cur = true) as H1 by (unfold coversb; lia).
  assert (coversb (m_start cur) x = true) as H2 by (unfold coversb; lia).
  pose proof (@cnt_In _ _ _ Hx H2). rewrite H1 in Hd. lia.
Qed.

Lemma no_empty_piece e done :
  m_start e = m_end e -> Forall nonempty done -> remove_first (meq e) done = None.
Proof.
  intros He Hd. apply remove_first_None. intros x Hx.
  destruct (meq e x) eqn:E; [|reflexivity]. exfalso.
  apply meq_mkey in E. pose proof (mkey_start _ _ E) as Es. pose proof (mkey_end _ _ E) as Ee.
  rewrite Forall_forall in Hd. specialize (Hd x Hx). unfold nonempty in Hd. lia.
Qed.

Lemma crop_pass_spec m st en : st <= en ->
  forall todo done rights,
    Forall nonempty (done ++ todo ++ rights) ->
    Forall (crop_attrs m) (done ++ todo ++ rights) ->
    (forall i, (cnt i (done ++ todo) <= 1)%nat) ->
    let r := crop_pass st en done todo rights in
    Forall nonempty r /\ Forall (crop_attrs m) r
    /\ forall i, cnt i r = (cnt i done + cnt i rights
                            + if ((st <=? i) && (i <? en))%Z then 0 else cnt i todo)%nat.
Proof.
  intro Hse. induction todo as [|cur rest IH]; intros done rights Hn Ha Hd.
  - simpl in *. split; [exact Hn | split; [exact Ha|]]. intro i. rewrite cnt_app, cnt_nil.
    destruct (_ && _); lia.
  - cbn [crop_pass].
    assert (nonempty cur) as Hcur.
    { rewrite Forall_forall in Hn. apply Hn. apply in_or_app; right; left; reflexivity. }
    assert (crop_attrs m cur) as Hacur.
    { rewrite Forall_forall in Ha. apply Ha. apply in_or_app; right; left; reflexivity. }
    assert (Forall nonempty (done ++ rest ++ rights)) as Hn'.
    { rewrite !Forall_app in *. destruct Hn as (? & Hn1 & ?). inversion Hn1; subst. tauto. }
    assert (Forall (crop_attrs m) (done ++ rest ++ rights)) as Ha'.
    { rewrite !Forall_app in *. destruct Ha as (? & Ha1 & ?). inversion Ha1; subst. tauto. }
    assert (forall i, (cnt i (done ++ rest) <= 1)%nat) as Hd'.
    { intro i. specialize (Hd i). rewrite cnt_app, cnt_cons in Hd. rewrite cnt_app. destruct (coversb i cur); lia. }
    assert (forall x, nonempty x -> Forall nonempty ((done ++ [x]) ++ rest ++ rights)) as Hnx.
    { intros x Hx. rewrite !Forall_app in *. repeat split; try tauto. repeat constructor; assumption. }
    assert (forall x, crop_attrs m x -> Forall (crop_attrs m) ((done ++ [x]) ++ rest ++ rights)) as Hax.
    { intros x Hx. rewrite !Forall_app in *. repeat split; try tauto. repeat constructor; assumption. }
    assert (forall x, (forall i, coversb i x = true -> coversb i cur = true) ->
              forall i, (cnt i ((done ++ [x]) ++ rest) <= 1)%nat) as Hdx.
    { intros x Hx i. specialize (Hd i). specialize (Hx i). rewrite !cnt_app, cnt_cons in *. rewrite cnt_nil.
      destruct (coversb i x); [rewrite Hx in Hd by reflexivity|destruct (coversb i cur)]; lia. }
    assert (forall x, nonempty x -> Forall nonempty (done ++ rest ++ rights ++ [x])) as Hnr.
    { intros x Hx. rewrite !Forall_app in *. repeat split; try tauto. repeat constructor; assumption. }
    assert (forall x, crop_attrs m x -> Forall (crop_attrs m) (done ++ rest ++ rights ++ [x])) as Har.
    { intros x Hx. rewrite !Forall_app in *. repeat split; try tauto. repeat constructor; assumption. }
    unfold nonempty in Hcur.
    destruct ((st <=? m_start cur) && (en >=? m_end cur)) eqn:C1.
    + rewrite no_equal_piece; [| exact Hcur |].
      2: { intro i. specialize (Hd i). rewrite !cnt_app, cnt_cons in *. rewrite cnt_nil. lia. }
      destruct (IH done rights Hn' Ha' Hd') as (R1 & R2 & R3).
      split; [exact R1 | split; [exact R2|]]. intro i. rewrite R3, cnt_cons.
      destruct ((st <=? i) && (i <? en)) eqn:Ei; [reflexivity|].
      assert (coversb i cur = false) as -> by (unfold coversb; lia). reflexivity.
    + destruct ((st >=? m_start cur) && (en <=? m_end cur)) eqn:C2.
      * set (right := set_start cur en). set (cur' := set_end cur st).
        set (rights' := if mtrue right then rights ++ [right] else rights).
        assert (forall i, cnt i rights' = (cnt i rights + if coversb i right then 1 else 0)%nat) as Hcr.
        { intro i. subst rights'. destruct (mtrue right) eqn:Et.
          - rewrite cnt_app, cnt_cons, cnt_nil. lia.
          - assert (coversb i right = false) as ->; [|lia].
            unfold mtrue, mlen in Et. unfold coversb. subst right. cbn in *. lia. }
        assert (mtrue right = true -> nonempty right) as Hnright.
        { intro Et. apply mtrue_spec in Et. unfold nonempty. subst right. cbn in *. lia. }
        assert (Forall nonempty (done ++ rest ++ rights')) as Hn2.
        { subst rights'. destruct (mtrue right) eqn:Et; [|exact Hn']. apply Hnr. apply Hnright; reflexivity. }
        assert (Forall (crop_attrs m) (done ++ rest ++ rights')) as Ha2.
        { subst rights'. destruct (mtrue right) eqn:Et; [|exact Ha']. apply Har. apply crop_attrs_start; exact Hacur. }
        assert (forall i, ((if coversb i cur' then 1 else 0) + (if coversb i right then 1 else 0))%nat
                          = if (st <=? i) && (i <? en) then 0%nat else if coversb i cur then 1%nat else 0%nat) as Hcov.
        { intro i. unfold coversb. subst cur' right. cbn.
          destruct (Z.leb_spec (m_start cur) i), (Z.ltb_spec i st), (Z.leb_spec en i), (Z.ltb_spec i (m_end cur)),
            (Z.leb_spec st i), (Z.ltb_spec i en); simpl; try reflexivity; lia. }
        destruct (mtrue cur') eqn:Et.
        -- assert (nonempty cur') as Hnc.
           { apply mtrue_spec in Et. unfold nonempty. subst cur'. cbn in *. lia. }
           assert (Forall nonempty ((done ++ [cur']) ++ rest ++ rights')) as Hn3.
           { rewrite !Forall_app in *. repeat split; try tauto. repeat constructor; exact Hnc. }
           assert (Forall (crop_attrs m) ((done ++ [cur']) ++ rest ++ rights')) as Ha3.
           { rewrite !Forall_app in *. repeat split; try tauto. repeat constructor. apply crop_attrs_end; exact Hacur. }
           destruct (IH (done ++ [cur']) rights' Hn3 Ha3) as (R1 & R2 & R3).
           { apply Hdx. intro i. unfold coversb. subst cur'. cbn. lia. }
           split; [exact R1 | split; [exact R2|]]. intro i. rewrite R3, cnt_app, cnt_cons, cnt_nil, cnt_cons, Hcr.
           specialize (Hcov i). destruct ((st <=? i) && (i <? en)); lia.
        -- rewrite no_empty_piece.
           2: { unfold mtrue, mlen in Et. lia. }
           2: { rewrite Forall_app in Hn'. tauto. }
           destruct (IH done rights' Hn2 Ha2 Hd') as (R1 & R2 & R3).
           split; [exact R1 | split; [exact R2|]]. intro i. rewrite R3, cnt_cons, Hcr.
           specialize (Hcov i).
           assert (coversb i cur' = false) as Ec.
           { unfold mtrue, mlen in Et. unfold coversb. lia. }
           rewrite Ec in Hcov. destruct ((st <=? i) && (i <? en)); lia.
      * destruct ((m_end cur >=? en) && (en >? m_start cur)) eqn:C3.
        -- destruct (IH (done ++ [set_start cur en]) rights) as (R1 & R2 & R3).
           { apply Hnx. unfold nonempty. cbn. lia. }
           { apply Hax, crop_attrs_start, Hacur. }
           { apply Hdx. intro i. unfold coversb. cbn. lia. }
           split; [exact R1 | split; [exact R2|]]. intro i. rewrite R3, cnt_app, cnt_cons, cnt_nil, cnt_cons.
           unfold coversb. cbn.
           destruct (Z.leb_spec (m_start cur) i), (Z.leb_spec en i), (Z.ltb_spec i (m_end cur)),
            (Z.leb_spec st i), (Z.ltb_spec i en); simpl; try reflexivity; lia.
        -- destruct ((m_start cur <=? st) && (st <? m_end cur)) eqn:C4.
           ++ destruct (IH (done ++ [set_end cur st]) rights) as (R1 & R2 & R3).
              { apply Hnx. unfold nonempty. cbn. lia. }
              { apply Hax, crop_attrs_end, Hacur. }
              { apply Hdx. intro i. unfold coversb. cbn. lia. }
              split; [exact R1 | split; [exact R2|]]. intro i. rewrite R3, cnt_app, cnt_cons, cnt_nil, cnt_cons.
              unfold coversb. cbn.
              destruct (Z.leb_spec (m_start cur) i), (Z.leb_spec en i), (Z.ltb_spec i (m_end cur)),
                (Z.leb_spec st i), (Z.ltb_spec i en), (Z.ltb_spec i st); simpl; try reflexivity; lia.
           ++ destruct (IH (done ++ [cur]) rights) as (R1 & R2 & R3).
              { apply Hnx. exact Hcur. }
              { apply Hax, Hacur. }
              { apply Hdx. auto. }
              split; [exact R1 | split; [exact R2|]]. intro i. rewrite R3, cnt_app, cnt_cons, cnt_nil, cnt_cons.
              unfold coversb.
              destruct (Z.leb_spec (m_start cur) i), (Z.leb_spec en i), (Z.ltb_spec i (m_end cur)),
                (Z.leb_spec st i), (Z.ltb_spec i en), (Z.ltb_spec i st); simpl; try reflexivity; lia.
Qed.

Lemma crop_fold_spec m crops : Forall (fun c => fst c <= snd c) crops ->
  forall ret,
    Forall nonempty ret -> Forall (crop_attrs m) ret -> (forall i, (cnt i ret <= 1)%nat) ->
    let r := fold_left (fun ret c => crop_pass (fst c) (snd c) [] ret []) crops ret in
    Forall nonempty r /\ Forall (crop_attrs m) r
    /\ forall i, cnt i r = if existsb (fun c => (fst c <=? i) && (i <? snd c)) crops then 0%nat else cnt i ret.
Proof.
  induction 1 as [|c crops Hc Hcs IH]; intros ret Hn Ha Hd; simpl.
  - auto.
  - destruct (@crop_pass_spec m (fst c) (snd c) Hc ret [] []) as (R1 & R2 & R3).
    { rewrite app_nil_r; exact Hn. } { rewrite app_nil_r; exact Ha. } { exact Hd. }
    destruct (IH (crop_pass (fst c) (snd c) [] ret [])) as (S1 & S2 & S3); auto.
    { intro i. rewrite R3. specialize (Hd i). rewrite cnt_nil. destruct (_ && _); lia. }
    split; [exact S1 | split; [exact S2|]]. intro i. rewrite S3, R3, cnt_nil.
    destruct ((fst c <=? i) && (i <? snd c)); simpl; [destruct (existsb _ crops)|]; lia.
Qed.

Lemma crop_spec m crops : nonempty m -> Forall (fun c => fst c <= snd c) crops ->
  Forall nonempty (crop m crops)
  /\ disjoint_list (crop m crops)
  /\ (forall i, (exists p, In p (crop m crops) /\ covers p i)
                <-> covers m i /\ forall c, In c crops -> ~ (fst c <= i < snd c))
  /\ Forall (fun p => p = set_end (set_start m (m_start p)) (m_end p)) (crop m crops).
Proof.
  intros Hm Hc. unfold crop.
  destruct (@crop_fold_spec m crops Hc [m]) as (R1 & R2 & R3).
  { repeat constructor; exact Hm. } { repeat constructor; apply crop_attrs_refl. }
  { intro i. rewrite cnt_cons, cnt_nil. destruct (coversb i m); lia. }
  set (r := fold_left _ crops [m]) in *. repeat split; auto.
  - intro i. specialize (R3 i). rewrite cnt_cons, cnt_nil in R3. fold (cnt i r). rewrite R3.
    destruct (existsb _ crops), (coversb i m); lia.
  - destruct H as (p & Hp & Hcov). apply coversb_spec in Hcov.
    pose proof (@cnt_In _ _ _ Hp Hcov) as Hge. rewrite R3, cnt_cons, cnt_nil in Hge.
    destruct (existsb _ crops); [lia|]. destruct (coversb i m) eqn:E; [|lia]. apply coversb_spec in E; apply E.
  - destruct H as (p & Hp & Hcov). apply coversb_spec in Hcov.
    pose proof (@cnt_In _ _ _ Hp Hcov) as Hge. rewrite R3, cnt_cons, cnt_nil in Hge.
    destruct (existsb _ crops); [lia|]. destruct (coversb i m) eqn:E; [|lia]. apply coversb_spec in E; apply E.
  - intros c Hin Hi. destruct H as (p & Hp & Hcov). apply coversb_spec in Hcov.
    pose proof (@cnt_In _ _ _ Hp Hcov) as Hge. rewrite R3 in Hge.
    destruct (existsb _ crops) eqn:Ex; [lia|]. rewrite existsb_false_iff in Ex. specialize (Ex c Hin). simpl in Ex. lia.
  - intros [Hi Hno]. apply coversb_spec in Hi.
    assert (cnt i r = 1%nat) as Hone.
    { rewrite R3, cnt_cons, cnt_nil, Hi.
      destruct (existsb _ crops) eqn:Ex; [|reflexivity]. apply existsb_exists in Ex as (c & Hin & Hc').
      exfalso. apply (Hno c Hin). lia. }
    unfold cnt in Hone. destruct (filter (coversb i) r) as [|p l] eqn:Ef; [discriminate|].
    exists p. rewrite <- coversb_spec. apply filter_In. rewrite Ef. left; reflexivity.
Qed.

(** ** Scanning for maximal runs *)
Fixpoint runs_from (p : Z -> bool) (n : nat) (i : Z) (open : option Z) : list (Z * Z) :=
  match n with
  | O => match open with Some h => [(h, i)] | None => [] end
  | S n' =>
      match open, p i with
      | Some h, true => runs_from p n' (i + 1) (Some h)
      | Some h, false => (h, i) :: runs_from p n' (i + 1) None
      | None, true => runs_from p n' (i + 1) (Some i)
      | None, false => runs_from p n' (i + 1) None
      end
  end.

Lemma runs_from_spec p a n : forall i open,
  a <= i ->
  match open with
  | Some h => a <= h < i /\ (forall j, h <= j < i -> p j = true) /\ (h = a \/ p (h - 1) = false)
  | None => i = a \/ p (i - 1) = false
  end ->
  let b := i + Z.of_nat n in
  let l := runs_from p n i open in
  Forall (fun r => a <= fst r /\ fst r < snd r /\ snd r <= b
                   /\ (forall j, fst r <= j < snd r -> p j = true)
                   /\ (fst r = a \/ p (fst r - 1) = false)
                   /\ (snd r = b \/ p (snd r) = false)) l
  /\ StronglySorted (fun x y => snd x < fst y) l
  /\ (forall j, match open with Some h => h | None => i end <= j < b -> p j = true -> exists r, In r l /\ fst r <= j < snd r)
  /\ Forall (fun r => match open with Some h => h | None => i end <= fst r) l.
Proof.
  induction n as [|n IH]; intros i open Hi Ho.
  - destruct open as [h|]; cbn [runs_from].
    + destruct Ho as (Hh & Hp & Hb). repeat split.
      * constructor; [|constructor]. cbn [fst snd]. split; [lia|]. split; [lia|]. split; [lia|].
        split; [exact Hp|]. split; [exact Hb|]. left; lia.
      * repeat constructor.
      * intros j Hj Hpj. exists (h, i). split; [left; reflexivity|]. simpl; lia.
      * constructor; [simpl; lia | constructor].
    + split; [constructor|]. split; [constructor|]. split; [|constructor]. intros j Hj. lia.
  - cbn [runs_from]. destruct open as [h|]; destruct (p i) eqn:E.
    + destruct Ho as (Hh & Hp & Hb). destruct (IH (i + 1) (Some h)) as (R1 & R2 & R3 & R4); [lia| |].
      { repeat split; try lia; auto. intros j Hj. destruct (Z.eq_dec j i); [subst; exact E | apply Hp; lia]. }
      replace (i + Z.of_nat (S n)) with (i + 1 + Z.of_nat n) by lia. auto.
    + destruct Ho as (Hh & Hp & Hb). destruct (IH (i + 1) None) as (R1 & R2 & R3 & R4); [lia| |].
      { right. replace (i + 1 - 1) with i by lia. exact E. }
      replace (i + Z.of_nat (S n)) with (i + 1 + Z.of_nat n) by lia. repeat split.
      * constructor; [|exact R1]. cbn [fst snd]. split; [lia|]. split; [lia|]. split; [lia|]. auto.
      * constructor; [exact R2|]. eapply Forall_impl; [|exact R4]. simpl; intros; lia.
      * intros j Hj Hpj. destruct (Z_lt_ge_dec j i).
        -- exists (h, i). split; [left; reflexivity | simpl; lia].
        -- destruct (Z.eq_dec j i); [subst; congruence|].
           destruct (R3 j) as (r & Hr & Hr'); [lia|exact Hpj|]. exists r. split; [right; exact Hr | exact Hr'].
      * constructor; [simpl; lia|]. eapply Forall_impl; [|exact R4]. simpl; intros; lia.
    + destruct (IH (i + 1) (Some i)) as (R1 & R2 & R3 & R4); [lia| |].
      { repeat split; try lia; auto. intros j Hj. replace j with i by lia. exact E. }
      replace (i + Z.of_nat (S n)) with (i + 1 + Z.of_nat n) by lia. auto.
    + destruct (IH (i + 1) None) as (R1 & R2 & R3 & R4); [lia| |].
      { right. replace (i + 1 - 1) with i by lia. exact E. }
      replace (i + Z.of_nat (S n)) with (i + 1 + Z.of_nat n) by lia. repeat split; auto.
      * intros j Hj Hpj. destruct (Z.eq_dec j i); [subst; congruence|]. apply R3; [lia|exact Hpj].
      * eapply Forall_impl; [|exact R4]. simpl; intros; lia.
Qed.

Lemma runs_from_maximal p a b : a <= b ->
  maximal_runs p a b (runs_from p (Z.to_nat (b - a)) a None).
Proof.
  intro H. destruct (@runs_from_spec p a (Z.to_nat (b - a)) a None) as (R1 & R2 & R3 & _); [lia|left; reflexivity|].
  replace (a + Z.of_nat (Z.to_nat (b - a))) with b in * by lia. split; [exact R1 | split; [exact R2 | exact R3]].
Qed.

Lemma runs_from_ext p q n : forall i open,
  (forall j, i <= j < i + Z.of_nat n -> p j = q j) -> runs_from p n i open = runs_from q n i open.
Proof.
  induction n as [|n IH]; intros i open H; cbn [runs_from]; [reflexivity|].
  rewrite (H i) by lia. destruct open, (q i); rewrite IH; auto; intros; apply H; lia.
Qed.

(** ** split *)

(** [nonsep_at chars st seps i]: the character at absolute position [i] is not a separator. *)
Definition nonsep_at (chars : pstr) (st : Z) (seps : pstr) (i : Z) : bool :=
  match nth_error chars (Z.to_nat (i - st)) with
  | Some ch => negb (char_in ch seps)
  | None => true
  end.

Definition crop_like (m p : mtch) : Prop := p = set_end (set_start m (m_start p)) (m_end p).

(** closed pieces then the open one (when [open]) *)
Lemma split_loop_spec self seps (all : pstr) : forall chars k cur0 sp ret closed,
  m_start self + zlen all = m_end self ->
  chars = skipn k all -> (k <= length all)%nat ->
  Forall (crop_like self) ret ->
  crop_like self cur0 -> m_end cur0 = m_end self ->
  match sp with
  | Some m => crop_like self m /\ m_end m = m_end self /\ m_start m < m_end self /\ map m_span ret = rev closed
  | None => exists h, ret <> [] /\ map m_span ret = (h, m_end self) :: rev closed /\ h < m_end self
  end ->
  let i := m_start self + Z.of_nat k in
  let open := match sp with Some _ => None | None => option_map m_start (hd_error ret) end in
  let r := split_loop (m_start self) seps (Z.of_nat k) chars cur0 sp ret in
  map m_span r = closed ++ runs_from (nonsep_at all (m_start self) seps) (length chars) i open
  /\ Forall (crop_like self) r.
Proof.
  induction chars as [|ch chars IH]; intros k cur0 sp ret closed Hlen Hsk Hk Hret Hc0 He0 Hsp; cbn [split_loop length runs_from].
  - assert (k = length all) as ->.
    { assert (length (skipn k all) = 0%nat) as E by (rewrite <- Hsk; reflexivity).
      rewrite skipn_length in E. lia. }
    split; [|apply Forall_rev; exact Hret]. rewrite map_rev. destruct sp as [m|].
    + destruct Hsp as (_ & _ & _ & ->). rewrite rev_involutive, app_nil_r. reflexivity.
    + destruct Hsp as (h & Hne & Hspan & Hh). destruct ret as [|c t]; [congruence|].
      rewrite Hspan. simpl. rewrite rev_involutive. simpl in Hspan. injection Hspan as E1 E2 _.
      rewrite E1. unfold zlen in Hlen. rewrite Hlen. reflexivity.
  - assert (nth_error all k = Some ch /\ chars = skipn (S k) all) as [Hnth Hsk'].
    { split.
      - rewrite <- (firstn_skipn k all), <- Hsk. rewrite nth_error_app2; rewrite firstn_length; [|lia].
        replace (k - Nat.min k (length all))%nat with 0%nat by lia. reflexivity.
      - replace (S k) with (k + 1)%nat by lia. rewrite <- skipn_skipn', <- Hsk. reflexivity. }
    assert (S k <= length all)%nat as Hk'.
    { assert (nth_error all k <> None) as Hx by congruence. apply nth_error_Some in Hx. lia. }
    assert (nonsep_at all (m_start self) seps (m_start self + Z.of_nat k) = negb (char_in ch seps)) as Hp.
    { unfold nonsep_at. replace (Z.to_nat (m_start self + Z.of_nat k - m_start self)) with k by lia. rewrite Hnth. reflexivity. }
    replace (Z.of_nat k + 1) with (Z.of_nat (S k)) by lia.
    replace (m_start self + Z.of_nat k + 1) with (m_start self + Z.of_nat (S k)) by lia.
    rewrite Hp. destruct (char_in ch seps) eqn:Esep; cbn [negb].
    + destruct sp as [m|].
      * destruct Hsp as (Hm & Hme & Hms & Hspan).
        replace (mtrue m) with true by (symmetry; apply mtrue_spec; lia). simpl negb. cbn iota.
        apply (IH (S k) cur0 (Some m) ret closed); auto.
      * destruct Hsp as (h & Hne & Hspan & Hh). destruct ret as [|c t]; [congruence|].
        simpl negb. cbn iota. simpl in Hspan. injection Hspan as E1 E2 Ht.
        assert (crop_like self c) as Hc by (inversion Hret; assumption).
        destruct (IH (S k) cur0 (Some c) (set_end c (m_start self + Z.of_nat k) :: t)
                     (closed ++ [(h, m_start self + Z.of_nat k)])) as [R1 R2]; auto.
        { constructor; [apply crop_attrs_end, Hc | inversion Hret; assumption]. }
        { repeat split; auto; try lia. cbn [map]. rewrite rev_app_distr. cbn [rev app]. f_equal; [unfold m_span; cbn; congruence | exact Ht]. }
        split; [|exact R2]. rewrite R1, <- app_assoc. simpl. rewrite E1. reflexivity.
    + destruct sp as [m|].
      * destruct Hsp as (Hm & Hme & Hms & Hspan).
        replace (mtrue m) with true by (symmetry; apply mtrue_spec; lia). cbn iota.
        destruct (IH (S k) cur0 None (set_start m (m_start self + Z.of_nat k) :: ret) closed) as [R1 R2]; auto.
        { constructor; [apply crop_attrs_start, Hm | exact Hret]. }
        { exists (m_start self + Z.of_nat k). repeat split; [discriminate | | unfold zlen in Hlen; lia].
          cbn [map]. rewrite Hspan. f_equal. unfold m_span; cbn. congruence. }
      * destruct Hsp as (h & Hne & Hspan & Hh). destruct ret as [|c t]; [congruence|].
        destruct (IH (S k) cur0 None (c :: t) closed) as [R1 R2]; auto.
        exists h. auto.
Qed.

Lemma split_spec self seps str :
  m_input self = Some str -> m_rawstart self = None -> m_rawend self = None ->
  0 <= m_start self -> m_start self < m_end self -> m_end self <= zlen str ->
  exists r, split self seps = Ok r
    /\ maximal_runs (fun i => match py_nth str i with Some ch => negb (char_in ch seps) | None => false end)
                    (m_start self) (m_end self) (map m_span r)
    /\ Forall (fun p => p = set_end (set_start self (m_start p)) (m_end p)) r.
Proof.
  intros Hin Hrs Hre H0 Hlt Hle. unfold split, m_raw. rewrite Hin.
  destruct str as [|c0 str0] eqn:Estr; [rewrite zlen_nil in Hle; lia|]. rewrite <- Estr in *.
  unfold raw_start, raw_end. rewrite Hrs, Hre.
  set (all := py_slice str (Some (m_start self)) (Some (m_end self))).
  assert (all = firstn (Z.to_nat (m_end self - m_start self)) (skipn (Z.to_nat (m_start self)) str)) as Hall.
  { subst all. unfold py_slice, py_clip.
    replace (m_start self <? 0) with false by lia. replace (m_end self <? 0) with false by lia.
    rewrite !Z.min_l by lia. reflexivity. }
  assert (zlen all = m_end self - m_start self) as Hlen.
  { unfold zlen in *. rewrite Hall, firstn_length, skipn_length. lia. }
  destruct (@split_loop_spec self seps all all 0%nat self (Some self) [] []) as [R1 R2]; try reflexivity; try lia; auto.
  { apply crop_attrs_refl. } { split; [apply crop_attrs_refl|]. split; [reflexivity|]. split; [lia|reflexivity]. }
  eexists. split; [reflexivity|]. change (Z.of_nat 0) with 0 in *. split; [|exact R2].
  rewrite R1. simpl app. replace (m_start self + 0) with (m_start self) by lia.
  rewrite (@runs_from_ext _ (fun i => match py_nth str i with Some ch => negb (char_in ch seps) | None => false end)).
  - replace (length all) with (Z.to_nat (m_end self - m_start self)) by (unfold zlen in Hlen; lia).
    apply runs_from_maximal. lia.
  - intros j Hj. unfold zlen in *. assert (m_start self <= j < m_end self) as Hj' by lia.
    unfold nonsep_at. rewrite Hall.
    assert (nth_error (firstn (Z.to_nat (m_end self - m_start self)) (skipn (Z.to_nat (m_start self)) str))
              (Z.to_nat (j - m_start self)) = nth_error str (Z.to_nat j)) as ->.
    { rewrite <- (firstn_skipn (Z.to_nat (m_start self)) str) at 2.
      rewrite nth_error_app2 by (rewrite firstn_length; lia). rewrite firstn_length.
      replace (Z.to_nat j - Nat.min (Z.to_nat (m_start self)) (length str))%nat with (Z.to_nat (j - m_start self)) by lia.
      set (q := skipn _ str). rewrite <- (firstn_skipn (Z.to_nat (m_end self - m_start self)) q) at 2.
      rewrite nth_error_app1; [reflexivity|]. subst q. rewrite firstn_length, skipn_length. lia. }
    unfold py_nth, py_pos, zlen. replace (j <? 0) with false by lia.
    replace ((0 <=? j) && (j <? Z.of_nat (length str))) with true by lia.
    destruct (nth_error str (Z.to_nat j)) eqn:En; [reflexivity|]. apply nth_error_None in En. lia.
Qed.

(** ** initiator and names *)
Lemma initiator_unfold m :
  initiator m = match m_parent m with Some p => if mtrue p then initiator p else m | None => m end.
Proof. destruct m; reflexivity. Qed.

Lemma m_names_unfold m : m_names m = match m_children m with [] => [m_name m] | cs => flat_map m_names cs end.
Proof. destruct m; reflexivity. Qed.

Lemma initiator_ancestor : forall m, ancestor m (initiator m).
Proof.
  intro m. induction m as [m IH] using parent_ind. rewrite initiator_unfold.
  destruct (m_parent m) as [p|] eqn:E; [|constructor].
  destruct (mtrue p); [|constructor]. eapply anc_step; [exact E | apply IH; reflexivity].
Qed.

Definition pdepth : mtch -> nat :=
  fix go m := match m_parent m with Some p => S (go p) | None => 0%nat end.
Lemma pdepth_unfold m : pdepth m = match m_parent m with Some p => S (pdepth p) | None => 0%nat end.
Proof. destruct m; reflexivity. Qed.
Lemma ancestor_depth a b : ancestor a b -> (pdepth b <= pdepth a)%nat.
Proof.
  induction 1 as [m|m p x E H IH]; [lia|]. rewrite (pdepth_unfold m), E. lia.
Qed.

Lemma initiator_root : forall m,
  (forall x, ancestor m x -> x = m \/ m_start x <> m_end x) -> m_parent (initiator m) = None.
Proof.
  intro m. induction m as [m IH] using parent_ind. intro H. rewrite initiator_unfold.
  destruct (m_parent m) as [p|] eqn:E; [|exact E].
  assert (forall x, ancestor p x -> m_start x <> m_end x) as Hall.
  { intros x Hx. destruct (H x) as [->|Hn]; [eapply anc_step; eauto| |exact Hn].
    apply ancestor_depth in Hx. rewrite (pdepth_unfold m), E in Hx. lia. }
  assert (mtrue p = true) as -> by (apply mtrue_spec, Hall; constructor).
  apply IH; [reflexivity|]. intros x Hx. right. apply Hall, Hx.
Qed.

Lemma m_names_leaf : forall m n, In n (m_names m) <-> exists x, leaf m x /\ m_name x = n.
Proof.
  intro m. induction m as [m IH] using children_ind. intro n. rewrite m_names_unfold.
  destruct (m_children m) as [|c cs] eqn:E.
  - split.
    + intros [<-|[]]. exists m. split; [constructor; exact E | reflexivity].
    + intros (x & Hx & <-). left. inversion Hx; subst; [reflexivity|]. rewrite E in H; destruct H.
  - rewrite in_flat_map. split.
    + intros (d & Hd & Hn). apply IH in Hn; [|exact Hd]. destruct Hn as (x & Hx & <-).
      exists x. split; [|reflexivity]. eapply leaf_child; [rewrite E; exact Hd | exact Hx].
    + intros (x & Hx & <-). inversion Hx; subst; [congruence|].
      rewrite E in H. exists c0. split; [exact H|]. apply IH; eauto.
Qed.

Lemma m_tagged_spec m ts : m_tagged m ts = true <-> exists t, In t ts /\ In t (m_tags m).
Proof.
  unfold m_tagged. rewrite existsb_exists. split.
  - intros (t & Ht & Hm). apply mem_spec in Hm as (y & Hy & E). apply pstr_eqb_eq in E. subst. eauto.
  - intros (t & Ht & Hm). exists t. split; [exact Ht|]. apply mem_spec. exists t. split; [exact Hm | apply pstr_eqb_refl].
Qed.
Lemma m_named_spec m ns : m_named m ns = true <-> exists n x, In n ns /\ leaf m x /\ m_name x = Some n.
Proof.
  unfold m_named. rewrite existsb_exists. split.
  - intros (t & Ht & Hm). apply mem_spec in Hm as (y & Hy & E). apply opt_pstr_eqb_eq in E. subst.
    apply m_names_leaf in Hy as (x & Hx & E). eauto.
  - intros (n & x & Hn & Hx & E). exists n. split; [exact Hn|]. apply mem_spec. exists (Some n).
    split; [apply m_names_leaf; eauto | apply opt_pstr_eqb_eq; reflexivity].
Qed.
