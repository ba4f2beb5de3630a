(** Facts about the conflict solver. *)
From Verif Require Import Base BaseFacts Match Spec MatchFacts Coll CollFacts CollQuery CollSem CollSem2 SpecColl CollHist CollUniv
  Conseq ConseqFacts PropsLoose PropsColl PropsConseq Processors.
From Coq Require Import ZifyBool.
Set Implicit Arguments.
Unset Strict Implicit.
Open Scope Z_scope.

(** ** Taking out a list of matches *)
Lemma remove_first_meq a b l : meq a b = true -> remove_first (meq a) l = remove_first (meq b) l.
Proof.
  intro E. apply meq_mkey in E. induction l as [|x l IH]; simpl; [reflexivity|]. rewrite IH.
  assert (meq a x = meq b x) as ->; [|reflexivity].
  destruct (meq b x) eqn:Eb; [apply meq_mkey; apply meq_mkey in Eb; congruence | apply meq_false_mkey; apply meq_false_mkey in Eb; congruence].
Qed.
Definition drop1 {A} (p : A -> bool) (l : list A) : list A := match remove_first p l with Some l' => l' | None => l end.
Lemma drop1_cons {A} (p : A -> bool) x l : drop1 p (x :: l) = if p x then l else x :: drop1 p l.
Proof. unfold drop1. simpl. destruct (p x); [reflexivity|]. destruct (remove_first p l); reflexivity. Qed.
Lemma drop1_comm {A} (p q : A -> bool) l : (forall x, p x = true -> q x = true -> False) -> drop1 q (drop1 p l) = drop1 p (drop1 q l).
Proof.
  intro Hd. induction l as [|x l IH]; [reflexivity|]. rewrite !drop1_cons. destruct (p x) eqn:Ep, (q x) eqn:Eq.
  - exfalso. eapply Hd; eassumption.
  - rewrite drop1_cons, Ep. reflexivity.
  - rewrite drop1_cons, Eq. reflexivity.
  - rewrite !drop1_cons, Ep, Eq, IH. reflexivity.
Qed.
Lemma take_out_comm l a b : take_out (take_out l a) b = take_out (take_out l b) a.
Proof.
  destruct (meq a b) eqn:E.
  - unfold take_out. rewrite !(remove_first_meq _ E). reflexivity.
  - apply (@drop1_comm _ (meq a) (meq b)). intros x H1 H2. apply meq_false_mkey in E. apply meq_mkey in H1, H2. congruence.
Qed.
Lemma take_out_all_perm ms ms' : Permutation ms ms' -> forall l, take_out_all l ms = take_out_all l ms'.
Proof.
  unfold take_out_all. induction 1 as [|x ms ms' H IH|x y ms|a b d H1 IH1 H2 IH2]; intro l; simpl; auto.
  - rewrite take_out_comm. reflexivity.
  - rewrite IH1. apply IH2.
Qed.
Lemma sublist_countb {A} (p : A -> bool) r l : sublist r l -> (countb p r <= countb p l)%nat.
Proof. induction 1; rewrite ?countb_cons; lia. Qed.
Lemma sublist_filter_eq (p : mtch -> bool) r l : sublist r l ->
  (forall x, In x l -> countb (meq x) r = if p x then countb (meq x) l else 0%nat) -> r = filter p l.
Proof.
  induction 1 as [|x r l H IH|x r l H IH]; intro Hc; simpl; [reflexivity| |].
  - assert (p x = true) as Ep.
    { specialize (Hc x (or_introl eq_refl)). rewrite !countb_cons, meq_refl in Hc. destruct (p x); [reflexivity | lia]. }
    rewrite Ep. f_equal. apply IH. intros y Hy. specialize (Hc y (or_intror Hy)). rewrite !countb_cons in Hc.
    destruct (p y); [lia|]. destruct (meq y x); lia.
  - pose proof (Hc x (or_introl eq_refl)) as Hx. rewrite countb_cons, meq_refl in Hx.
    pose proof (sublist_countb (meq x) H) as Hle. destruct (p x) eqn:Ep; [lia|].
    apply IH. intros y Hy. specialize (Hc y (or_intror Hy)). rewrite countb_cons in Hc.
    destruct (meq y x) eqn:E; [|exact Hc]. destruct (p y); [|exact Hc]. exfalso.
    assert (countb (meq y) r = countb (meq x) r) as Er.
    { unfold countb. f_equal. apply filter_ext_in'. intros z _. apply meq_mkey in E.
      destruct (meq x z) eqn:Ez; [apply meq_mkey; apply meq_mkey in Ez; congruence | apply meq_false_mkey; apply meq_false_mkey in Ez; congruence]. }
    lia.
Qed.
Lemma take_out_all_filter (p : mtch -> bool) l ms :
  (forall x, In x l -> if p x then countb (meq x) ms = 0%nat else (countb (meq x) l <= countb (meq x) ms)%nat) ->
  take_out_all l ms = filter p l.
Proof.
  intro H. apply sublist_filter_eq; [apply take_out_sublist|]. intros x Hx. rewrite countb_take_out_all. specialize (H x Hx).
  destruct (p x); lia.
Qed.
(** members none of whose [==] is taken out stay, in order *)
Lemma take_out_all_keep (p : mtch -> bool) ms : forall l,
  (forall x y, In x l -> p x = true -> In y ms -> meq y x = false) -> filter p (take_out_all l ms) = filter p l.
Proof.
  induction ms as [|m ms IH]; intros l H; [reflexivity|]. unfold take_out_all. simpl. fold (take_out_all (take_out l m) ms).
  assert (filter p (take_out l m) = filter p l) as E.
  { unfold take_out. destruct (remove_first (meq m) l) as [l'|] eqn:E; [|reflexivity].
    apply remove_first_Some in E as (a & z & b & -> & Hz & _ & ->). rewrite !filter_app. simpl.
    destruct (p z) eqn:Ez; [|reflexivity]. rewrite (H z m) in Hz; [discriminate | apply in_or_app; right; left; reflexivity | exact Ez | left; reflexivity]. }
  rewrite IH; [exact E|]. intros x y Hx Hp Hy. apply H; [|exact Hp | right; exact Hy].
  eapply sublist_In; [|exact Hx]. exact (take_out_sublist [m] l).
Qed.
Lemma take_out_all_gone l ms x : In x l -> (countb (meq x) l <= countb (meq x) ms)%nat -> ~ In x (take_out_all l ms).
Proof.
  intros _ Hc Hin. pose proof (countb_take_out_all ms l x) as E.
  assert (1 <= countb (meq x) (take_out_all l ms))%nat; [|lia].
  unfold countb. assert (In x (filter (meq x) (take_out_all l ms))) as H by (apply filter_In; split; [exact Hin | apply meq_refl]).
  destruct (filter (meq x) (take_out_all l ms)); [contradiction | simpl; lia].
Qed.
Lemma countb_zero {A} (p : A -> bool) l : countb p l = 0%nat <-> forall x, In x l -> p x = false.
Proof. unfold countb. rewrite <- filter_nil_iff. destruct (filter p l); simpl; split; intro H; congruence || discriminate || reflexivity. Qed.
Lemma countb_incl l ms x : NoDup (filter (meq x) l) -> incl (filter (meq x) l) (filter (meq x) ms) -> (countb (meq x) l <= countb (meq x) ms)%nat.
Proof. intros Hn Hi. unfold countb. apply NoDup_incl_length; assumption. Qed.

(** ** The initiator and overlap do not distinguish [==] matches *)
Lemma meq_parent a b : meq a b = true -> match m_parent a, m_parent b with Some p, Some q => meq p q = true | None, None => True | _, _ => False end.
Proof.
  intro H. rewrite meq_unfold in H. apply andb_true_iff in H as [_ H]. destruct (m_parent a), (m_parent b); auto; discriminate.
Qed.
Lemma meq_mlen a b : meq a b = true -> mlen a = mlen b.
Proof. intro H. apply meq_mkey in H. unfold mlen. rewrite (@mkey_start _ _ H), (@mkey_end _ _ H). reflexivity. Qed.
Lemma meq_initiator_len : forall a b, meq a b = true -> mlen (initiator a) = mlen (initiator b).
Proof.
  intro a. induction a as [a IH] using parent_ind. intros b H. rewrite (initiator_unfold a), (initiator_unfold b).
  pose proof (meq_parent H) as Hp. destruct (m_parent a) as [p|] eqn:Ea, (m_parent b) as [q|] eqn:Eb; try contradiction.
  - assert (mtrue p = mtrue q) as -> by (unfold mtrue; rewrite (meq_mlen Hp); reflexivity).
    destruct (mtrue q); [apply (IH p eq_refl), Hp | apply meq_mlen, H].
  - apply meq_mlen, H.
Qed.
Lemma meq_overlap a a' b b' : meq a a' = true -> meq b b' = true -> overlap a b -> overlap a' b'.
Proof.
  intros H1 H2 (i & Ha & Hb). apply meq_mkey in H1, H2. exists i. unfold covers in *.
  rewrite <- (@mkey_start _ _ H1), <- (@mkey_end _ _ H1), <- (@mkey_start _ _ H2), <- (@mkey_end _ _ H2). auto.
Qed.
Lemma overlap_sym a b : overlap a b -> overlap b a.
Proof. intros (i & H1 & H2). exists i. auto. Qed.
Lemma overlap_nonempty a b : overlap a b -> nonempty a.
Proof. intros (i & H1 & H2). unfold covers, nonempty in *. lia. Qed.

(** ** What [conflicting] answers during the loop *)
Definition conf (c : coll) (m : mtch) : option (list mtch) :=
  remove_first (meq m) (chain_add [] (flat_map (vat c) (zrange (m_start m) (m_end m)))).
Lemma q_conflicting_rel c0 c m : obs c0 c ->
  obs c0 (fst (q_conflicting c m)) /\ snd (q_conflicting c m) = match conf c0 m with Some l => Ok l | None => Err ValueError end.
Proof.
  intro Hc. unfold q_conflicting, conf. destruct (@conflicting_rel c0 (zrange (m_start m) (m_end m)) c [] Hc) as [A B].
  destruct (conflicting_loop (zrange (m_start m) (m_end m)) c []) as [c1 ret]. simpl in *. rewrite <- B.
  destruct (remove_first (meq m) ret); simpl; auto.
Qed.
Lemma in_by_length l x : In x (by_length l) <-> In x l /\ m_private x = false.
Proof.
  unfold by_length. rewrite sort_by_in, filter_In, negb_true_iff. reflexivity.
Qed.
Lemma sorted_by_length l : StronglySorted (fun a b => mlen a <= mlen b) (by_length l).
Proof.
  unfold by_length. assert (StronglySorted (le shorter) (sort_by shorter (filter (fun m => negb (m_private m)) l))) as H.
  { apply sort_by_sorted; unfold shorter; intros; lia. }
  revert H. apply StronglySorted_impl || (intro H; induction H as [|x r H IH Hf]; constructor; [exact IH|];
    eapply Forall_impl; [|exact Hf]; unfold le, shorter; intros; lia).
Qed.

(** ** The loop as a scan of pairs *)
Definition pairs_for (c : coll) (m : mtch) : list (mtch * mtch) :=
  map (pair m) (match conf c m with Some r => by_length r | None => [] end).
Definition pairs (c : coll) (ms : list mtch) : list (mtch * mtch) := flat_map (pairs_for c) ms.

Section Scan.
  Variable solvers : nat -> mtch -> mtch -> verdict.
  Notation decide := (decide solvers).
  Notation mark := (mark solvers).

  Fixpoint mark_pairs (rm : list mtch) (ps : list (mtch * mtch)) : res (list mtch) :=
    match ps with
    | [] => Ok rm
    | (m, c) :: r => match mark rm m c with Ok rm' => mark_pairs rm' r | Err e => Err e end
    end.
  Lemma mark_pairs_app p q : forall rm, mark_pairs rm (p ++ q) = match mark_pairs rm p with Ok rm' => mark_pairs rm' q | Err e => Err e end.
  Proof. induction p as [|[m c] p IH]; intro rm; simpl; [reflexivity|]. destruct (mark rm m c); [apply IH | reflexivity]. Qed.
  Lemma mark_all_pairs m cs : forall rm, mark_all solvers rm m cs = mark_pairs rm (map (pair m) cs).
  Proof. induction cs as [|c cs IH]; intro rm; simpl; [reflexivity|]. destruct (mark rm m c); [apply IH | reflexivity]. Qed.
  Lemma conflict_loop_pairs c0 : forall ms c rm, obs c0 c -> (forall m, In m ms -> conf c0 m <> None) ->
    exists c', obs c0 c' /\ conflict_loop solvers c rm ms = (c', mark_pairs rm (pairs c0 ms)).
  Proof.
    induction ms as [|m ms IH]; intros c rm Hc Hn; simpl; [exists c; auto|].
    destruct (q_conflicting_rel m Hc) as [A B]. destruct (q_conflicting c m) as [c1 r]. simpl in A, B. subst r.
    unfold pairs_for. pose proof (Hn m (or_introl eq_refl)) as Hm. destruct (conf c0 m) as [l|]; [|congruence].
    rewrite mark_all_pairs, mark_pairs_app. destruct (mark_pairs rm (map (pair m) (by_length l))) as [rm'|e].
    - apply IH; [exact A|]. intros x Hx. apply Hn. right. exact Hx.
    - exists c1. auto.
  Qed.
  (** an empty or reversed public match makes the loop fail *)
  Lemma conflict_loop_error c0 : forall ms c rm, obs c0 c -> (exists m, In m ms /\ conf c0 m = None) ->
    exists c' e, conflict_loop solvers c rm ms = (c', Err e) /\ (e = ValueError).
  Proof.
    assert (Hmk : forall rm m c e, mark rm m c = Err e -> e = ValueError).
    { intros rm m c e. unfold Processors.mark, mbool. destruct (decide m c) as [| |x]; try discriminate.
      destruct (mlen x <? 0); [intro H; injection H as <-; reflexivity|]. destruct (negb (mlen x =? 0)); [|discriminate].
      destruct (in_set x rm); [discriminate|]. destruct (remove_first (meq x) [m; c]) as [[|k b]|]; try discriminate.
      - destruct (in_set k rm); discriminate.
      - intro H; injection H as <-; reflexivity. }
    assert (Hall : forall cs rm m e, mark_all solvers rm m cs = Err e -> e = ValueError).
    { induction cs as [|x cs IH]; intros rm m e; simpl; [discriminate|]. destruct (mark rm m x) eqn:E; [apply IH | intro H; injection H as <-; eapply Hmk, E]. }
    induction ms as [|m ms IH]; intros c rm Hc (x & Hx & Hn); [contradiction|]. simpl.
    destruct (q_conflicting_rel m Hc) as [A B]. destruct (q_conflicting c m) as [c1 r]. simpl in A, B. subst r.
    destruct (conf c0 m) as [l|] eqn:Em; [|eauto].
    destruct (mark_all solvers rm m (by_length l)) as [rm'|e] eqn:Ea; [|exists c1, e; split; [reflexivity | eapply Hall, Ea]].
    apply IH; [exact A|]. destruct Hx as [->|Hx]; [congruence|]. eauto.
  Qed.

  (** ** One decision *)
  Definition good (m c : mtch) : Prop :=
    forall x, decide m c = VMatch x -> 0 < mlen x /\ (meq x m = true \/ meq x c = true).
  Definition kept_of (x m c : mtch) : mtch := if meq x m then c else m.
  Lemma mark_good rm m c : good m c ->
    exists rm', mark rm m c = Ok rm'
      /\ (rm' = rm \/ exists x, decide m c = VMatch x /\ rm' = rm ++ [x] /\ in_set x rm = false /\ in_set (kept_of x m c) rm = false)
      /\ (forall x, decide m c = VMatch x -> in_set x rm' = true \/ in_set (kept_of x m c) rm = true).
  Proof.
    intro Hg. unfold Processors.mark, good in *. destruct (decide m c) as [| |x].
    - exists rm. split; [reflexivity|]. split; [auto | discriminate].
    - exists rm. split; [reflexivity|]. split; [auto | discriminate].
    - destruct (Hg x eq_refl) as [Hl Hm]. unfold mbool. replace (mlen x <? 0) with false by lia. replace (mlen x =? 0) with false by lia. simpl negb. cbv iota.
      destruct (in_set x rm) eqn:Ex.
      + exists rm. split; [reflexivity|]. split; [auto|]. intros y E. injection E as <-. auto.
      + unfold kept_of. cbn [remove_first]. destruct (meq x m) eqn:Em.
        * destruct (in_set c rm) eqn:Ec.
          -- exists rm. split; [reflexivity|]. split; [auto|]. intros y E. injection E as <-. right. rewrite Em. exact Ec.
          -- exists (rm ++ [x]). split; [reflexivity|]. split; [right; exists x; rewrite Em; auto|]. intros y E. injection E as <-. left.
             unfold in_set. rewrite existsb_app. simpl. rewrite Nat.eqb_refl. apply orb_true_r.
        * destruct Hm as [Hm|Hm]; [discriminate|]. rewrite Hm. destruct (in_set m rm) eqn:Ec.
          -- exists rm. split; [reflexivity|]. split; [auto|]. intros y E. injection E as <-. right. rewrite Em. exact Ec.
          -- exists (rm ++ [x]). split; [reflexivity|]. split; [right; exists x; rewrite Em; auto|]. intros y E. injection E as <-. left.
             unfold in_set. rewrite existsb_app. simpl. rewrite Nat.eqb_refl. apply orb_true_r.
  Qed.
  Lemma in_set_app x a b : in_set x (a ++ b) = in_set x a || in_set x b.
  Proof. apply existsb_app. Qed.

  (** ** The whole scan *)
  Lemma mark_pairs_spec ps : forall rm, (forall m c, In (m, c) ps -> good m c) ->
    exists add, mark_pairs rm ps = Ok (rm ++ add)
      /\ (forall a x b, add = a ++ x :: b -> exists p1 m c p2, ps = p1 ++ (m, c) :: p2 /\ decide m c = VMatch x
            /\ mark_pairs rm p1 = Ok (rm ++ a) /\ in_set x (rm ++ a) = false /\ in_set (kept_of x m c) (rm ++ a) = false)
      /\ (forall p1 m c p2 x, ps = p1 ++ (m, c) :: p2 -> decide m c = VMatch x ->
            exists a b, add = a ++ b /\ mark_pairs rm p1 = Ok (rm ++ a) /\ (in_set x (rm ++ add) = true \/ in_set (kept_of x m c) (rm ++ a) = true)).
  Proof.
    induction ps as [|[m c] ps IH]; intros rm Hg; simpl.
    - exists []. rewrite app_nil_r. split; [reflexivity|]. split.
      + intros a x b E. destruct a; discriminate.
      + intros p1 m c p2 x E. destruct p1; discriminate.
    - destruct (@mark_good rm m c) as (rm1 & E1 & H1 & H2); [apply Hg; left; reflexivity|].
      rewrite E1. destruct (IH rm1) as (add & E & A & B); [intros; apply Hg; right; assumption|].
      assert (exists d, rm1 = rm ++ d /\ (d = [] \/ exists x, d = [x] /\ decide m c = VMatch x /\ in_set x rm = false /\ in_set (kept_of x m c) rm = false)) as (d & -> & Hd).
      { destruct H1 as [->|(x & Hx & -> & H3 & H4)]; [exists []; rewrite app_nil_r; auto | exists [x]; eauto 10]. }
      clear H1. exists (d ++ add). rewrite app_assoc. split; [exact E|]. split.
      + intros a x b Es.
        assert (exists a', a = d ++ a' /\ add = a' ++ x :: b \/ (d = [x] /\ a = [])) as (a' & [[-> Ea]|[Ed ->]]).
        { destruct Hd as [->|(y & -> & _)]; [exists a; auto|]. destruct a as [|z a]; simpl in Es; injection Es as E3 E4; subst; [exists []; right; auto | exists a; left; auto]. }
        * destruct (A a' x b Ea) as (p1 & m' & c' & p2 & -> & D & F & G & K). exists ((m, c) :: p1), m', c', p2.
          rewrite app_assoc. split; [reflexivity|]. split; [exact D|]. split; [|auto]. simpl. rewrite E1. exact F.
        * destruct Hd as [->|(y & -> & D & F & G)]; [discriminate|]. injection Ed as ->. exists [], m, c, ps. rewrite app_nil_r. auto.
      + intros p1 m' c' p2 x Es D. destruct p1 as [|[m1 c1] p1]; simpl in Es; injection Es; intros; subst.
        * exists [], (d ++ add). rewrite app_nil_r. split; [reflexivity|]. split; [reflexivity|].
          destruct (H2 x D) as [H|H]; [left|right; exact H]. rewrite in_set_app, H. reflexivity.
        * destruct (B p1 m' c' p2 x eq_refl D) as (a & b & -> & F & G). exists (d ++ a), b. rewrite <- app_assoc. split; [reflexivity|].
          rewrite app_assoc. split; [simpl; rewrite E1; exact F|]. rewrite !app_assoc in *. exact G.
  Qed.
End Scan.

(** ** The pairs examined *)
(** a number names one object *)
Definition identities (ms : list mtch) : Prop := forall a b, In a ms -> In b ms -> m_id a = m_id b -> a = b.
Lemma in_set_iff ms x rm : identities ms -> In x ms -> incl rm ms -> (in_set x rm = true <-> In x rm).
Proof.
  intros Hid Hx Hi. unfold in_set. rewrite existsb_exists. split.
  - intros (y & Hy & E). apply Nat.eqb_eq in E. rewrite (Hid x y Hx (Hi y Hy) E). exact Hy.
  - intro H. exists x. split; [exact H | apply Nat.eqb_refl].
Qed.

Section Pairs.
  Variable c0 : coll.
  Variable U : list mtch.
  Hypothesis HI : Inv no_ghost c0.
  Hypothesis HU : Uok (fun m => In m U) c0.
  Notation l := (c_del c0).
  Definition public (m : mtch) : Prop := m_private m = false.
  Hypothesis Hpub : forall m, In m l -> public m -> nonempty m.
  Hypothesis Hpriv : respects_eq_on U m_private.

  Lemma del_U x : In x l -> In x U.
  Proof. destruct HU as (H & _). rewrite Forall_forall in H. apply H. Qed.
  Lemma conf_some m : In m l -> public m -> conf c0 m <> None.
  Proof.
    intros Hm Hp E. pose proof (conflicting_sem HI m) as H. unfold conf in E. rewrite E in H.
    apply (H m Hm (meq_refl m)). apply Hpub; assumption.
  Qed.
  Lemma conf_U m r y : conf c0 m = Some r -> In y r -> In y U.
  Proof.
    intros E Hy. unfold conf in E. apply remove_first_Some in E as (a & z & b & El & _ & _ & ->).
    assert (In y (chain_add [] (flat_map (vat c0) (zrange (m_start m) (m_end m))))) as H.
    { rewrite El. apply in_app_or in Hy. apply in_or_app. simpl. tauto. }
    apply chain_add_In in H as [[]|H]. apply in_flat_map in H as (i & _ & H).
    apply Uok_Uv in HU. destruct HU as (_ & _ & _ & _ & _ & H5). eapply H5, H.
  Qed.
  Lemma conf_none_iff m : In m l -> (conf c0 m = None <-> ~ nonempty m).
  Proof.
    intro Hm. pose proof (conflicting_sem HI m) as H. unfold conf. destruct (remove_first _ _) as [r|].
    - split; [discriminate|]. intro Hn. destruct H as [Hne _]. contradiction.
    - split; [|reflexivity]. intros _. apply (H m Hm (meq_refl m)).
  Qed.
  Lemma pairs_sound m y : In (m, y) (pairs c0 (by_length l)) ->
    In m l /\ public m /\ In y U /\ public y /\ found y l /\ overlap y m /\ meq y m = false.
  Proof.
    unfold pairs. rewrite in_flat_map. intros (m' & Hm & Hy). apply in_by_length in Hm as [Hm Hp].
    unfold pairs_for in Hy. apply in_map_iff in Hy as (y' & E & Hy). injection E as -> ->.
    pose proof (conflicting_sem HI m) as H. destruct (conf c0 m) as [r|] eqn:Ec; [|contradiction].
    apply in_by_length in Hy as [Hy Hpy]. pose proof (conf_U Ec Hy) as HyU. unfold conf in Ec. rewrite Ec in H.
    destruct H as (_ & _ & _ & H1 & H2). destruct (H2 y Hy) as (x & Hx & Exy).
    assert (found x r) as Hf by (exists y; auto). apply (H1 x Hx) in Hf as [Hov Hne].
    split; [exact Hm|]. split; [exact Hp|]. split; [exact HyU|]. split; [exact Hpy|].
    split; [exists x; split; [exact Hx | rewrite meq_sym; exact Exy]|].
    split; [apply (meq_overlap Exy (meq_refl m)), Hov|].
    apply meq_false_mkey. apply meq_false_mkey in Hne. apply meq_mkey in Exy. congruence.
  Qed.
  Lemma pairs_complete m x : In m l -> public m -> In x l -> public x -> overlap x m -> meq x m = false ->
    exists y, In (m, y) (pairs c0 (by_length l)) /\ meq x y = true.
  Proof.
    intros Hm Hp Hx Hpx Hov Hne. pose proof (conf_some Hm Hp) as Hs. pose proof (conflicting_sem HI m) as H.
    destruct (conf c0 m) as [r|] eqn:Ec; [|congruence]. pose proof Ec as Ec'. unfold conf in Ec. rewrite Ec in H. destruct H as (_ & _ & _ & H1 & _).
    destruct (proj2 (H1 x Hx) (conj Hov Hne)) as (y & Hy & E). exists y. split; [|exact E].
    unfold pairs. apply in_flat_map. exists m. split; [apply in_by_length; auto|]. unfold pairs_for. rewrite Ec'. apply in_map. apply in_by_length.
    split; [exact Hy|]. rewrite <- (Hpriv (del_U Hx) (conf_U Ec' Hy) E). exact Hpx.
  Qed.
  (** the pairs come by increasing length of their first component *)
  Lemma pairs_split_sorted p1 m y p2 m' y' : pairs c0 (by_length l) = p1 ++ (m, y) :: p2 -> In (m', y') p1 -> mlen m' <= mlen m.
  Proof.
    unfold pairs. generalize (sorted_by_length l). generalize (by_length l) as ms. intros ms Hs. revert p1.
    induction Hs as [|a ms Hs IH Hf]; intros p1 E Hin; simpl in E.
    - destruct p1; discriminate.
    - rewrite Forall_forall in Hf.
      assert (forall q, In q (flat_map (pairs_for c0) ms) -> mlen a <= mlen (fst q)) as Hge.
      { intros q Hq. apply in_flat_map in Hq as (b & Hb & Hq). unfold pairs_for in Hq. apply in_map_iff in Hq as (z & <- & _). simpl. apply Hf, Hb. }
      assert (forall q, In q (pairs_for c0 a) -> fst q = a) as Ha.
      { intros q Hq. unfold pairs_for in Hq. apply in_map_iff in Hq as (z & <- & _). reflexivity. }
      revert E Hin Ha. generalize (pairs_for c0 a) as L. intro L. revert p1.
      induction L as [|q L IHL]; intros p1 E Hin Ha; simpl in E.
      + eapply IH; eassumption.
      + destruct p1 as [|q' p1]; [contradiction|]. simpl in E. injection E as <- E.
        assert (mlen a <= mlen m) as Hm.
        { assert (In (m, y) (L ++ flat_map (pairs_for c0) ms)) as H by (rewrite E; apply in_or_app; right; left; reflexivity).
          apply in_app_or in H as [H|H]; [pose proof (Ha (m, y) (or_intror H)) as Eq; simpl in Eq; subst; lia | apply (Hge _ H)]. }
        destruct Hin as [->|Hin]; [pose proof (Ha _ (or_introl eq_refl)) as Eq; simpl in Eq; subst; exact Hm|].
        eapply IHL; [exact E | exact Hin |]. intros q'' Hq. apply Ha. right. exact Hq.
  Qed.
End Pairs.

(** what the solver concludes without custom solvers *)
Definition ilen (m : mtch) : Z := mlen (initiator m).
Lemma decide_default solvers m c : m_solver m = None -> m_solver c = None -> decide solvers m c = default_solver m c.
Proof.
  intros H1 H2. unfold decide, conflict_solvers. rewrite H1, H2. simpl. unfold default_solver.
  destruct (_ <? _); [reflexivity|]. destruct (_ <? _); reflexivity.
Qed.
Lemma default_match m c x : default_solver m c = VMatch x -> (x = c /\ ilen c < ilen m) \/ (x = m /\ ilen m < ilen c).
Proof.
  unfold default_solver, ilen. destruct (mlen (initiator c) <? mlen (initiator m)) eqn:E1; [intro H; injection H as <-; left; split; [reflexivity|lia]|].
  destruct (mlen (initiator m) <? mlen (initiator c)) eqn:E2; [intro H; injection H as <-; right; split; [reflexivity|lia] | discriminate].
Qed.
