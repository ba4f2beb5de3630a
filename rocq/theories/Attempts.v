(** * The attempts of a chain: proofs *)
From Verif Require Import Base BaseFacts Match Coll Loose MatchFacts RulesFacts Pattern Chain ChainFacts SpecChain ChainSem SpecAttempts.
Set Implicit Arguments.
Unset Strict Implicit.
Open Scope Z_scope.

(** ** The valid repetitions *)
Inductive picked : list mtch -> list mtch -> Prop :=
| pk_nil : picked [] []
| pk_take v x l r : agrees v x -> picked l r -> picked (v :: l) (x :: r)
| pk_skip x l r : picked l r -> picked l (x :: r).
Lemma picked_of : forall raws sub ms, subseq sub raws -> Forall2 agrees ms sub -> picked ms raws.
Proof.
  intros raws sub ms S. revert ms. induction S; intros ms F.
  - inversion F; subst. constructor.
  - inversion F; subst. constructor; auto.
  - apply pk_skip. auto.
Qed.
Lemma picked_In ms raws v : picked ms raws -> In v ms -> exists x, In x raws /\ agrees v x.
Proof.
  induction 1 as [|v0 x l r A P IH|x l r P IH]; intro H; [contradiction| |].
  - destruct H as [->|H]; [exists x; split; [now left|auto]|]. destruct (IH H) as (y & Y1 & Y2). exists y. split; [now right|auto].
  - destruct (IH H) as (y & Y1 & Y2). exists y. split; [now right|auto].
Qed.

Definition at_index (ms : list mtch) (p : mtch) : option mtch := find (fun m => Nat.eqb (m_index m) (m_index p)) ms.
Definition look (C : list mtch) (p : mtch) : list mtch := match at_index C p with Some m => [m] | None => [] end.
Lemma at_index_none ms p : (forall m, In m ms -> m_index m <> m_index p) -> at_index ms p = None.
Proof.
  intro H. unfold at_index. induction ms as [|m ms IH]; simpl; [reflexivity|]. destruct (Nat.eqb_spec (m_index m) (m_index p)) as [E|_].
  - exfalso. apply (H m); [now left|auto].
  - apply IH. intros m' Hm. apply H. now right.
Qed.
Lemma at_index_cons v ms p : at_index (v :: ms) p = if Nat.eqb (m_index v) (m_index p) then Some v else at_index ms p.
Proof. reflexivity. Qed.

Definition later (x : mtch) (r : list mtch) : Prop := Forall (fun y => m_index x < m_index y)%nat r.
Definition numbered (l : list mtch) : Prop := StronglySorted (fun x y => m_index x < m_index y)%nat l.
Definition ahead (l : list mtch) : Prop := StronglySorted (fun a b => m_end a <= m_start b) l.

Lemma flat_look_nil C l : (forall p m, In p l -> In m C -> m_index m <> m_index p) -> flat_map (look C) l = [].
Proof.
  induction l as [|p l IH]; intro H; simpl; [reflexivity|]. unfold look at 1. rewrite at_index_none; [|intros m Hm; apply (H p m); auto; now left].
  simpl. apply IH. intros q m Hq Hm. apply H; auto. now right.
Qed.
Lemma flat_look_ext C D l : (forall p, In p l -> at_index C p = at_index D p) -> flat_map (look C) l = flat_map (look D) l.
Proof.
  induction l as [|p l IH]; intro H; simpl; [reflexivity|]. unfold look at 1 3. rewrite (H p) by now left. f_equal. apply IH. intros q Hq. apply H. now right.
Qed.

(** from a valid repetition on *)
Lemma run_visible t : forall R x v ms j e, picked ms R -> agrees v x -> Forall (located t) (v :: ms) -> Forall (located t) (x :: R) ->
  numbered (x :: R) -> ahead (x :: R) -> tile (m_start x) (firstn (S j) (x :: R)) e ->
  flat_map (look (contiguous t v ms)) (firstn (S j) (x :: R)) = leading (map (at_index (v :: ms)) (firstn (S j) (x :: R))).
Proof.
  induction R as [|y R IH]; intros x v ms j e P A Lv Lx N S T.
  - inversion P; subst. cbn [contiguous]. rewrite firstn_cons, firstn_nil. cbn [flat_map map leading app]. unfold look. rewrite !at_index_cons.
    rewrite (proj2 A), Nat.eqb_refl. reflexivity.
  - destruct j as [|j].
    { cbn [firstn flat_map map leading]. rewrite at_index_cons, (proj2 A), Nat.eqb_refl. unfold look.
      assert (exists C, contiguous t v ms = v :: C) as (C & ->). { destruct ms; cbn [contiguous]; [eauto|]. destruct (separated _ _ _); eauto. }
      now rewrite at_index_cons, (proj2 A), Nat.eqb_refl. }
    assert (Forall (fun z => m_index x < m_index z)%nat (y :: R)) as Nx by (now inversion N).
    assert (numbered (y :: R)) as Ny by (now inversion N). assert (ahead (y :: R)) as Sy by (now inversion S).
    assert (m_end x = m_start y /\ tile (m_start y) (firstn (Datatypes.S j) (y :: R)) e) as [Exy Ty].
    { change (firstn (Datatypes.S (Datatypes.S j)) (x :: y :: R)) with (x :: y :: firstn j R) in T. destruct T as [_ [T1 T2]]. split; [auto|].
      cbn [firstn]. split; auto. }
    rewrite firstn_cons. set (F := firstn (Datatypes.S j) (y :: R)) in *.
    assert (forall p, In p F -> In p (y :: R)) as HF by (intros p Hp; eapply subseq_In; [apply subseq_firstn|exact Hp]).
    assert (forall p, In p F -> Nat.eqb (m_index v) (m_index p) = false) as NV.
    { intros p Hp. apply HF in Hp. rewrite Forall_forall in Nx. specialize (Nx p Hp). rewrite (proj2 A). apply Nat.eqb_neq. lia. }
    assert (leading (map (at_index (v :: ms)) (x :: F)) = v :: leading (map (at_index ms) F)) as EL.
    { cbn [map leading]. rewrite at_index_cons, (proj2 A), Nat.eqb_refl. f_equal. f_equal. apply map_ext_in. intros p Hp. rewrite at_index_cons. now rewrite NV. }
    rewrite EL. cbn [flat_map].
    assert (look [v] x = [v]) as Lk1 by (unfold look; rewrite at_index_cons, (proj2 A), Nat.eqb_refl; reflexivity).
    assert (forall C, look (v :: C) x = [v]) as Lk by (intro C; unfold look; rewrite at_index_cons, (proj2 A), Nat.eqb_refl; reflexivity).
    assert (forall C, flat_map (look (v :: C)) F = flat_map (look C) F) as LF.
    { intro C. apply flat_look_ext. intros p Hp. rewrite at_index_cons. now rewrite NV. }
    inversion P as [|v2 y' ms2 R' A2 P2|y' ms' R' P2]; subst.
    + (* the next one is valid *)
      inversion Lv as [|? ? Lv1 Lv2]; subst. inversion Lv2 as [|? ? Lv3 Lv4]; subst. inversion Lx as [|? ? Lx1 Lx2]; subst.
      cbn [contiguous]. destruct (located_raw Lv1) as (_ & R1 & I1). destruct (located_raw Lv3) as (R2 & _ & I2). rewrite I1, I2, R1, R2.
      assert (m_end v = m_start v2) as Ev.
      { destruct A as [A _]. destruct A2 as [A2 _]. unfold m_span in A, A2. injection A as _ ->. injection A2 as -> _. exact Exy. }
      assert (0 <= m_end v <= zlen t) as Bv by (destruct Lv1 as (_ & _ & _ & _ & B1 & B2); lia).
      rewrite separated_spec by lia. rewrite Ev, Z.eqb_refl. cbn [negb]. rewrite Lk, LF. cbn [app]. f_equal.
      apply (IH y v2 ms2 j e); auto.
    + (* it is not *)
      assert (at_index ms y = None) as Ny0.
      { apply at_index_none. intros m Hm. destruct (picked_In P2 Hm) as (z & Z1 & Z2). inversion Ny as [|? ? _ N2]; subst. rewrite Forall_forall in N2.
        specialize (N2 z Z1). destruct Z2 as [_ ->]. lia. }
      assert (leading (map (at_index ms) F) = []) as ->. { unfold F. cbn [firstn map leading]. now rewrite Ny0. }
      assert (contiguous t v ms = [v]) as ->.
      { destruct ms as [|v2 ms2]; [reflexivity|]. cbn [contiguous].
        inversion Lv as [|? ? Lv1 Lv2]; subst. inversion Lv2 as [|? ? Lv3 Lv4]; subst.
        destruct (located_raw Lv1) as (_ & R1 & I1). destruct (located_raw Lv3) as (R2 & _ & I2). rewrite I1, I2, R1, R2.
        destruct (@picked_In _ _ v2 P2 (or_introl eq_refl)) as (z & Z1 & Z2). inversion Sy as [|? ? _ S2]; subst. rewrite Forall_forall in S2. specialize (S2 z Z1).
        assert (m_start y < m_end y) by (inversion Lx as [|? ? _ Lx2]; subst; inversion Lx2 as [|? ? (_ & _ & _ & _ & B & _) _]; subst; lia).
        assert (m_end v < m_start v2) as Gt.
        { destruct A as [A _]. destruct Z2 as [Z2 _]. unfold m_span in A, Z2. injection A as _ ->. injection Z2 as -> _. lia. }
        destruct Lv1 as (_ & _ & _ & _ & B1 & B2). destruct Lv3 as (_ & _ & _ & _ & B3 & B4). rewrite separated_spec by lia.
        destruct (Z.eqb_spec (m_end v) (m_start v2)); [lia|reflexivity]. }
      rewrite Lk1, LF. rewrite (@flat_look_nil [] F); [reflexivity|]. intros ? ? _ [].
Qed.

Lemma contiguous_In t : forall r m x, In x (contiguous t m r) -> In x (m :: r).
Proof. intros r m x H. eapply subseq_In; [apply contiguous_subseq|exact H]. Qed.
Lemma contiguous_head t m r : exists C, contiguous t m r = m :: C.
Proof. destruct r; cbn [contiguous]; [eauto|]. destruct (separated _ _ _); eauto. Qed.

Lemma run_visible_skip t : forall R v ms j e a, picked (v :: ms) R -> Forall (located t) (v :: ms) -> Forall (located t) R ->
  numbered R -> ahead R -> tile a (firstn j R) e ->
  flat_map (look (contiguous t v ms)) (firstn j R) = leading (skip_none (map (at_index (v :: ms)) (firstn j R))).
Proof.
  induction R as [|x R IH]; intros v ms j e a P Lv Lx N S T; [inversion P|]. destruct j as [|j]; [reflexivity|].
  inversion P as [|v2 y' ms2 R' A2 P2|y' ms' R' P2]; subst.
  - assert (tile (m_start x) (firstn (Datatypes.S j) (x :: R)) e) as T'.
    { change (firstn (Datatypes.S j) (x :: R)) with (x :: firstn j R) in *. destruct T as [_ T]. split; auto. }
    rewrite (@run_visible t R x v ms j e) by auto. rewrite firstn_cons. cbn [map]. rewrite at_index_cons, (proj2 A2), Nat.eqb_refl. reflexivity.
  - rewrite firstn_cons. cbn [flat_map map].
    assert (Forall (fun z => m_index x < m_index z)%nat R) as Nx by (now inversion N).
    assert (forall m, In m (v :: ms) -> m_index m <> m_index x) as NX.
    { intros m Hm. destruct (picked_In P2 Hm) as (z & Z1 & _ & ->). rewrite Forall_forall in Nx. specialize (Nx z Z1). lia. }
    rewrite (@at_index_none (v :: ms) x NX). cbn [skip_none]. unfold look at 1.
    rewrite (@at_index_none (contiguous t v ms) x); [|intros m Hm; apply NX; eapply contiguous_In; eauto]. cbn [app].
    inversion Lx; inversion N; inversion S; subst. destruct T as [_ T]. eapply IH; eauto.
Qed.

(** what is kept of the valid ones shows exactly the visible ones of the [k] repetitions *)
Lemma truncate_visible first rend t ms raws k a e : picked ms raws -> Forall (located t) ms -> Forall (located t) raws ->
  map m_index raws = seq 0 (length raws) -> ahead raws ->
  (k <= length raws)%nat -> (first = false \/ k = 0%nat -> a = 0) -> tile a (firstn k raws) e ->
  (forall z, rend = Some z -> Z.of_nat k <= Z.max 0 z) ->
  flat_map (look (truncate_repeater first rend ms t)) (firstn k raws) = visible first ms (firstn k raws).
Proof.
  intros P L1 L2 Ix S K A T Kz. assert (numbered raws) as N.
  { clear - Ix. pose proof (seq_sorted (length raws) 0) as X. rewrite <- Ix in X. clear Ix. induction raws as [|x l IH]; [constructor|].
    simpl in X. inversion X as [|? ? X1 X2]; subst. rewrite Forall_map in X2. constructor; [apply IH; exact X1|exact X2]. }
  destruct k as [|k]; [unfold visible; simpl; now destruct first|].
  unfold visible. change (fun p => find (fun m => Nat.eqb (m_index m) (m_index p)) ms) with (at_index ms).
  destruct ms as [|v ms].
  { cbn [truncate_repeater]. rewrite flat_look_nil by (intros ? ? _ []). assert (forall l, leading (skip_none (map (at_index []) l)) = [] /\ leading (map (at_index []) l) = []) as X.
    { induction l as [|y l [IH _]]; [auto|]. cbn [map]. split; [exact IH|reflexivity]. }
    destruct (X (firstn (Datatypes.S k) raws)) as [X1 X2]. destruct first; auto. }
  assert (forall l, flat_map (look (match rend with Some e0 => filter (fun x => Z.of_nat (m_index x) <? e0) l | None => l end)) (firstn (Datatypes.S k) raws)
           = flat_map (look l) (firstn (Datatypes.S k) raws)) as FL.
  { intro l. destruct rend as [z|]; [|reflexivity]. apply flat_look_ext. intros p Hp.
    assert (Z.of_nat (m_index p) < z) as Lz.
    { specialize (Kz z eq_refl). assert (In (m_index p) (seq 0 (Datatypes.S k))) as I.
      { apply (in_map m_index) in Hp. rewrite <- firstn_map, Ix, firstn_seq in Hp. apply in_seq in Hp. apply in_seq. lia. }
      apply in_seq in I. lia. }
    unfold at_index. clear - Lz. induction l as [|m l IH]; [reflexivity|]. cbn [filter find].
    destruct (Z.ltb_spec (Z.of_nat (m_index m)) z); destruct (Nat.eqb_spec (m_index m) (m_index p)) as [E|E]; cbn [find].
    - now rewrite E, Nat.eqb_refl.
    - destruct (Nat.eqb_spec (m_index m) (m_index p)); [contradiction|exact IH].
    - rewrite E in *. lia.
    - exact IH. }
  cbn [truncate_repeater]. inversion L1 as [|? ? Lv Lms]; subst. destruct (located_raw Lv) as (R1 & _ & I1). rewrite I1, R1.
  pose proof Lv as (_ & _ & _ & _ & B1 & B2). rewrite separated_spec by lia.
  destruct first; cbn [negb andb].
  - cbv zeta. rewrite FL. eapply run_visible_skip; eauto.
  - rewrite A in T by now left. destruct raws as [|x R]; [simpl in K; lia|].
    assert (m_start x = 0) as X0 by (rewrite firstn_cons in T; exact (proj1 T)).
    inversion P as [|v2 y' ms2 R' A2 P2|y' ms' R' P2]; subst.
    + assert (m_start v = 0) as ->. { destruct A2 as [A2 _]. unfold m_span in A2. injection A2 as -> _. exact X0. }
      cbn [Z.eqb negb]. cbv zeta. rewrite FL. apply (@run_visible t R x v ms k e); auto. rewrite X0. exact T.
    + assert (0 < m_start v) as Gt.
      { destruct (@picked_In _ _ v P2 (or_introl eq_refl)) as (z & Z1 & Z2). inversion S as [|? ? _ S2]; subst. rewrite Forall_forall in S2. specialize (S2 z Z1).
        inversion L2 as [|? ? (_ & _ & _ & _ & Bx & _) _]; subst. destruct Z2 as [Z2 _]. unfold m_span in Z2. injection Z2 as -> _. lia. }
      destruct (Z.eqb_spec 0 (m_start v)); [lia|]. cbn [negb]. rewrite flat_look_nil by (intros ? ? _ []).
      rewrite firstn_cons. cbn [map]. rewrite at_index_none; [reflexivity|]. intros m Hm. destruct (picked_In P2 Hm) as (z & Z1 & _ & ->).
      inversion N as [|? ? _ N2]; subst. rewrite Forall_forall in N2. specialize (N2 z Z1). lia.
Qed.

(** ** Placing *)
Lemma put_shift input r w m : 0 <= w <= r -> located (from input r) m ->
  put input w m (shift input w m) /\ m_parent (shift input w m) = None /\ m_rawstart (shift input w m) = None /\ m_rawend (shift input w m) = None.
Proof.
  intros B (I & S & E & P & L1 & L2).
  assert (m_span (shift input w m) = (m_start m + w, m_end m + w)) as SP.
  { rewrite shift_span, I. simpl. destruct (pstr_eqb _ _) eqn:Q; [|reflexivity]. apply (list_eqb_spec _ N.eqb_eq) in Q.
    destruct (@from_same input r ltac:(lia) Q) as [-> | ->]; [assert (w = 0) as -> by lia; unfold m_span; f_equal; lia|].
    rewrite Q in L2. change (zlen (@nil N)) with 0 in L2. lia. }
  assert (m_rawstart (shift input w m) = None /\ m_rawend (shift input w m) = None /\ m_input (shift input w m) = Some input
          /\ m_index (shift input w m) = m_index m /\ m_parent (shift input w m) = None) as (R1 & R2 & R3 & R4 & R5).
  { destruct m; simpl in *; subst. auto. }
  split; [|auto]. split; [exact SP|]. split; [exact R3|]. split; [exact R4|].
  unfold m_raw, raw_start, raw_end. rewrite R1, R2, R3.
  assert (input <> []) as N1. { intros ->. rewrite from_len in L2 by lia. change (zlen (@nil N)) with 0 in L2. lia. }
  destruct input; [congruence|]. reflexivity.
Qed.

Section Attempt.
  Variable breaker : option (list mtch -> bool).
  Variable input : pstr.

  Lemma shift_index' w : forall m, m_index (shift input w m) = m_index m. Proof. now destruct m. Qed.
  Lemma at_index_shift w ms p : at_index (map (shift input w) ms) (shift input w p) = option_map (shift input w) (at_index ms p).
  Proof.
    induction ms as [|m ms IH]; [reflexivity|]. cbn [map]. rewrite !at_index_cons, !shift_index'. destruct (Nat.eqb _ _); [reflexivity|exact IH].
  Qed.
  Lemma flat_look_shift w C l : flat_map (look (map (shift input w) C)) (map (shift input w) l) = map (shift input w) (flat_map (look C) l).
  Proof.
    induction l as [|p l IH]; [reflexivity|]. cbn [map flat_map]. rewrite map_app, IH. f_equal. unfold look. rewrite at_index_shift.
    destruct (at_index C p); reflexivity.
  Qed.

  Lemma retain_app cur a b : retain breaker cur (a ++ b) = retain breaker (retain breaker cur a) b.
  Proof. revert cur. induction a as [|v a IH]; intro cur; [reflexivity|]. cbn [app retain]. apply IH. Qed.

  Lemma dfind_at_index vis (r : mtch) : dfind (map (fun m => (m_index m, [m])) vis) (m_index r) = option_map (fun m => [m]) (at_index vis r).
  Proof.
    induction vis as [|v l IH]; [reflexivity|]. cbn [map dfind]. rewrite at_index_cons. destruct (Nat.eqb_spec (m_index v) (m_index r)) as [E|E].
    - rewrite E. rewrite eqb_refl. reflexivity.
    - assert (eqb (m_index r) (m_index v) = false) as -> by (apply eqb_neq; auto). exact IH.
  Qed.

  Lemma next_groups_exact hidden vis : forall raws st st',
    Forall (fun r => m_rawend r = None) raws ->
    next_groups breaker hidden input (map (fun m => (m_index m, [m])) vis) (map (fun m => (m_index m, [m])) raws) st = Ok st' ->
    cs_current st' = (if hidden then cs_current st else retain breaker (cs_current st) (flat_map (look vis) raws))
      /\ cs_next st' = cs_next st /\ cs_offset st' = last_end (cs_offset st) raws
      /\ (raws = [] -> st' = st)
      /\ (raws <> [] -> cs_found st' = true /\ cs_text st' = from input (cs_offset st')).
  Proof.
    induction raws as [|r raws IH]; intros st st' F H.
    - cbn [map next_groups] in H. injection H as <-. cbn [flat_map retain]. split; [destruct hidden; reflexivity|]. repeat split; auto; congruence.
    - cbn [map next_groups rev app] in H. inversion F as [|? ? F1 F2]; subst.
      assert (raw_end r = m_end r) as Er by (unfold raw_end; now rewrite F1). rewrite Er in H. rewrite dfind_at_index in H.
      set (gm := match option_map (fun m : mtch => [m]) (at_index vis r) with Some l => l | None => [] end) in *.
      assert (gm = look vis r) as Eg by (unfold gm, look; destruct (at_index vis r); reflexivity).
      assert (exists cur, next_groups breaker hidden input (map (fun m => (m_index m, [m])) vis) (map (fun m => (m_index m, [m])) raws)
                (CState (cs_next st) true (py_slice input (Some (m_end r)) None) (m_end r) cur) = Ok st'
                /\ cur = if hidden then cs_current st else retain breaker (cs_current st) (look vis r)) as (cur & H1 & H2).
      { destruct hidden; [exists (cs_current st); auto|].
        exists (retain breaker (cs_current st) (look vis r)). split; [|reflexivity]. rewrite <- Eg.
        destruct (breaker_allows _ _) as [b|] eqn:Eb; [|discriminate].
        replace (retain breaker (cs_current st) gm) with (if b then cs_current st ++ gm else cs_current st); [exact H|].
        unfold breaker_allows in Eb. subst gm. destruct (at_index vis r) as [m|]; cbn [option_map retain].
        - unfold breaks. destruct breaker as [br|]; [destruct (existsb _ _); [discriminate|]; injection Eb as <-; now destruct (br _)|injection Eb as <-; reflexivity].
        - rewrite app_nil_r. now destruct b. }
      destruct (IH _ _ F2 H1) as (I1 & I5 & I6 & I7 & I8). cbn [cs_current cs_next cs_offset cs_found cs_text] in *.
      split; [rewrite I1, H2; destruct hidden; [reflexivity|]; cbn [flat_map]; now rewrite retain_app|].
      split; [exact I5|]. split; [rewrite last_end_cons; exact I6|]. split; [discriminate|]. intros _.
      destruct raws as [|r2 raws]; [|apply I8; discriminate]. rewrite I7 by reflexivity. auto.
  Qed.

  Lemma tile_put w : forall l l' a e, Forall2 (put input w) l l' -> tile a l e -> tile (a + w) l' (e + w).
  Proof.
    intros l l' a e F. revert a e. induction F as [|x y l l' P F IH]; intros a e T; simpl in *; [lia|].
    destruct T as [<- T]. destruct P as (P & _). unfold m_span in P. injection P as P1 P2. split; [exact P1|]. rewrite P2. now apply IH.
  Qed.
  Lemma visible_In first ms pieces v : In v (visible first ms pieces) -> In v ms.
  Proof.
    unfold visible. set (l := map _ pieces). intro H.
    assert (forall l : list (option mtch), In v (leading l) -> In (Some v) l) as A.
    { clear. induction l as [|[x|] l IH]; simpl; try tauto. intros [->|H]; auto. }
    assert (forall l : list (option mtch), In (Some v) (skip_none l) -> In (Some v) l) as B.
    { clear. induction l as [|[x|] l IH]; simpl; auto. }
    assert (In (Some v) l) as X by (destruct first; auto). unfold l in X. apply in_map_iff in X as (p & X & _). apply find_some in X. tauto.
  Qed.

  (** the repetitions of a part, before they are counted *)
  Lemma part_found first cp n t r w n' ms0 raws0 : ordinary cp -> 0 <= w <= r -> t = from input r ->
    cp_match cp n t = Ok (n', (ms0, raws0)) ->
    let vis := map (shift input w) (truncate_repeater first (cp_end cp) ms0 t) in
    let pieces := map (shift input w) (truncate_repeater first (cp_end cp) raws0 t) in
    let vs := flat_map (look vis) pieces in
    exists e, found input first cp r w pieces vs e /\ StronglySorted Nat.lt (map m_index pieces) /\ StronglySorted Nat.lt (map m_index vis)
      /\ Forall (fun x => m_rawend x = None) pieces /\ Forall root vs
      /\ map m_index (truncate_repeater first (cp_end cp) raws0 t) = seq 0 (length pieces)
      /\ Forall (fun x => w <= m_start x < m_end x /\ m_end x <= e) pieces
      /\ (Forall (fun x => w <= m_start x < m_end x /\ m_end x <= e) vs /\ Forall (fun x => m_end x <= zlen input) vs) /\ StronglySorted precedes vs.
  Proof.
    intros O B T E vis pieces vs. subst t.
    pose proof (proj1 O _ _ _ _ _ E) as [[L1 L2] Or Ix (sub & Sub & Ag) Fm].
    destruct (@truncate_run first (cp_end cp) raws0 _ L2 Or Ix) as (k & a & e & K1 & K2 & K3 & K4 & K5 & K6 & K7).
    pose proof (picked_of Sub Ag) as Pk.
    assert (vs = map (shift input w) (visible first ms0 (firstn k raws0))) as EV.
    { unfold vs, vis, pieces. rewrite flat_look_shift, K1. f_equal. eapply truncate_visible; eauto. }
    assert (length pieces = k) as LP by (unfold pieces; rewrite map_length, K1, firstn_length_le; auto).
    assert (Forall (located (from input r)) (firstn k raws0)) as L3.
    { rewrite Forall_forall in *. intros x Hx. apply L2. eapply subseq_In; [apply subseq_firstn|exact Hx]. }
    assert (Forall (located (from input r)) (visible first ms0 (firstn k raws0))) as L4.
    { rewrite Forall_forall in *. intros x Hx. apply L1. eapply visible_In; exact Hx. }
    assert (Forall2 (put input w) (firstn k raws0) pieces) as PL.
    { unfold pieces. rewrite K1. apply Forall2_map_r. eapply Forall_impl; [|exact L3]. intros x Hx. eapply put_shift; eauto. }
    assert (Forall2 (put input w) (visible first ms0 (firstn k raws0)) vs) as PV.
    { rewrite EV. apply Forall2_map_r. eapply Forall_impl; [|exact L4]. intros x Hx. eapply put_shift; eauto. }
    assert (tile (a + w) pieces (e + w)) as TI by (eapply tile_put; eauto).
    assert (Forall (fun m => m_start m < m_end m) pieces) as NE.
    { clear - PL L3. induction PL as [|x y l l' (P & _) F IH]; constructor; inversion L3; subst; auto. unfold m_span in P. injection P as -> ->.
      destruct H1 as (_ & _ & _ & _ & H1 & _). lia. }
    destruct (tile_sorted TI NE) as [TS TB].
    assert (Forall (fun x => w <= m_start x < m_end x /\ m_end x <= e + w) pieces) as BP.
    { rewrite Forall_forall in *. intros x Hx. specialize (TB x Hx). specialize (NE x Hx). cbv beta in *. lia. }
    assert (exists sb, subseq sb pieces /\ Forall2 (fun v x => m_span v = m_span x) vs sb) as (sb & Sb1 & Sb2).
    { assert (forall v p, In p (firstn k raws0) -> at_index ms0 p = Some v -> m_span (shift input w v) = m_span (shift input w p)) as X.
      { intros v p Hp Hv. unfold at_index in Hv. apply find_some in Hv as [Hv Ev]. apply Nat.eqb_eq in Ev.
        destruct (picked_In Pk Hv) as (x & X1 & X2 & X3). assert (In p raws0) as Hp' by (eapply subseq_In; [apply subseq_firstn|exact Hp]).
        assert (x = p) as -> by (apply (NoDup_index_inj Ix); auto; congruence).
        rewrite Forall_forall in L1, L2. destruct (@put_shift input r w v B (L1 _ Hv)) as ((S1 & _) & _). destruct (@put_shift input r w p B (L2 _ Hp')) as ((S2 & _) & _).
        rewrite S1, S2. unfold m_span in X2. injection X2 as -> ->. reflexivity. }
      assert (pieces = map (shift input w) (firstn k raws0)) as EP by (unfold pieces; now rewrite K1).
      rewrite EV, EP. unfold visible. change (fun p => find (fun m => Nat.eqb (m_index m) (m_index p)) ms0) with (at_index ms0).
      revert X. generalize (firstn k raws0). intros l X.
      assert (forall l, (forall v p, In p l -> at_index ms0 p = Some v -> m_span (shift input w v) = m_span (shift input w p)) ->
        exists sb, subseq sb (map (shift input w) l) /\ Forall2 (fun v x => m_span v = m_span x) (map (shift input w) (leading (map (at_index ms0) l))) sb) as Y.
      { clear. induction l as [|p l IH]; intro X; cbn [map leading]; [exists []; split; constructor|].
        destruct (at_index ms0 p) as [v|] eqn:Ev.
        - destruct IH as (sb & A & C). { intros v' p' H. apply X. now right. }
          exists (shift input w p :: sb). cbn [map]. split; [now constructor|]. constructor; auto. apply X; auto. now left.
        - exists []. split; [apply subseq_nil|constructor]. }
      destruct first; [|exact (Y l X)]. clear - X Y. induction l as [|p l IH]; cbn [map skip_none]; [exists []; split; constructor|].
      destruct (at_index ms0 p) as [v|] eqn:Ev.
      - rewrite <- Ev. exact (Y (p :: l) X).
      - destruct IH as (sb & A & C). { intros v' p' H. apply X. now right. } exists sb. split; [now constructor|exact C]. }
    exists (e + w). split; [|split; [|split; [|split; [|split; [|split; [|split; [exact BP|]]]]]]].
    - constructor.
      + exists n, n', ms0, raws0. rewrite LP. split; [exact E|]. split; [exact PL|]. split; [exact PV|].
        destruct K7 as [(z & Y1 & Y2)|[Y|(m & Y1 & Y2 & Y3)]]; [left; eauto|right; now left|]. right. right. exists m. split; [exact Y1|].
        split; [|lia]. destruct Y2 as [Y2|Y2]; [now left|right]. intros Z. rewrite Z in LP. simpl in LP. congruence.
      + exists (a + w). split; [lia|]. split; [|exact TI]. intros [X|X]; rewrite K4; auto; try lia. right. rewrite X in LP. simpl in LP. congruence.
      + intros z Hz. rewrite LP. auto.
    - unfold pieces. rewrite map_map, (map_ext _ m_index) by (intro; apply shift_index'). rewrite K1, <- firstn_map, Ix, firstn_seq. apply seq_sorted.
    - unfold vis. rewrite map_map, (map_ext _ m_index) by (intro; apply shift_index').
      apply subseq_sorted with (r := map m_index ms0); [apply subseq_map, truncate_subseq|].
      assert (map m_index ms0 = map m_index sub) as ->; [|apply subseq_sorted with (r := map m_index raws0); [apply subseq_map; exact Sub|rewrite Ix; apply seq_sorted]].
      clear - Ag. induction Ag as [|x y l l' [_ E] _ IH]; simpl; congruence.
    - unfold pieces. rewrite K1. apply Forall_forall. intros x Hx. apply in_map_iff in Hx as (y & <- & Hy). rewrite Forall_forall in L3. eapply put_shift; eauto.
    - rewrite EV. apply Forall_forall. intros x Hx. apply in_map_iff in Hx as (y & <- & Hy). rewrite Forall_forall in L4, Fm.
      destruct (L4 _ Hy) as (_ & _ & X1 & X2 & _). apply visible_In in Hy. apply shift_root; auto.
    - rewrite LP, K1, <- firstn_map, Ix, firstn_seq. f_equal. lia.
    - assert (Forall (fun x => m_end x <= zlen input) vs) as In1.
      { clear - PV L4 B. induction PV as [|x y l l' (P & _) F IH]; constructor; inversion L4; subst; auto. unfold m_span in P. injection P as _ ->.
        destruct H1 as (_ & _ & _ & _ & H1 & H9). rewrite from_len in H9 by lia. lia. }
      assert (forall A B C : Prop, B -> A /\ C -> (A /\ B) /\ C) as Sp by tauto. apply Sp; [exact In1|]. clear Sp In1.
      pose proof (subseq_sorted Sb1 TS) as SS. assert (Forall (fun x => w <= m_start x < m_end x /\ m_end x <= e + w) sb) as BS.
      { rewrite Forall_forall in *. intros x Hx. apply BP. eapply subseq_In; eauto. }
      clear - Sb2 SS BS. induction Sb2 as [|v x l l' E F IH]; [split; constructor|]. inversion SS as [|? ? S1 S2]; subst. inversion BS as [|? ? B1 B2]; subst.
      destruct (IH S1 B2) as [I1 I2]. unfold m_span in E. injection E as E1 E2. split; constructor; auto; [lia|].
      clear - F S2 E2. induction F as [|y z l r E F IH]; constructor; inversion S2; subst; auto.
      unfold precedes in *. unfold m_span in E. injection E as E3 E4. lia.
  Qed.

  Lemma validate_len rstart (l : list mtch) : map m_index l = seq 0 (length l) ->
    validate_repeater rstart l = (rstart <=? Z.of_nat (length l)).
  Proof.
    intro H. unfold validate_repeater. rewrite (@fold_max_seq l 0 (-1) H) by lia. destruct l as [|m l]; cbn [length] in *.
    - destruct (Z.ltb_spec (-1 + 1) rstart); destruct (Z.leb_spec rstart (Z.of_nat 0)); cbn [negb]; try reflexivity; lia.
    - destruct (Z.ltb_spec (Z.of_nat (0 + Datatypes.S (length l)) - 1 + 1) rstart); destruct (Z.leb_spec rstart (Z.of_nat (Datatypes.S (length l)))); cbn [negb]; try reflexivity; lia.
  Qed.
  Lemma retain_subseq : forall vs cur, subseq (retain breaker cur vs) (cur ++ vs).
  Proof.
    induction vs as [|v vs IH]; intro cur; cbn [retain]; [rewrite app_nil_r; apply subseq_refl|].
    destruct (breaks _ _).
    - eapply subseq_trans; [apply IH|]. apply subseq_app; [apply subseq_refl|]. apply sub_skip, subseq_refl.
    - eapply subseq_trans; [apply IH|]. rewrite <- app_assoc. apply subseq_refl.
  Qed.
  Lemma subseq_Forall {A} (P : A -> Prop) l r : subseq l r -> Forall P r -> Forall P l.
  Proof. intros S F. rewrite Forall_forall in *. intros x Hx. apply F. eapply subseq_In; eauto. Qed.

  (** what is retained *)
  Record good (w0 w : Z) (cur : list mtch) : Prop := {
    gd_root : Forall root cur;
    gd_sorted : StronglySorted precedes cur;
    gd_pos : Forall (fun m => w0 <= m_start m < m_end m) cur;
    gd_before : Forall (fun m => m_end m <= w) cur;
    gd_inside : Forall (fun m => m_end m <= zlen input) cur
  }.
  Lemma good_nil w0 w : good w0 w []. Proof. constructor; constructor. Qed.

  Lemma run_parts_attempt : forall parts first st st' ok r w0, Forall ordinary parts -> 0 <= w0 -> w0 <= cs_offset st <= r -> cs_text st = from input r ->
    good w0 (cs_offset st) (cs_current st) ->
    run_parts breaker input first parts st = Ok (st', ok) ->
    exists pieces r' u, attempt breaker input first parts r (cs_offset st) (cs_current st) pieces r' (cs_offset st') (cs_current st') ok
      /\ w0 <= cs_offset st' <= r' /\ cs_text st' = from input r' /\ good w0 u (cs_current st') /\ (ok = true -> u = cs_offset st')
      /\ (concat pieces = [] -> cs_found st' = cs_found st) /\ (concat pieces <> [] -> cs_found st' = true)
      /\ (cs_found st = true -> cs_found st' = true).
  Proof.
    induction parts as [|cp ps IH]; intros first st st' ok r w0 O B0 B T G H; cbn [run_parts] in H.
    - injection H as <- <-. exists [], r, (cs_offset st). split; [constructor|]. split; [lia|]. split; [auto|]. split; [exact G|]. simpl. repeat split; congruence.
    - inversion O as [|? ? O1 O2]; subst. destruct (part_matches first cp (cs_next st) (cs_text st)) as [[n' [ms raws]]|x] eqn:E.
      + destruct (to_next_part _ _ _ _ _ _) as [st1|] eqn:E1; [|discriminate].
        apply part_matches_ok in E as (ms0 & raws0 & E & -> & -> & V).
        destruct (@part_found first cp _ _ r (cs_offset st) _ _ _ O1 ltac:(lia) T E) as (e & F1 & F2 & F3 & F4 & F5 & F6 & F7 & (F8 & F10) & F9).
        unfold to_next_part in E1. cbn [cs_offset] in E1.
        set (vis := map (shift input (cs_offset st)) (truncate_repeater first (cp_end cp) ms0 (cs_text st))) in *.
        set (pieces := map (shift input (cs_offset st)) (truncate_repeater first (cp_end cp) raws0 (cs_text st))) in *.
        set (vs := flat_map (look vis) pieces) in *. rewrite !group_by_index_single in E1 by auto.
        assert (length (truncate_repeater first (cp_end cp) raws0 (cs_text st)) = length pieces) as LT by (unfold pieces; now rewrite map_length).
        assert (cp_start cp <= Z.of_nat (length pieces)) as Min.
        { rewrite validate_len in V by (rewrite LT; exact F6). rewrite LT in V. now apply Z.leb_le in V. }
        apply next_groups_exact in E1 as (J1 & J2 & J3 & J4 & J5); auto. cbn [cs_current cs_next cs_offset cs_found cs_text] in *. fold vs in J1.
        destruct pieces as [|q l] eqn:Ep.
        * specialize (J4 eq_refl). subst st1. cbn [cs_current cs_next cs_offset cs_found cs_text] in *.
          destruct (IH false (CState n' (cs_found st) (cs_text st) (cs_offset st) (cs_current st)) st' ok r w0 O2 B0 B T G H) as (rest & r' & u & Q1 & Q2 & Q3 & Q4 & Qu & Q5 & Q6 & Q7). cbn [cs_current cs_next cs_offset cs_found cs_text] in *.
          exists ([] :: rest), r', u. split; [|cbn [concat app]; repeat split; auto; try apply Q4; try tauto].
          assert (e = cs_offset st) as Ee. { destruct (fd_tile F1) as (a & A1 & A2 & A3). cbn [tile] in A3. rewrite A2 in A3 by now right. auto. }
          subst vs. cbn [flat_map] in *. rewrite Ee in F1. eapply at_none; eauto.
        * destruct (J5 ltac:(discriminate)) as [K1 K2].
          assert (cs_offset st1 = e) as Eo.
          { destruct (fd_tile F1) as (a & A1 & A2 & A3). rewrite J3, last_end_cons. apply tile_last. apply A3. }
          assert (cs_offset st <= e) as Le. { inversion F7; subst. lia. }
          rewrite Eo in K2. clear Ep.
          assert (good w0 e (cs_current st1)) as G1.
          { rewrite J1. destruct G as [g1 g2 g3 g4 g6]. destruct (cp_hidden cp).
            - constructor; auto. eapply Forall_impl; [|exact g4]. cbv beta. intros; lia.
            - pose proof (retain_subseq vs (cs_current st)) as SS. constructor.
              + eapply subseq_Forall; [exact SS|]. apply Forall_app. auto.
              + eapply subseq_sorted; [exact SS|]. apply sorted_app; auto. intros x y Hx Hy. rewrite Forall_forall in F8, g4. specialize (F8 y Hy). specialize (g4 x Hx).
                unfold precedes. lia.
              + eapply subseq_Forall; [exact SS|]. apply Forall_app. split; auto. eapply Forall_impl; [|exact F8]. cbv beta. intros; lia.
              + eapply subseq_Forall; [exact SS|]. apply Forall_app. split; [eapply Forall_impl; [|exact g4]|eapply Forall_impl; [|exact F8]]; cbv beta; intros; lia.
              + eapply subseq_Forall; [exact SS|]. apply Forall_app. auto. }
          destruct (IH false st1 st' ok e w0 O2 B0) as (rest & r' & u & Q1 & Q2 & Q3 & Q4 & Qu & Q5 & Q6 & Q7); auto; try (rewrite Eo; auto; lia).
          exists ((q :: l) :: rest), r', u. split; [|repeat split; auto; try apply Q4; try apply Q2; simpl; congruence].
          rewrite Eo, J1 in Q1. eapply at_some; [exact F1|discriminate|exact Min|exact Q1].
      + destruct x; try discriminate. injection H as <- <-. unfold part_matches in E.
        destruct (cp_match cp (cs_next st) (cs_text st)) as [[n' [ms0 raws0]]|x] eqn:E0.
        2:{ exfalso. destruct O1 as [_ O1]. apply (O1 (cs_next st) (cs_text st)). congruence. }
        destruct (validate_repeater _ _) eqn:V; [discriminate|].
        destruct (@part_found first cp _ _ r (cs_offset st) _ _ _ O1 ltac:(lia) T E0) as (e & F1 & F2 & F3 & F4 & F5 & F6 & F7 & (F8 & F10) & F9).
        set (pieces := map (shift input (cs_offset st)) (truncate_repeater first (cp_end cp) raws0 (cs_text st))) in *.
        assert (length (truncate_repeater first (cp_end cp) raws0 (cs_text st)) = length pieces) as LT by (unfold pieces; now rewrite map_length).
        assert (Z.of_nat (length pieces) < cp_start cp) as Min.
        { rewrite validate_len in V by (rewrite LT; exact F6). rewrite LT in V. now apply Z.leb_gt in V. }
        exists [], r, (cs_offset st). destruct G as [g1 g2 g3 g4 g6].
        assert (cs_current (match cs_current st with m :: _ => CState (cs_next st) (cs_found st) (cs_text st) (raw_end m) (cs_current st) | [] => st end) = cs_current st) as C1
          by (destruct (cs_current st) eqn:Ec; [auto|reflexivity]).
        assert (cs_text (match cs_current st with m :: _ => CState (cs_next st) (cs_found st) (cs_text st) (raw_end m) (cs_current st) | [] => st end) = cs_text st) as C2
          by (destruct (cs_current st); reflexivity).
        assert (cs_found (match cs_current st with m :: _ => CState (cs_next st) (cs_found st) (cs_text st) (raw_end m) (cs_current st) | [] => st end) = cs_found st) as C3
          by (destruct (cs_current st); reflexivity).
        assert (cs_offset (match cs_current st with m :: _ => CState (cs_next st) (cs_found st) (cs_text st) (raw_end m) (cs_current st) | [] => st end)
                = match cs_current st with m :: _ => m_end m | [] => cs_offset st end) as C4.
        { destruct (cs_current st) as [|m l]; [reflexivity|]. cbn [cs_offset]. inversion g1 as [|? ? (_ & R & _) _]; subst. unfold raw_end. now rewrite R. }
        rewrite C1, C2, C3, C4. split; [eapply at_lack; eauto|]. repeat split; auto; try (simpl; congruence).
        * destruct (cs_current st) as [|m l]; [lia|]. inversion g3; subst. lia.
        * destruct (cs_current st) as [|m l]; [lia|]. inversion g4; subst. lia.
  Qed.

  Lemma build_joins p id vs w0 u M : good w0 u vs -> build_chain_match p id vs input = Ok M -> joins input vs M.
  Proof.
    intros [R S3 S4' _ _] H. assert (Forall (fun m => m_start m < m_end m) vs) as S4 by (eapply Forall_impl; [|exact S4']; cbv beta; intros; lia). clear S4'.
    unfold build_chain_match in H. destruct vs as [|f r]; [discriminate|]. cbv zeta in H.
    set (st := fold_left _ r (m_start f)) in H. set (en := fold_left _ r (m_end f)) in H.
    destruct (chain_children _ _ _) as [cs|] eqn:E; [|discriminate]. injection H as <-.
    inversion S3 as [|? ? S5 S6]; subst. inversion S4 as [|? ? S7 S8]; subst.
    assert (st = m_start f) as Est.
    { unfold st. apply fold_min_sorted. rewrite Forall_forall in *. intros x Hx. specialize (S6 x Hx). unfold precedes in S6. lia. }
    assert (en = last_end 0 (f :: r)) as Een.
    { unfold en. rewrite last_end_cons. apply fold_max_sorted; auto. }
    unfold last_end in Een. destruct (rev (f :: r)) as [|l l'] eqn:Er.
    { apply (f_equal (@length _)) in Er. rewrite rev_length in Er. discriminate. }
    exists f, l. rewrite Er. split; [reflexivity|]. split; [reflexivity|].
    unfold relink_children at 1 2. split; [unfold m_span; simpl; congruence|]. split; [reflexivity|].
    apply chain_children_ok in E; [|exact R|constructor]. simpl in E.
    match goal with |- Forall2 _ _ (m_children (relink_children ?m)) => pose proof (relink_children_same m) as X; change (m_children m) with cs in X end.
    revert X. rewrite E. generalize (m_children (relink_children (set_children (new_match id st en (filter_match_kwargs (po_kw p) false) (po_id p) input) cs))).
    set (sh := shell _). 
    intros l0 X.
    assert (forall vs l0, Forall2 (fun v c => set_parent c None = set_parent v None) (flat_map (fun v => m_children v ++ [set_parent v (Some sh)]) vs) l0 ->
       Forall2 (fun v c => set_parent c None = set_parent v None) (flat_map (fun v => m_children v ++ [v]) vs) l0) as Y.
    { clear. induction vs as [|v vs IH]; intros l0 H; [exact H|]. cbn [flat_map] in *. apply Forall2_app_inv_l in H as (l1 & l2 & H1 & H2 & ->).
      apply Forall2_app; auto. apply Forall2_app_inv_l in H1 as (l3 & l4 & H3 & H4 & ->). apply Forall2_app; auto.
      inversion H4 as [|? ? ? ? H5 H6]; subst. inversion H6; subst. constructor; auto. }
    apply Y. exact X.
  Qed.

  Lemma chain_loop_history p parts : Forall ordinary parts -> forall fuel n text offset r acc n' ms,
    0 <= offset <= r -> text = from input r ->
    chain_loop fuel p breaker parts input n text offset acc = Ok (n', ms) ->
    exists rest, ms = acc ++ rest /\ history breaker input parts r offset rest
      /\ StronglySorted precedes rest /\ Forall (fun M => offset <= m_start M < m_end M /\ m_end M <= zlen input) rest.
  Proof.
    intros O. induction fuel as [|f IH]; intros n text offset r acc n' ms B T H; cbn [chain_loop] in H.
    - destruct (Z.ltb_spec offset (zlen input)); [discriminate|]. injection H as <- <-. exists []. rewrite app_nil_r. split; [auto|]. repeat split; constructor; auto.
    - destruct (Z.ltb_spec offset (zlen input)) as [L|L]; [|injection H as <- <-; exists []; rewrite app_nil_r; repeat split; constructor; auto].
      destruct (run_parts _ _ _ _ _) as [[st valid]|x] eqn:R; [|discriminate].
      destruct (@run_parts_attempt parts true (CState n false text offset []) st valid r offset O (proj1 B) (conj (Z.le_refl _) (proj2 B)) T (good_nil _ _) R) as (pieces & r' & u & A1 & A2 & A3 & A4 & Au & A5 & A6 & _).
      cbn [cs_offset cs_current cs_found] in *.
      destruct (cs_found st) eqn:Ef; cbn [negb] in H.
      2:{ injection H as <- <-. exists []. rewrite app_nil_r. split; [auto|]. split; [|split; constructor]. eapply hs_stop; eauto. destruct (concat pieces); [reflexivity|]. exfalso. discriminate A6. discriminate. }
      assert (concat pieces <> []) as NE by (intro X; specialize (A5 X); discriminate).
      assert (0 <= cs_offset st <= r') as B' by lia.
      assert (forall rest, Forall (fun M => cs_offset st <= m_start M < m_end M /\ m_end M <= zlen input) rest -> Forall (fun M => offset <= m_start M < m_end M /\ m_end M <= zlen input) rest) as Up.
      { intros rest F. eapply Forall_impl; [|exact F]. cbv beta. intros; lia. }
      destruct (cs_current st) as [|m l] eqn:Ec.
      + destruct (IH _ _ _ r' _ _ _ B' A3 H) as (rest & -> & Hr & Hs & Hb). exists rest. split; [reflexivity|]. split; [eapply hs_again; eauto|auto].
      + destruct valid.
        * destruct (build_chain_match _ _ _ _) as [M|] eqn:Eb; [|discriminate].
          destruct (IH _ _ _ r' _ _ _ B' A3 H) as (rest & -> & Hr & Hs & Hb). exists (M :: rest). rewrite <- app_assoc. split; [reflexivity|].
          pose proof (build_joins A4 Eb) as J.
          split; [eapply hs_match; eauto|]. specialize (Au eq_refl). subst u. destruct A4 as [g1 g2 g3 g4 g6]. destruct J as (fm & lm & J1 & J2 & J3 & _).
          assert (In fm (m :: l)) as If by (injection J1 as <-; now left).
          assert (In lm (m :: l)) as Il by (apply in_rev; destruct (rev (m :: l)); [discriminate|injection J2 as <-; now left]).
          unfold m_span in J3. injection J3 as J3 J4. rewrite Forall_forall in g3, g4, g6.
          assert (m_start fm < m_end lm) as Lt.
          { injection J1 as <-. pose proof (g3 _ If). pose proof (g3 _ Il). destruct Il as [->|Il]; [lia|]. inversion g2 as [|? ? _ g5]; subst. rewrite Forall_forall in g5.
            specialize (g5 _ Il). unfold precedes in g5. lia. }
          split; constructor; auto.
          -- eapply Forall_impl; [|exact Hb]. cbv beta. unfold precedes. intros X HX. rewrite J4. specialize (g4 _ Il). lia.
          -- specialize (g3 _ If). specialize (g6 _ Il). lia.
        * destruct (IH _ _ _ r' _ _ _ B' A3 H) as (rest & -> & Hr & Hs & Hb). exists rest. split; [reflexivity|]. split; [eapply hs_again; eauto|auto].
  Qed.
End Attempt.
