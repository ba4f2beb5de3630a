(** at_span, chains, range and holes: what they answer. *)
From Verif Require Import Base BaseFacts Match Spec MatchFacts Coll CollFacts CollQuery CollSem.
From Coq Require Import ZifyBool.
Set Implicit Arguments.
Unset Strict Implicit.
Open Scope Z_scope.

(** ** range *)
Lemma range_sem c st en :
  let e := range_end c en in
  let sel := filter (fun m => (m_start m <? e) && (m_end m >? st)) (c_del c) in
  let r := q_range c st en in
  Permutation r sel
  /\ StronglySorted (fun a b => m_start a < m_start b \/ (m_start a = m_start b /\ m_end a <= m_end b)) r
  /\ (forall sp, filter (fun m => (m_start m =? fst sp) && (m_end m =? snd sp)) r
                 = filter (fun m => (m_start m =? fst sp) && (m_end m =? snd sp)) sel).
Proof.
  intros e sel r. subst r. unfold q_range. fold e.
  assert (forall a b c, mlt a b = true -> mlt b c = true -> mlt a c = true) as Ht.
  { intros a b d. rewrite !mlt_spec. lia. }
  rewrite sort_by_filter; [|intros; eapply mlt_le_trans; eauto|apply mlt_asym].
  fold sel. split; [apply sort_by_perm|]. split.
  - assert (StronglySorted (fun a b => mlt b a = false) (sort_by mlt sel)) as H.
    { apply sort_by_sorted; [intros; eapply mlt_le_trans; eauto|apply mlt_asym]. }
    induction H; constructor; auto. eapply Forall_impl; [|eassumption]. simpl. intros y Hy. apply mlt_false in Hy. lia.
  - intro sp. apply sort_by_stable; [intros; eapply mlt_le_trans; eauto|apply mlt_asym|].
    intros x y Hx Hy. apply mlt_false. lia.
Qed.

Lemma sep_at_in str seps i : 0 <= i < zlen str -> exists ch, py_nth str i = Some ch /\ sep_at (Some str) seps i = Ok (char_in ch seps).
Proof.
  intro H. unfold sep_at. unfold py_nth.
  destruct (py_pos str i) as [n|] eqn:E.
  - destruct (py_pos_nth _ _ E) as (x & Hx). rewrite Hx. eauto.
  - apply py_pos_None in E. lia.
Qed.

(** the character of [input] at [i] is one of [seps] *)
Definition sep_in (input : option pstr) (seps : pstr) (i : Z) : bool :=
  match input with
  | None => false
  | Some str => match py_nth str i with Some ch => char_in ch seps | None => false end
  end.

Section Sem2.
  Variable c : coll.
  Hypothesis HI : Inv no_ghost c.
  Let del := c_del c.

  (** ** at_span *)
  Lemma at_span_sem sp :
    let r := chain_add (vat c (fst sp)) (vat c (snd sp - 1)) in
    (forall x, In x del -> (found x r <-> covers x (fst sp) \/ covers x (snd sp - 1)))
    /\ (forall y, In y r -> found y del)
    /\ (no_equal del -> no_equal r).
  Proof.
    intro r.
    assert (forall k, In k (map mkey r) <-> exists x, In x del /\ (covers x (fst sp) \/ covers x (snd sp - 1)) /\ mkey x = k) as HR.
    { intro k. subst r. rewrite chain_add_keys, (vat_key HI), (vat_key HI). fold del. split.
      - intros [(y & H1 & H2 & H3)|(y & H1 & H2 & H3)]; exists y; auto.
      - intros (y & H1 & [H2|H2] & H3); [left|right]; exists y; auto. }
    split; [|split].
    - intros x Hx. rewrite found_mkey, HR. split; [|eauto].
      intros (y & Hy & Hc & E). unfold covers in *. rewrite <- (@mkey_start _ _ E), <- (@mkey_end _ _ E). exact Hc.
    - intros y Hy. apply found_mkey. destruct (proj1 (HR (mkey y)) (in_map mkey _ _ Hy)) as (x & Hx & _ & <-).
      apply in_map; exact Hx.
    - intro Hne. apply no_equal_NoDup. subst r. apply chain_add_NoDup.
      apply (Permutation_NoDup (Permutation_sym (vat_perm HI (fst sp)))). rewrite occ_at.
      apply no_equal_NoDup in Hne. fold del. clear -Hne. induction del as [|x l IH]; simpl; [constructor|].
      simpl in Hne. inversion Hne; subst. destruct (coversb (fst sp) x); simpl; auto.
      constructor; auto. intro Hin. apply H1. apply in_map_iff in Hin as (y & <- & Hy). apply filter_In in Hy as [Hy _]. apply in_map, Hy.
  Qed.

  (** ** chains *)
  Variables (pred : mtch -> bool) (seps : pstr) (str : pstr).
  Hypothesis Hp : agrees c pred.
  Hypothesis Hin : c_input c = Some str.

  (** position [i] belongs to a chain *)
  Definition linked (i : Z) : bool :=
    existsb (fun m => coversb i m && pred m) del || sep_in (Some str) seps i.

  Lemma filter_vat_nil i : filter pred (vat c i) = [] <-> existsb (fun m => coversb i m && pred m) del = false.
  Proof.
    unfold del. rewrite <- (covered_vat HI i Hp). pose proof (filter_nil_existsb pred (vat c i)) as H.
    destruct (filter pred (vat c i)); destruct (existsb pred (vat c i)); simpl in H; split; intro; try reflexivity; discriminate.
  Qed.

  Lemma chain_pure_eq : forall is ch, (forall i, In i is -> 0 <= i < zlen str) ->
    chain_pure (vat c) (Some str) pred seps is ch
    = Ok (chain_add ch (flat_map (fun i => filter pred (vat c i)) (take_while linked is))).
  Proof.
    induction is as [|i is IH]; intros ch Hr; simpl; [reflexivity|].
    unfold linked. pose proof (filter_vat_nil i) as Hf.
    destruct (filter pred (vat c i)) as [|x l] eqn:E.
    - rewrite (proj1 Hf eq_refl). simpl orb. destruct (@sep_at_in str seps i) as (chr & E1 & E2); [apply Hr; left; reflexivity|].
      unfold sep_in. rewrite ?E1. destruct (char_in chr seps).
      + simpl. rewrite E. simpl. apply IH. intros; apply Hr; right; assumption.
      + reflexivity.
    - destruct (existsb (fun m => coversb i m && pred m) del) eqn:E1; [|destruct Hf as [_ Hf]; discriminate (Hf eq_refl)].
      simpl. rewrite IH by (intros; apply Hr; right; assumption). rewrite E. f_equal.
      unfold chain_add. rewrite <- fold_left_app. reflexivity.
  Qed.

  Lemma fvat_key i k : In k (map mkey (filter pred (vat c i)))
    <-> exists y, In y del /\ covers y i /\ pred y = true /\ mkey y = k.
  Proof.
    split.
    - intro H. apply in_map_iff in H as (x & <- & Hx). apply filter_In in Hx as [Hx Hpx].
      destruct (proj1 (vat_key HI i (mkey x)) (in_map mkey _ _ Hx)) as (y & Hy & Hc & E).
      exists y. repeat split; auto; [apply Hc | apply Hc |]. rewrite <- (Hp (x := x) (y := y)); eauto.
    - intros (y & Hy & Hc & Hpy & <-).
      assert (In (mkey y) (map mkey (vat c i))) as Hk by (apply (vat_key HI); eauto).
      apply in_map_iff in Hk as (x & E & Hx). apply in_map_iff. exists x. split; [exact E|].
      apply filter_In. split; [exact Hx|]. rewrite (Hp (x := x) (y := y)); eauto.
  Qed.

  Lemma flat_key is k : In k (map mkey (flat_map (fun i => filter pred (vat c i)) is))
    <-> exists y i, In i is /\ In y del /\ covers y i /\ pred y = true /\ mkey y = k.
  Proof.
    rewrite flat_map_concat_map, concat_map, map_map, in_concat. split.
    - intros (l & Hl & Hk). apply in_map_iff in Hl as (i & <- & Hi). apply fvat_key in Hk as (y & H1 & H2 & H3 & H4).
      exists y, i. auto.
    - intros (y & i & Hi & H1 & H2 & H3 & H4). exists (map mkey (filter pred (vat c i))). split.
      + apply in_map_iff. eauto.
      + apply fvat_key. eauto.
  Qed.

  Lemma take_while_zrange q a b i : In i (take_while q (zrange a b)) <-> a <= i < b /\ forall j, a <= j <= i -> q j = true.
  Proof.
    remember (Z.to_nat (b - a)) as n eqn:En. revert a En. induction n as [|n IH]; intros a En.
    - rewrite zrange_nil by lia. simpl. split; [tauto | lia].
    - rewrite zrange_cons by lia. simpl. destruct (q a) eqn:E.
      + simpl. rewrite IH by lia. split.
        * intros [<-|[H1 H2]]; [split; [lia|]; intros j Hj; replace j with a by lia; exact E|].
          split; [lia|]. intros j Hj. destruct (Z.eq_dec j a); [subst; exact E | apply H2; lia].
        * intros [H1 H2]. destruct (Z.eq_dec a i); [left; assumption|right]. split; [lia|]. intros; apply H2; lia.
      + simpl. split; [tauto|]. intros [H1 H2]. rewrite H2 in E by lia. discriminate.
  Qed.
  Lemma rev_zrange_cons a b : a < b -> rev (zrange a b) = (b - 1) :: rev (zrange a (b - 1)).
  Proof.
    intro H. replace b with (b - 1 + 1) at 1 by lia. rewrite zrange_snoc by lia. rewrite rev_app_distr. reflexivity.
  Qed.
  Lemma take_while_rev_zrange q a b i : In i (take_while q (rev (zrange a b))) <-> a <= i < b /\ forall j, i <= j < b -> q j = true.
  Proof.
    remember (Z.to_nat (b - a)) as n eqn:En. revert b En. induction n as [|n IH]; intros b En.
    - rewrite zrange_nil by lia. simpl. split; [tauto | lia].
    - rewrite rev_zrange_cons by lia. simpl. destruct (q (b - 1)) eqn:E.
      + simpl. rewrite IH by lia. split.
        * intros [<-|[H1 H2]]; [split; [lia|]; intros j Hj; replace j with (b - 1) by lia; exact E|].
          split; [lia|]. intros j Hj. destruct (Z.eq_dec j (b - 1)); [subst; exact E | apply H2; lia].
        * intros [H1 H2]. destruct (Z.eq_dec (b - 1) i); [left; assumption|right]. split; [lia|]. intros; apply H2; lia.
      + simpl. split; [tauto|]. intros [H1 H2]. rewrite H2 in E by lia. discriminate.
  Qed.

  (** what a chain collected over the positions [is] holds *)
  Definition chain_content (ok : Z -> Prop) (r : list mtch) : Prop :=
    no_equal r
    /\ (forall x, In x del -> (found x r <-> pred x = true /\ exists i, covers x i /\ ok i))
    /\ (forall y, In y r -> found y del).

  Lemma chain_content_of is (ok : Z -> Prop) : (forall i, In i is <-> ok i) ->
    chain_content ok (chain_add [] (flat_map (fun i => filter pred (vat c i)) is)).
  Proof.
    intro Hok. set (L := flat_map (fun i => filter pred (vat c i)) is).
    assert (forall k, In k (map mkey (chain_add [] L)) <-> exists y i, ok i /\ In y del /\ covers y i /\ pred y = true /\ mkey y = k) as HK.
    { intro k. rewrite chain_add_keys. simpl. subst L. rewrite flat_key. split.
      - intros [[]|(y & i & H1 & H2)]. exists y, i. split; [apply Hok; exact H1 | exact H2].
      - intros (y & i & H1 & H2). right. exists y, i. split; [apply Hok; exact H1 | exact H2]. }
    split; [|split].
    - apply no_equal_NoDup, chain_add_NoDup. constructor.
    - intros x Hx. rewrite found_mkey, HK. split.
      + intros (y & i & H1 & H2 & H3 & H4 & H5). split.
        * assert (In (mkey y) (map mkey (vat c i))) as Hk by (apply (vat_key HI); eauto).
          apply in_map_iff in Hk as (z & Ez & Hz). assert (pred z = pred x) as <- by (apply Hp; eauto; congruence).
          rewrite (Hp (x := z) (y := y)); eauto.
        * exists i. split; [|exact H1]. unfold covers in *. rewrite <- (@mkey_start _ _ H5), <- (@mkey_end _ _ H5). exact H3.
      + intros (H1 & i & H2 & H3). exists x, i. repeat split; auto; apply H2.
    - intros y Hy. apply found_mkey. destruct (proj1 (HK (mkey y)) (in_map mkey _ _ Hy)) as (x & i & _ & Hx & _ & _ & <-).
      apply in_map, Hx.
  Qed.

  Lemma chain_after_sem p en : 0 <= p -> range_end c en <= zlen str ->
    exists r, chain_pure (vat c) (c_input c) pred seps (zrange p (range_end c en)) [] = Ok r
      /\ chain_content (fun i => p <= i < range_end c en /\ forall j, p <= j <= i -> linked j = true) r.
  Proof.
    intros Hp0 He. eexists. rewrite Hin. split.
    - apply chain_pure_eq. intros i Hi. apply in_zrange in Hi. lia.
    - apply chain_content_of. intro i. apply take_while_zrange.
  Qed.
  Lemma chain_before_sem p st : 0 <= st -> Z.min (max_end c) p <= zlen str ->
    let e := Z.min (max_end c) p in
    exists r, chain_pure (vat c) (c_input c) pred seps (rev (zrange st e)) [] = Ok r
      /\ chain_content (fun i => st <= i < e /\ forall j, i <= j < e -> linked j = true) r.
  Proof.
    intros Hp0 He e. eexists. rewrite Hin. split.
    - apply chain_pure_eq. intros i Hi. apply in_rev in Hi. apply in_zrange in Hi. lia.
    - apply chain_content_of. intro i. apply take_while_rev_zrange.
  Qed.
End Sem2.

(** ** holes *)

(** The scan of [holes] as a function: [cov i] position covered, [sep i] separator. *)
Fixpoint hlist (cov sep : Z -> bool) (st : Z) (n : nat) (i : Z) (open : option Z) : list (Z * Z) :=
  match n with
  | O => match open with Some h => [(h, i)] | None => [] end
  | S n' =>
      match open with
      | None => hlist cov sep st n' (i + 1) (if cov i then None else Some (Z.max i st))
      | Some h => if sep i || cov i then (h, i) :: hlist cov sep st n' (i + 1) None
                  else hlist cov sep st n' (i + 1) (Some h)
      end
  end.

Definition hole_sep (input seps : option pstr) (i : Z) : bool :=
  match seps, input with
  | Some (s0 :: sr), Some (i0 :: ir) => sep_in (Some (i0 :: ir)) (s0 :: sr) i
  | _, _ => false
  end.

Definition opt_close (open : option Z) (e : Z) : list (Z * Z) := match open with Some h => [(h, e)] | None => [] end.

Lemma sep_close_ok input seps hole i :
  (forall s0 sr, seps = Some (s0 :: sr) -> forall str, input = Some str -> 0 <= i < zlen str) ->
  sep_close input seps hole i = Ok (match hole with None => false | Some _ => hole_sep input seps i end).
Proof.
  intro H. unfold sep_close, hole_sep. destruct seps as [[|s0 sr]|]; destruct hole; destruct input as [[|i0 ir]|]; try reflexivity.
  specialize (H s0 sr eq_refl _ eq_refl). destruct (@sep_at_in (i0 :: ir) (s0 :: sr) i H) as (ch & E1 & E2).
  rewrite E2. unfold sep_in. rewrite E1. reflexivity.
Qed.

Lemma holes_pure_hlist cov input seps st n : forall i ret open last,
  (forall s0 sr, seps = Some (s0 :: sr) -> forall str, input = Some str -> 0 <= i /\ i + Z.of_nat n <= zlen str) ->
  exists ret' open' last',
    holes_pure cov input seps st (zrange i (i + Z.of_nat n)) ret open last = Ok (ret', open', last')
    /\ rev ret' ++ opt_close open' (i + Z.of_nat n) = rev ret ++ hlist cov (hole_sep input seps) st n i open
    /\ (n <> O -> last' = i + Z.of_nat n - 1 /\ (open' <> None -> cov last' = false))
    /\ (n = O -> open' = open).
Proof.
  induction n as [|n IH]; intros i ret open last Hs.
  - rewrite zrange_nil by lia. exists ret, open, last. cbn [holes_pure hlist].
    split; [reflexivity|]. split; [|split; [congruence | reflexivity]]. replace (i + Z.of_nat 0) with i by lia. reflexivity.
  - rewrite zrange_cons by lia. cbn [holes_pure hlist].
    replace (i + Z.of_nat (S n)) with (i + 1 + Z.of_nat n) by lia.
    assert (forall s0 sr, seps = Some (s0 :: sr) -> forall str, input = Some str -> 0 <= i + 1 /\ i + 1 + Z.of_nat n <= zlen str) as Hs'.
    { intros s0 sr E str E'. specialize (Hs s0 sr E str E'). lia. }
    rewrite sep_close_ok by (intros s0 sr E str E'; specialize (Hs s0 sr E str E'); lia).
    assert (forall ret1 open1, (open1 <> None -> cov i = false) ->
      exists ret' open' last',
        holes_pure cov input seps st (zrange (i + 1) (i + 1 + Z.of_nat n)) ret1 open1 i = Ok (ret', open', last')
        /\ rev ret' ++ opt_close open' (i + 1 + Z.of_nat n) = rev ret1 ++ hlist cov (hole_sep input seps) st n (i + 1) open1
        /\ (last' = i + 1 + Z.of_nat n - 1 /\ (open' <> None -> cov last' = false))) as G.
    { intros ret1 open1 Ho. destruct (IH (i + 1) ret1 open1 i Hs') as (r & o & la & H1 & H2 & H3 & H4).
      exists r, o, la. split; [exact H1|]. split; [exact H2|]. destruct n as [|n']; [|apply H3; congruence].
      specialize (H4 eq_refl). subst o. rewrite zrange_nil in H1 by lia. simpl in H1. injection H1 as <- <-.
      split; [lia | exact Ho]. }
    destruct open as [h|]; [destruct (hole_sep input seps i) eqn:Es; [|destruct (cov i) eqn:Ec]|destruct (cov i) eqn:Ec]; simpl orb; cbv iota.
    + destruct (G ((h, i) :: ret) None) as (r & o & la & H1 & H2 & H3); [congruence|].
      exists r, o, la. split; [exact H1|]. split; [|split; [intros _; exact H3|congruence]].
      rewrite H2. simpl. rewrite <- app_assoc. reflexivity.
    + destruct (G ((h, i) :: ret) None) as (r & o & la & H1 & H2 & H3); [congruence|].
      exists r, o, la. split; [exact H1|]. split; [|split; [intros _; exact H3|congruence]].
      rewrite H2. simpl. rewrite <- app_assoc. reflexivity.
    + destruct (G ret (Some h)) as (r & o & la & H1 & H2 & H3); [auto|].
      exists r, o, la. split; [exact H1|]. split; [exact H2|split; [intros _; exact H3|congruence]].
    + destruct (G ret None) as (r & o & la & H1 & H2 & H3); [congruence|].
      exists r, o, la. split; [exact H1|]. split; [exact H2|split; [intros _; exact H3|congruence]].
    + destruct (G ret (Some (Z.max i st))) as (r & o & la & H1 & H2 & H3); [auto|].
      exists r, o, la. split; [exact H1|]. split; [exact H2|split; [intros _; exact H3|congruence]].
Qed.

(** what the scan finds from [st] on *)
Definition hole_list (cov sep : Z -> bool) (a b : Z) (l : list (Z * Z)) : Prop :=
  Forall (fun r => a <= fst r /\ fst r < snd r /\ snd r <= b
                   /\ (forall j, fst r <= j < snd r -> cov j = false)
                   /\ (forall j, fst r < j < snd r -> sep j = false)
                   /\ (fst r = a \/ cov (fst r - 1) = true \/ sep (fst r - 1) = true)
                   /\ (snd r = b \/ cov (snd r) = true \/ sep (snd r) = true)) l
  /\ StronglySorted (fun x y => snd x < fst y) l
  /\ (forall j, a <= j < b -> cov j = false -> sep j = false -> exists r, In r l /\ fst r <= j < snd r).

Lemma hlist_spec cov sep st n : forall i open,
  st <= i ->
  match open with
  | Some h => st <= h < i /\ (forall j, h <= j < i -> cov j = false) /\ (forall j, h < j < i -> sep j = false)
              /\ (h = st \/ cov (h - 1) = true \/ sep (h - 1) = true)
  | None => i = st \/ cov (i - 1) = true \/ sep (i - 1) = true
  end ->
  let b := i + Z.of_nat n in
  let l := hlist cov sep st n i open in
  Forall (fun r => st <= fst r /\ fst r < snd r /\ snd r <= b
                   /\ (forall j, fst r <= j < snd r -> cov j = false)
                   /\ (forall j, fst r < j < snd r -> sep j = false)
                   /\ (fst r = st \/ cov (fst r - 1) = true \/ sep (fst r - 1) = true)
                   /\ (snd r = b \/ cov (snd r) = true \/ sep (snd r) = true)) l
  /\ StronglySorted (fun x y => snd x < fst y) l
  /\ (forall j, match open with Some h => h | None => i end <= j < b -> cov j = false -> sep j = false -> exists r, In r l /\ fst r <= j < snd r)
  /\ Forall (fun r => match open with Some h => h | None => i end <= fst r) l.
Proof.
  induction n as [|n IH]; intros i open Hi Ho.
  - destruct open as [h|]; cbn [hlist].
    + destruct Ho as (Hh & Hc & Hs & Hb). split; [|split; [|split]].
      * constructor; [|constructor]. cbn [fst snd]. split; [lia|]. split; [lia|]. split; [lia|].
        split; [exact Hc|]. split; [exact Hs|]. split; [exact Hb|]. left; lia.
      * repeat constructor.
      * intros j Hj _ _. exists (h, i). split; [left; reflexivity|]. simpl; lia.
      * constructor; [simpl; lia | constructor].
    + split; [constructor|]. split; [constructor|]. split; [|constructor]. intros j Hj. lia.
  - cbn [hlist]. replace (i + Z.of_nat (S n)) with (i + 1 + Z.of_nat n) by lia. destruct open as [h|].
    + destruct Ho as (Hh & Hc & Hs & Hb). destruct (sep i || cov i) eqn:E.
      * destruct (IH (i + 1) None) as (R1 & R2 & R3 & R4); [lia| |].
        { right. replace (i + 1 - 1) with i by lia. destruct (sep i), (cov i); auto; discriminate. }
        split; [|split; [|split]].
        -- constructor; [|exact R1]. cbn [fst snd]. split; [lia|]. split; [lia|]. split; [lia|]. split; [exact Hc|].
           split; [exact Hs|]. split; [exact Hb|]. right. destruct (sep i), (cov i); auto; discriminate.
        -- constructor; [exact R2|]. eapply Forall_impl; [|exact R4]. simpl; intros; lia.
        -- intros j Hj Hcj Hsj. destruct (Z_lt_ge_dec j i).
           ++ exists (h, i). split; [left; reflexivity | simpl; lia].
           ++ destruct (Z.eq_dec j i); [subst; rewrite Hcj, Hsj in E; discriminate|].
              destruct (R3 j) as (r & Hr & Hr'); [lia|assumption|assumption|]. exists r. split; [right; exact Hr | exact Hr'].
        -- constructor; [simpl; lia|]. eapply Forall_impl; [|exact R4]. simpl; intros; lia.
      * apply orb_false_iff in E as [Es Ec]. destruct (IH (i + 1) (Some h)) as (R1 & R2 & R3 & R4); [lia| |].
        { split; [lia|]. split; [|split; [|exact Hb]].
          - intros j Hj. destruct (Z.eq_dec j i); [subst; exact Ec | apply Hc; lia].
          - intros j Hj. destruct (Z.eq_dec j i); [subst; exact Es | apply Hs; lia]. }
        split; [exact R1|]. split; [exact R2|]. split; [exact R3 | exact R4].
    + destruct (cov i) eqn:E.
      * destruct (IH (i + 1) None) as (R1 & R2 & R3 & R4); [lia| |].
        { right; left. replace (i + 1 - 1) with i by lia. exact E. }
        split; [exact R1|]. split; [exact R2|]. split.
        -- intros j Hj Hcj Hsj. destruct (Z.eq_dec j i); [subst; congruence|]. apply R3; auto. lia.
        -- eapply Forall_impl; [|exact R4]. simpl; intros; lia.
      * rewrite Z.max_l by lia. destruct (IH (i + 1) (Some i)) as (R1 & R2 & R3 & R4); [lia| |].
        { split; [lia|]. split; [|split; [|exact Ho]].
          - intros j Hj. replace j with i by lia. exact E.
          - intros j Hj. lia. }
        split; [exact R1|]. split; [exact R2|]. split; [exact R3 | exact R4].
Qed.

Lemma hlist_holes cov sep a b : a <= b -> hole_list cov sep a b (hlist cov sep a (Z.to_nat (b - a)) a None).
Proof.
  intro H. destruct (@hlist_spec cov sep a (Z.to_nat (b - a)) a None) as (R1 & R2 & R3 & _); [lia|left; reflexivity|].
  replace (a + Z.of_nat (Z.to_nat (b - a))) with b in * by lia. split; [exact R1 | split; [exact R2 | exact R3]].
Qed.

Lemma hole_list_runs cov a b l : hole_list cov (fun _ => false) a b l -> maximal_runs (fun i => negb (cov i)) a b l.
Proof.
  intros (R1 & R2 & R3). split; [|split; [exact R2|]].
  - eapply Forall_impl; [|exact R1]. simpl. intros r (A & B & C & D & _ & F & G). split; [exact A|]. split; [exact B|].
    split; [exact C|]. split; [intros i Hi; rewrite D; auto|]. split.
    + destruct F as [F|[F|F]]; [auto| right; rewrite F; reflexivity | discriminate].
    + destruct G as [G|[G|G]]; [auto| right; rewrite G; reflexivity | discriminate].
  - intros i Hi Hc. apply R3; auto. destruct (cov i); [discriminate|reflexivity].
Qed.

(** the part before [st] *)
Lemma hlist_before cov sep st n k : forall i,
  i + Z.of_nat k = st ->
  (forall j, i <= j -> j < st - 1 -> cov j = false -> cov (j + 1) = false) ->
  ((forall j, sep j = false) \/ (k <> O -> cov (st - 1) = true)) ->
  hlist cov sep st (k + n) i None
  = hlist cov sep st n st (if (match k with O => true | _ => false end) || cov (st - 1) then None else Some st).
Proof.
  induction k as [|k IH]; intros i Hk Hpre Hsep.
  - simpl. replace i with st by lia. reflexivity.
  - cbn [Nat.add hlist]. destruct (cov i) eqn:E.
    + rewrite IH; [|lia| |].
      * destruct k; simpl; [|reflexivity]. replace (st - 1) with i by lia. rewrite E. reflexivity.
      * intros j H1 H2. apply Hpre; lia.
      * destruct Hsep as [H|H]; [left; exact H|right]. intros _. apply H. congruence.
    + assert (forall j, i <= j < st -> cov j = false) as Hall.
      { assert (forall d : nat, (i + Z.of_nat d < st) -> cov (i + Z.of_nat d) = false) as G.
        { induction d as [|d IHd]; intro Hd; [replace (i + Z.of_nat 0) with i by lia; exact E|].
          replace (i + Z.of_nat (S d)) with (i + Z.of_nat d + 1) by lia. apply Hpre; try lia; apply IHd; lia. }
        intros j Hj. replace j with (i + Z.of_nat (Z.to_nat (j - i))) by lia. apply G. lia. }
      destruct Hsep as [Hsep|Hsep]; [|rewrite Hall in Hsep by lia; discriminate Hsep; congruence].
      rewrite (Hall (st - 1)) by lia. simpl orb. cbv iota. rewrite Z.max_r by lia.
      clear IH Hpre E.
      assert (forall k i, i + Z.of_nat k = st -> (forall j, i <= j < st -> cov j = false) ->
                hlist cov sep st (k + n) i (Some st) = hlist cov sep st n st (Some st)) as G.
      { clear k i Hk Hall. induction k as [|k IH]; intros i Hk Hall; [simpl; replace i with st by lia; reflexivity|].
        cbn [Nat.add hlist]. rewrite Hsep, Hall by lia. simpl. apply IH; [lia|]. intros; apply Hall; lia. }
      apply G; [lia|]. intros; apply Hall; lia.
Qed.

Lemma first_pos_spec v keep : forall is d,
  (exists a i b, is = a ++ i :: b /\ existsb keep (v i) = true /\ first_pos v keep is d = i
      /\ forall j, In j a -> existsb keep (v j) = false)
  \/ (first_pos v keep is d = d /\ forall j, In j is -> existsb keep (v j) = false).
Proof.
  induction is as [|i is IH]; intro d; simpl.
  - right. split; [reflexivity | intros j []].
  - destruct (existsb keep (v i)) eqn:E.
    + left. exists [], i, is. repeat split; auto. intros j [].
    + destruct (IH d) as [(a & i' & b & -> & H1 & H2 & H3)|[H1 H2]].
      * left. exists (i :: a), i', b. repeat split; auto. intros j [<-|Hj]; auto.
      * right. split; [exact H1|]. intros j [<-|Hj]; auto.
Qed.

Lemma zrange_split_inv a b x i y : zrange a b = x ++ i :: y -> x = zrange a i /\ y = zrange (i + 1) b /\ a <= i < b.
Proof.
  intro H. assert (a <= i < b) as Hi. { apply in_zrange. rewrite H. apply in_or_app; right; left; reflexivity. }
  rewrite (@zrange_app a i b) in H by lia. rewrite (@zrange_cons i b) in H by lia.
  assert (length x = length (zrange a i)) as Hl.
  { assert (NoDup (zrange a b)) as Hnd by apply NoDup_zrange.
    rewrite (@zrange_app a i b) in Hnd by lia. rewrite (@zrange_cons i b) in Hnd by lia.
    destruct (Nat.lt_trichotomy (length x) (length (zrange a i))) as [Hlt|[He|Hlt]]; [|exact He|]; exfalso.
    - assert (nth_error (x ++ i :: y) (length x) = Some i) as E by (rewrite nth_error_app2, Nat.sub_diag by lia; reflexivity).
      rewrite <- H in E. rewrite nth_error_app1 in E by lia. apply nth_error_In in E. apply in_zrange in E. lia.
    - assert (nth_error (zrange a i ++ i :: zrange (i + 1) b) (length (zrange a i)) = Some i) as E
        by (rewrite nth_error_app2, Nat.sub_diag by lia; reflexivity).
      rewrite H in E. rewrite H in Hnd. rewrite nth_error_app1 in E by lia.
      apply nth_error_In in E. apply NoDup_remove_2 in Hnd. apply Hnd. apply in_or_app; left; exact E. }
  assert (forall (u w : list Z), firstn (length u) (u ++ w) = u) as F.
  { intros u w. rewrite firstn_app, Nat.sub_diag, firstn_all, firstn_O, app_nil_r. reflexivity. }
  assert (x = zrange a i) as ->.
  { rewrite <- (F x (i :: y)), <- H, Hl. apply F. }
  apply app_inv_head in H. injection H as <-. auto.
Qed.

Lemma hlist_ext cov cov' sep st n : (forall i, cov i = cov' i) -> forall i o, hlist cov sep st n i o = hlist cov' sep st n i o.
Proof.
  intro H. induction n as [|n IH]; intros i o; cbn [hlist]; [reflexivity|].
  rewrite H. destruct o; rewrite !IH; reflexivity.
Qed.

Section HolesSem.
  Variable c : coll.
  Hypothesis HI : Inv no_ghost c.
  Let del := c_del c.
  Variables (keep : mtch -> bool) (seps : option pstr).
  Hypothesis Hk : agrees c keep.
  (** kept members are not empty *)
  Hypothesis Hne : forall m, In m del -> keep m = true -> m_start m < m_end m.

  Definition kept_at (i : Z) : bool := existsb (fun m => coversb i m && keep m) del.

  Lemma holes_sem st en : 0 <= st -> st <= range_end c en -> holes_bad (c_input c) seps = false ->
    (forall s0 sr, seps = Some (s0 :: sr) ->
       (forall str, c_input c = Some str -> range_end c en <= zlen str)
       /\ (st = 0 \/ kept_at (st - 1) = true)) ->
    let e := range_end c en in
    let sep := hole_sep (c_input c) seps in
    exists l, hole_list kept_at sep st e l
      /\ holes_ans c st en keep seps
         = Ok (if (0 <? st) && negb (kept_at (st - 1)) && ((st =? e) || kept_at st) then (st, st) :: l else l).
  Proof.
    intros Hst He Hbad Hseps e sep.
    set (ls := first_pos (vstart c) keep (rev (zrange 0 st)) 0).
    assert (forall i, existsb keep (vstart c i) = existsb (fun m => (m_start m =? i) && keep m) del) as Hvs
      by (intro; apply started_vstart; assumption).
    (* no kept match starts strictly between ls and st *)
    assert (0 <= ls <= st /\ (0 < st -> ls < st)
            /\ forall m, In m del -> keep m = true -> ls < m_start m -> m_start m < st -> False) as (Hls & Hls' & Hno).
    { subst ls. destruct (first_pos_spec (vstart c) keep (rev (zrange 0 st)) 0) as [(a & i & b & E & H1 & -> & H3)|[-> H2]].
      - apply (f_equal (@rev Z)) in E. rewrite rev_involutive, rev_app_distr in E. simpl in E. rewrite <- app_assoc in E. simpl in E.
        apply zrange_split_inv in E as (_ & E & Hi). split; [lia|]. split; [lia|].
        intros m Hm Hkm Hlt Hlt2.
        assert (In (m_start m) a) as Hin by (apply in_rev; rewrite E; apply in_zrange; lia).
        apply H3 in Hin. rewrite Hvs in Hin. rewrite existsb_false_iff in Hin. specialize (Hin m Hm).
        rewrite Z.eqb_refl, Hkm in Hin. discriminate.
      - split; [lia|]. split; [lia|]. intros m Hm Hkm Hlt Hlt2.
        assert (In (m_start m) (rev (zrange 0 st))) as Hin by (apply -> in_rev; apply in_zrange; lia).
        apply H2 in Hin. rewrite Hvs in Hin. rewrite existsb_false_iff in Hin. specialize (Hin m Hm).
        rewrite Z.eqb_refl, Hkm in Hin. discriminate. }
    assert (forall j, ls <= j -> j < st - 1 -> kept_at j = false -> kept_at (j + 1) = false) as Hpre.
    { intros j H1 H2 H3. apply existsb_false_iff. intros m Hm. destruct (coversb (j + 1) m && keep m) eqn:E; [|reflexivity].
      exfalso. apply andb_true_iff in E as [E1 E2]. unfold kept_at in H3. rewrite existsb_false_iff in H3.
      specialize (H3 m Hm). rewrite E2, andb_true_r in H3. unfold coversb in *.
      apply (Hno m Hm E2); lia. }
    set (k := Z.to_nat (st - ls)). set (n := Z.to_nat (e - st)).
    assert (ls + Z.of_nat (k + n) = e) as Hkn by (subst k n e; lia).
    unfold holes_ans. rewrite Hbad. fold e. fold ls.
    assert (forall i, existsb keep (vat c i) = kept_at i) as Hcov by (intro; apply covered_vat; assumption).
    destruct (@holes_pure_hlist (fun i => existsb keep (vat c i)) (c_input c) seps st (k + n) ls [] None st)
      as (ret & open & last & E1 & E2 & E3 & E4).
    { intros s0 sr Es str Ei. destruct (Hseps s0 sr Es) as [Hl _]. specialize (Hl str Ei). subst e. lia. }
    rewrite Hkn in *. rewrite E1. simpl in E2.
    assert (holes_fin c keep e (Ok (ret, open, last)) = Ok (rev ret ++ opt_close open e)) as ->.
    { unfold holes_fin. destruct open as [h|]; simpl; [|rewrite app_nil_r; reflexivity].
      destruct (Nat.eq_dec (k + n) 0) as [Hz|Hz]; [specialize (E4 Hz); discriminate|].
      destruct (E3 Hz) as [El Ec]. specialize (Ec ltac:(discriminate)). rewrite Hcov in Ec.
      assert (e <= max_end c) as Hem by (subst e; unfold range_end; destruct en; lia).
      assert (e <= first_pos (vstart c) keep (zrange last (max_end c)) (max_end c)) as Hfp.
      { destruct (first_pos_spec (vstart c) keep (zrange last (max_end c)) (max_end c)) as [(a & i & b & E & H1 & -> & H3)|[-> H2]]; [|lia].
        apply zrange_split_inv in E as (_ & _ & Hi). rewrite Hvs in H1. apply existsb_exists in H1 as (m & Hm & Hmk).
        apply andb_true_iff in Hmk as [Hm1 Hm2]. destruct (Z.eq_dec i last) as [->|]; [|lia]. exfalso.
        unfold kept_at in Ec. rewrite existsb_false_iff in Ec. specialize (Ec m Hm). rewrite Hm2, andb_true_r in Ec.
        specialize (Hne Hm Hm2). unfold coversb in Ec. lia. }
      rewrite Z.min_r by lia. reflexivity. }
    rewrite E2. fold sep.
    assert (hlist (fun i => existsb keep (vat c i)) sep st (k + n) ls None = hlist kept_at sep st (k + n) ls None) as ->.
    { apply hlist_ext. exact Hcov. }
    rewrite hlist_before; [|subst k; lia|exact Hpre|].
    - exists (hlist kept_at sep st n st None). split; [apply hlist_holes; exact He|]. f_equal.
      assert ((match k with O => true | _ => false end) = negb (0 <? st)) as ->.
      { subst k. destruct (Z.ltb_spec 0 st) as [H|H].
        - specialize (Hls' H). destruct (Z.to_nat (st - ls)) eqn:E; [lia | reflexivity].
        - replace (Z.to_nat (st - ls)) with O by lia. reflexivity. }
      destruct (0 <? st) eqn:E0; simpl; [|reflexivity].
      destruct (kept_at (st - 1)) eqn:Ecov; simpl; [reflexivity|].
      destruct (Z.eqb_spec st e) as [Ee|Ene].
      + subst n. replace (Z.to_nat (e - st)) with O by lia. simpl. reflexivity.
      + simpl. destruct n as [|n'] eqn:En; [subst n; lia|]. cbn [hlist].
        destruct (kept_at st) eqn:Ecs.
        * rewrite orb_true_r. reflexivity.
        * rewrite orb_false_r. rewrite Z.max_id.
          assert (sep st = false) as ->; [|reflexivity].
          subst sep. unfold hole_sep. destruct seps as [[|s0 sr]|]; [reflexivity| |reflexivity].
          destruct (Hseps s0 sr eq_refl) as [_ [H|H]]; [lia | congruence].
    - subst sep. destruct seps as [[|s0 sr]|] eqn:Es; [left; intro; reflexivity| |left; intro; reflexivity].
      destruct (Hseps s0 sr eq_refl) as [_ [H|H]]; right; [|intros _; exact H].
      intro Hk0. subst k. lia.
  Qed.
End HolesSem.
