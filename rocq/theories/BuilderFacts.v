(** * Facts about the builder: what a built pattern receives (used by PropsBuilder) *)
From Verif Require Import Base BaseFacts Loose Builder.
From Coq Require String.
Export Coq.Strings.String.StringSyntax.
Open Scope string_scope.
Open Scope list_scope.
Set Implicit Arguments.
Unset Strict Implicit.

(** ** C51: specification *)
(** what an option is: a value, or a dictionary seen as what it gives for each name *)
Inductive view := One (v : pyval) | Many (get : option pstr -> option pyval).
Definition seen (h : heap) (o : option bval) : option view :=
  match o with
  | None => None
  | Some (BVal v) => Some (One v)
  | Some (BDict a) => Some (Many (dfind (h_cell h a)))
  end.
Definition agree (a b : option view) : Prop :=
  match a, b with
  | None, None => True
  | Some (One v), Some (One w) => v = w
  | Some (Many f), Some (Many g) => forall n, f n = g n
  | _, _ => False
  end.
(** the strong value wins; two lists are concatenated, the weak one first *)
Definition win_value (strong weak : pyval) : pyval :=
  match strong, weak with VList l, VList l' => VList (l' ++ l) | _, _ => strong end.
(** an option given on one side is that one; two dictionaries are merged name by name *)
Definition win (strong weak : option view) : option view :=
  match strong, weak with
  | None, w => w
  | Some (One v), Some (One w) => Some (One (win_value v w))
  | Some (Many f), Some (Many g) => Some (Many (fun n => match f n, g n with Some v, Some w => Some (win_value v w) | Some v, None => Some v | None, x => x end))
  | x, _ => x
  end.
(** the option dictionaries named by the sources are different objects, one per source and option *)
Definition separate (sources : list opts) : Prop :=
  forall i j d d' k k' a, nth_error sources i = Some d -> nth_error sources j = Some d' ->
    dfind d k = Some (BDict a) -> dfind d' k' = Some (BDict a) -> i = j /\ k = k'.
Definition proper_heap (h : heap) : Prop := forall a, NoDup (dkeys (h_cell h a)).
(** dictionaries; "clear" is not used inside an option dictionary *)
Record proper_source (h : heap) (d : opts) : Prop := {
  ps_dict : NoDup (dkeys d);
  ps_alloc : forall k a, dfind d k = Some (BDict a) -> (a < h_next h)%nat;
  ps_clear : forall k a, dfind d k = Some (BDict a) -> dfind (h_cell h a) (Some k_clear) = None
}.
Definition named_in (kw : opts) (k : pstr) : Prop :=
  (exists names, dfind kw k_overrides = Some (BVal (VList names)) /\ In (VStr k) names)
  \/ (exists t c, dfind kw k_overrides = Some (BVal (VStr t)) /\ In c t /\ k = [c]).
Definition no_overrides (kw : opts) : Prop := dfind kw k_overrides = None.

(** ** Proofs *)
Lemma merge_cell_find : forall src dst n, NoDup (dkeys src) ->
  dfind (merge_cell src dst) n = match dfind dst n, dfind src n with Some v, Some w => Some (win_value v w) | Some v, None => Some v | None, x => x end.
Proof.
  induction src as [|[k w] src IH]; intros dst n ND; unfold merge_cell; cbn [fold_left fst snd dfind].
  - destruct (dfind dst n); reflexivity.
  - inversion ND as [|? ? Hk ND']; subst. change (fold_left _ src ?d) with (merge_cell src d). rewrite IH by exact ND'.
    destruct (eqb n k) eqn:E.
    + apply eqb_eq in E. subst n. apply dfind_None in Hk. rewrite Hk.
      destruct (dfind dst k) as [v|] eqn:Ed; rewrite dfind_dset; rewrite (proj2 (eqb_eq k k) eq_refl); [|reflexivity].
      f_equal. unfold merge_value, win_value. destruct w, v; reflexivity.
    + destruct (dfind dst k) as [v|] eqn:Ed; rewrite dfind_dset, E; reflexivity.
Qed.
Lemma merge_cell_NoDup : forall src dst, NoDup (dkeys dst) -> NoDup (dkeys (merge_cell src dst)).
Proof. induction src as [|[k w] src IH]; intros dst H; simpl; [exact H|]. apply IH. destruct (dfind dst k); apply NoDup_dkeys_dset, H. Qed.
Lemma set_defaults_cell_plain h a b : dfind (h_cell h a) (Some k_clear) = None -> set_defaults_cell h a b = hset h b (merge_cell (h_cell h a) (h_cell h b)).
Proof. intro H. unfold set_defaults_cell. rewrite H. reflexivity. Qed.

Lemma agree_refl a : agree a a. Proof. destruct a as [[v|f]|]; simpl; auto. Qed.
Lemma agree_trans a b c : agree a b -> agree b c -> agree a c.
Proof. destruct a as [[v|f]|], b as [[w|g]|], c as [[x|i]|]; simpl; try contradiction; auto; [congruence|]. intros H H' n. now rewrite H, H'. Qed.
Lemma win_agree a a' b b' : agree a a' -> agree b b' -> agree (win a b) (win a' b').
Proof.
  destruct a as [[v|f]|], a' as [[v'|f']|]; simpl; try contradiction; intro H; destruct b as [[w|g]|], b' as [[w'|g']|]; simpl; try contradiction; intro H'; subst; auto.
  intro n. rewrite H, H'. reflexivity.
Qed.

(** the loop of [set_defaults], without override *)
Lemma defaults_loop : forall (D : opts) h kw h' kw', NoDup (dkeys D) -> proper_heap h ->
  (forall k a, dfind D k = Some (BDict a) -> dfind (h_cell h a) (Some k_clear) = None) ->
  (forall k k' a, dfind kw k = Some (BDict a) -> dfind kw k' = Some (BDict a) -> k = k') ->
  (forall k k' a, dfind D k = Some (BDict a) -> dfind kw k' = Some (BDict a) -> False) ->
  (forall k k' a, dfind D k = Some (BDict a) -> dfind D k' = Some (BDict a) -> k = k') ->
  fold_left (set_default false) D (h, kw) = (h', kw') ->
  (forall k, agree (seen h' (dfind kw' k)) (win (seen h (dfind kw k)) (seen h (dfind D k))))
  /\ (forall x, (forall k, dfind kw k = Some (BDict x) -> dfind D k = None) -> h_cell h' x = h_cell h x)
  /\ h_next h' = h_next h /\ proper_heap h'
  /\ (forall k a, dfind kw' k = Some (BDict a) -> dfind kw k = Some (BDict a) \/ (dfind kw k = None /\ dfind D k = Some (BDict a)))
  /\ (NoDup (dkeys kw) -> NoDup (dkeys kw')).
Proof.
  induction D as [|[k0 v0] D IH]; intros h kw h' kw' ND PH HC HK HX HI EF.
  - simpl in EF. injection EF as <- <-. split; [intro k; destruct (seen h (dfind kw k)) as [[|]|]; simpl; auto|]. split; [auto|]. split; [auto|]. split; [exact PH|]. split; [auto|auto].
  - inversion ND as [|? ? Hk0 ND']; subst. cbn [fold_left] in EF.
    assert (DN : dfind D k0 = None) by (apply dfind_None, Hk0).
    assert (KK : eqb k0 k0 = true) by (apply eqb_eq; reflexivity).
    (* lookups in the tail *)
    assert (T : forall k x, dfind D k = Some x -> dfind ((k0, v0) :: D) k = Some x /\ k <> k0).
    { intros k x H. assert (k <> k0) by (intro; subst; congruence). split; [|assumption]. cbn [dfind]. destruct (eqb k k0) eqn:E; [apply eqb_eq in E; contradiction|exact H]. }
    assert (T0 : dfind ((k0, v0) :: D) k0 = Some v0) by (cbn [dfind]; now rewrite KK).
    (* one step: a heap changed at one cell of [kw], or the keywords changed at [k0] *)
    set (st := set_default false (h, kw) (k0, v0)).
    assert (exists h1 kw1, st = (h1, kw1)
       /\ (forall k, k <> k0 -> dfind kw1 k = dfind kw k)
       /\ agree (seen h1 (dfind kw1 k0)) (win (seen h (dfind kw k0)) (Some (match v0 with BVal v => One v | BDict a => Many (dfind (h_cell h a)) end)))
       /\ (forall x, dfind kw k0 <> Some (BDict x) -> h_cell h1 x = h_cell h x)
       /\ h_next h1 = h_next h /\ proper_heap h1
       /\ (forall a, dfind kw1 k0 = Some (BDict a) -> dfind kw k0 = Some (BDict a) \/ (dfind kw k0 = None /\ v0 = BDict a))
       /\ (NoDup (dkeys kw) -> NoDup (dkeys kw1))) as (h1 & kw1 & Est & S1 & S2 & S3 & S4 & S5 & S6 & S7).
    { unfold st, set_default. cbn [fst snd]. destruct (dfind kw k0) as [own|] eqn:Eo.
      - assert (M : dmem kw k0 = true) by (unfold dmem; rewrite Eo; reflexivity).
        assert (Same : forall w, agree (Some (One w)) (Some (One w))) by (intro; reflexivity).
        destruct v0 as [v|a], own as [w|b].
        + assert (forall x, x = (h, dset kw k0 (BVal (win_value w v))) \/ (x = (h, kw) /\ win_value w v = w) -> exists h1 kw1, x = (h1, kw1)
             /\ (forall k, k <> k0 -> dfind kw1 k = dfind kw k) /\ agree (seen h1 (dfind kw1 k0)) (win (seen h (Some (BVal w))) (Some (One v)))
             /\ (forall x, Some (BVal w) <> Some (BDict x) -> h_cell h1 x = h_cell h x) /\ h_next h1 = h_next h /\ proper_heap h1
             /\ (forall a, dfind kw1 k0 = Some (BDict a) -> Some (BVal w) = Some (BDict a) \/ (Some (BVal w) = None /\ BVal v = BDict a))
             /\ (NoDup (dkeys kw) -> NoDup (dkeys kw1))) as Fin.
          { intros x [->|[-> Ew]]; eexists _, _; (split; [reflexivity|]).
            - split; [intros k Hk; rewrite dfind_dset; destruct (eqb k k0) eqn:E; [apply eqb_eq in E; contradiction|reflexivity]|].
              split; [rewrite dfind_dset, KK; reflexivity|]. split; [auto|]. split; [auto|]. split; [exact PH|].
              split; [intro a; rewrite dfind_dset, KK; discriminate|apply NoDup_dkeys_dset].
            - split; [auto|]. split; [rewrite Eo; simpl; congruence|]. split; [auto|]. split; [auto|]. split; [exact PH|].
              split; [intro a; rewrite Eo; discriminate|auto]. }
          destruct v; destruct w; cbn [negb orb];
            try (rewrite M; cbn [negb orb]; apply Fin; right; split; reflexivity).
          assert (dmem (dset kw k0 (BVal (VList (l ++ l0)))) k0 = true) as -> by (unfold dmem; rewrite dfind_dset, KK; reflexivity).
          cbn [negb orb]. apply Fin. left. reflexivity.
        + assert (forall v, (let '(h1, kw1) := (h, kw) in if negb (dmem kw1 k0) || false then (h1, dset kw1 k0 (BVal v)) else (h1, kw1)) = (h, kw)) as E by (intro; rewrite M; reflexivity).
          destruct v; rewrite E; eexists _, _; (split; [reflexivity|]); (split; [auto|]); (split; [rewrite Eo; simpl; auto|]); (split; [auto|]); (split; [auto|]);
            (split; [exact PH|]); (split; [intro a; rewrite Eo; auto|auto]).
        + rewrite M. cbn [negb orb]. eexists _, _; (split; [reflexivity|]); (split; [auto|]); (split; [rewrite Eo; simpl; auto|]); (split; [auto|]); (split; [auto|]);
            (split; [exact PH|]); (split; [intro a0; rewrite Eo; discriminate|auto]).
        + rewrite M. cbn [negb orb]. rewrite set_defaults_cell_plain by (eapply HC; exact T0).
          eexists _, _; (split; [reflexivity|]); (split; [auto|]). split.
          { rewrite Eo. simpl. rewrite Nat.eqb_refl. intro n. rewrite merge_cell_find by apply PH. reflexivity. }
          split; [intros x Hx; simpl; destruct (Nat.eqb x b) eqn:E; [apply Nat.eqb_eq in E; subst; congruence|reflexivity]|].
          split; [reflexivity|]. split; [|split; [intro a0; rewrite Eo; auto|auto]].
          intro x. simpl. destruct (Nat.eqb x b); [apply merge_cell_NoDup, PH|apply PH].
      - assert (dmem kw k0 = false) as -> by (unfold dmem; rewrite Eo; reflexivity). cbn [negb orb].
        eexists _, _; split; [reflexivity|]. split; [intros k Hk; rewrite dfind_dset; destruct (eqb k k0) eqn:E; [apply eqb_eq in E; contradiction|reflexivity]|].
        split; [rewrite dfind_dset, KK; simpl; destruct v0; simpl; auto|]. split; [auto|]. split; [auto|]. split; [exact PH|].
        split; [intro a; rewrite dfind_dset, KK; intro H; injection H as ->; auto|apply NoDup_dkeys_dset]. }
    fold st in EF. rewrite Est in EF. clear Est st.
    specialize (IH h1 kw1 h' kw' ND' S5).
    assert (NotK : forall k a, dfind ((k0, v0) :: D) k = Some (BDict a) -> dfind kw k0 <> Some (BDict a)) by (intros k a H H'; eapply HX; eassumption).
    assert (A1 : forall k a, dfind D k = Some (BDict a) -> dfind (h_cell h1 a) (Some k_clear) = None).
    { intros k a H. destruct (T k _ H) as [H' _]. rewrite S3 by (eapply NotK; exact H'). eapply HC; exact H'. }
    assert (A2 : forall k k' a, dfind kw1 k = Some (BDict a) -> dfind kw1 k' = Some (BDict a) -> k = k').
    { assert (forall k a, dfind kw1 k = Some (BDict a) -> dfind kw k = Some (BDict a) \/ (k = k0 /\ dfind ((k0, v0) :: D) k0 = Some (BDict a))) as O.
      { intros k a H. destruct (eqb k k0) eqn:E; [apply eqb_eq in E; subst|].
        - destruct (S6 a H) as [X|[_ ->]]; [auto|right; split; [reflexivity|exact T0]].
        - left. rewrite <- S1; [exact H|]. intro; subst; congruence. }
      intros k k' a H H'. destruct (O k a H) as [X|[-> X]], (O k' a H') as [Y|[-> Y]]; auto; [eapply HK; eassumption|exfalso; eapply HX; eassumption|exfalso; eapply HX; eassumption]. }
    assert (A3 : forall k k' a, dfind D k = Some (BDict a) -> dfind kw1 k' = Some (BDict a) -> False).
    { intros k k' a H H'. destruct (T k _ H) as [HT Nk]. destruct (eqb k' k0) eqn:E; [apply eqb_eq in E; subst|].
      - destruct (S6 a H') as [X|[_ ->]]; [eapply HX; eassumption|]. apply Nk. eapply HI; [exact HT|exact T0].
      - eapply HX; [exact HT|]. rewrite <- S1; [exact H'|]. intro; subst; congruence. }
    assert (A4 : forall k k' a, dfind D k = Some (BDict a) -> dfind D k' = Some (BDict a) -> k = k').
    { intros k k' a H H'. eapply HI; [apply T; exact H|apply T; exact H']. }
    destruct (IH A1 A2 A3 A4 EF) as (I1 & I2 & I3 & I4 & I5 & I6).
    split; [|split; [|split; [congruence|split; [exact I4|split; [|auto]]]]].
    + intro k. eapply agree_trans; [apply I1|]. destruct (eqb k k0) eqn:E.
      * apply eqb_eq in E. subst k. rewrite DN. simpl seen at 2. cbn [dfind]. rewrite KK.
        eapply agree_trans; [|eapply agree_trans; [exact S2|]].
        -- destruct (seen h1 (dfind kw1 k0)) as [[|]|]; simpl; auto.
        -- destruct v0; apply agree_refl.
      * assert (k <> k0) as Nk by (intro; subst; congruence). rewrite S1 by exact Nk. cbn [dfind]. rewrite E. apply win_agree.
        -- destruct (dfind kw k) as [[v|b]|] eqn:Ek; simpl; auto. intro n. rewrite S3; [reflexivity|]. intro X. apply Nk. eapply HK; eassumption.
        -- destruct (dfind D k) as [[v|b]|] eqn:Ek; simpl; auto. intro n. rewrite S3; [reflexivity|]. destruct (T k _ Ek) as [X _]. eapply NotK; exact X.
    + intros x Hx. rewrite I2; [apply S3; intro X; specialize (Hx k0 X); congruence|]. intros k X. destruct (eqb k k0) eqn:E; [apply eqb_eq in E; subst; exact DN|].
      assert (k <> k0) as Nk by (intro; subst; congruence). rewrite S1 in X by exact Nk. specialize (Hx k X). cbn [dfind] in Hx. rewrite E in Hx. exact Hx.
    + intros k a H. destruct (I5 k a H) as [X|[X Y]].
      * destruct (eqb k k0) eqn:E; [apply eqb_eq in E; subst|].
        -- destruct (S6 a X) as [Z|[Z ->]]; [auto|right; split; [exact Z|exact T0]].
        -- left. rewrite <- S1; [exact X|]. intro; subst; congruence.
      * destruct (T k _ Y) as [Z Nk]. right. split; [|exact Z]. rewrite <- S1; [exact X|exact Nk].
Qed.

Lemma dpop_absent {V} (d : dict pstr V) k : dfind d k = None -> dpop d k = d.
Proof.
  induction d as [|[k' v] d IH]; cbn [dpop dfind]; [reflexivity|]. destruct (eqb k k') eqn:E; [discriminate|]. intro H. f_equal. apply IH, H.
Qed.
Lemma set_defaults_plain h (D kw : opts) : dfind D k_clear = None ->
  set_defaults false h D kw = (let '(h', kw') := fold_left (set_default false) D (h, kw) in (h', D, kw')).
Proof. intro H. unfold set_defaults. rewrite H, dpop_absent by exact H. destruct (fold_left _ _ _); reflexivity. Qed.

Lemma update_find : forall (new kw : opts) k, NoDup (dkeys new) -> dfind (update kw new) k = match dfind new k with Some v => Some v | None => dfind kw k end.
Proof.
  induction new as [|[k0 v] new IH]; intros kw k ND; unfold update; cbn [fold_left fst snd dfind]; [reflexivity|].
  inversion ND as [|? ? H ND']; subst. change (fold_left _ new ?d) with (update d new). rewrite IH by exact ND'. rewrite dfind_dset. destruct (eqb k k0) eqn:E; [|reflexivity].
  apply eqb_eq in E. subst. apply dfind_None in H. now rewrite H.
Qed.
Lemma backup_spec : forall names (kw acc b : opts), backup_of kw names acc = Ok b ->
  (NoDup (dkeys acc) -> NoDup (dkeys b))
  /\ (forall k, In (VStr k) names -> dfind b k = dfind kw k /\ dfind kw k <> None)
  /\ (forall k, ~ In (VStr k) names -> dfind b k = dfind acc k).
Proof.
  assert (forall names (kw acc b : opts), backup_of kw names acc = Ok b -> forall k, dfind b k = dfind kw k \/ dfind b k = dfind acc k) as W.
  { induction names as [|x names IH]; intros kw acc b E k; simpl in E; [injection E as <-; auto|]. destruct x; try discriminate.
    destruct (dfind kw v) as [w|] eqn:Ew; [|discriminate]. destruct (IH _ _ _ E k) as [H|H]; [auto|]. rewrite dfind_dset in H. destruct (eqb k v) eqn:Ek; [|auto].
    apply eqb_eq in Ek. subst. left. congruence. }
  induction names as [|x names IH]; intros kw acc b E; simpl in E.
  - injection E as <-. split; [auto|]. split; [intros k []|auto].
  - destruct x as [| | |n| |]; try discriminate. destruct (dfind kw n) as [w|] eqn:Ew; [|discriminate]. destruct (IH _ _ _ E) as (I1 & I2 & I3).
    split; [intro H; apply I1, NoDup_dkeys_dset, H|]. split.
    + intros k [H|H]; [|apply I2, H]. injection H as ->. split; [|congruence]. destruct (W _ _ _ _ E k) as [X|X]; [exact X|]. rewrite dfind_dset in X.
      rewrite (proj2 (eqb_eq k k) eq_refl) in X. congruence.
    + intros k H. rewrite I3 by (intro X; apply H; right; exact X). rewrite dfind_dset. destruct (eqb k n) eqn:Ek; [|reflexivity]. apply eqb_eq in Ek. subst. destruct H. left. reflexivity.
Qed.
Lemma halloc_frame h c x : (x < h_next h)%nat -> h_cell (fst (halloc h c)) x = h_cell h x.
Proof. intro H. simpl. destruct (Nat.eqb x (h_next h)) eqn:E; [apply Nat.eqb_eq in E; lia|reflexivity]. Qed.
Lemma formatters_frame h kw h' a lib : pattern_formatters h kw = (h', a, lib) ->
  (forall x, (x < h_next h)%nat -> h_cell h' x = h_cell h x) /\ (h_next h <= h_next h')%nat.
Proof.
  unfold pattern_formatters. intro E.
  assert (forall c l, (halloc h c, l) = (h', a, lib) -> (forall x, (x < h_next h)%nat -> h_cell h' x = h_cell h x) /\ (h_next h <= h_next h')%nat) as A.
  { intros c l X. injection X as <- _ _. split; [intros x Hx; apply (halloc_frame c Hx)|simpl; lia]. }
  destruct (dfind kw k_formatter) as [[v|b]|]; [destruct (truthy v); eapply A; exact E| |eapply A; exact E].
  destruct (h_cell h b); [eapply A; exact E|]. injection E as <- _ _. auto.
Qed.
Lemma inherit_frame h keys p h' p' : inherit_keys h keys p = (h', p') ->
  (forall x, (x < h_next h)%nat -> h_cell h' x = h_cell h x) /\ (h_next h <= h_next h')%nat /\ bp_opts p' = bp_opts p /\ bp_library p' = bp_library p.
Proof.
  unfold inherit_keys. destruct keys; [intro E; injection E as <- <-; auto|]. destruct (negb (bp_library p)); [intro E; injection E as <- <-; auto|].
  destruct (flat_map _ _); [intro E; injection E as <- <-; auto|]. unfold halloc. intro E. injection E as <- <-. split; [|simpl; auto].
  intros x Hx. simpl. destruct (Nat.eqb x (h_next h)) eqn:E; [apply Nat.eqb_eq in E; lia|reflexivity].
Qed.
Lemma named_in_iff kw k : named_in kw k <-> exists v names, dfind kw k_overrides = Some v /\ override_names v = Some names /\ In (VStr k) names.
Proof.
  split.
  - intros [(names & E & H)|(t & c & E & H & ->)]; [exists (BVal (VList names)), names; auto|]. exists (BVal (VStr t)), (map (fun c => VStr [c]) t).
    split; [exact E|]. split; [reflexivity|]. apply in_map_iff. eauto.
  - intros (v & names & E & N & H). destruct v as [[| | |t|l|]|a]; try discriminate; injection N as <-; [right|left; eauto].
    apply in_map_iff in H as (c & X & Hc). injection X as <-. eauto.
Qed.
Lemma take_overrides_spec h kw kw0 bk : NoDup (dkeys kw) -> take_overrides h kw = Ok (kw0, bk) ->
  kw0 = dpop kw k_overrides /\ NoDup (dkeys bk)
  /\ (forall k, k <> k_overrides -> named_in kw k -> dfind bk k = dfind kw k /\ dfind kw k <> None)
  /\ (forall k, ~ named_in kw k -> dfind bk k = None).
Proof.
  intros N E. unfold take_overrides in E. destruct (dfind kw k_overrides) as [x|] eqn:Ex.
  2: { injection E as <- <-. split; [reflexivity|]. split; [constructor|]. split; [intros k _ H; apply named_in_iff in H as (v & ns & X & _); congruence|reflexivity]. }
  destruct (override_names x) as [names|] eqn:En.
  - destruct (backup_of _ names []) as [b|] eqn:Eb; [|discriminate]. injection E as <- <-. destruct (backup_spec Eb) as (B1 & B2 & B3).
    split; [reflexivity|]. split; [apply B1; constructor|]. split.
    + intros k Hk H. apply named_in_iff in H as (v & ns & X & Y & Hin). rewrite Ex in X. injection X as <-. rewrite En in Y. injection Y as <-.
      destruct (B2 k Hin) as [X1 X2]. rewrite dfind_dpop in X1, X2 by exact N.
      destruct (eqb k k_overrides) eqn:E1; [apply eqb_eq in E1; contradiction|]. auto.
    + intros k Nk. apply B3. intro Hin. apply Nk, named_in_iff. exists x, names. auto.
  - destruct (btruthy h x); [discriminate|]. injection E as <- <-. split; [reflexivity|]. split; [constructor|].
    split; [intros k _ H; apply named_in_iff in H as (v & ns & X & Y & _); congruence|reflexivity].
Qed.
Lemma named_in_dec kw k : named_in kw k \/ ~ named_in kw k.
Proof.
  rewrite named_in_iff. destruct (dfind kw k_overrides) as [v|]; [|right; intros (v & ns & X & _); discriminate].
  destruct (override_names v) as [l|] eqn:El; [|right; intros (w & ns & X & Y & _); congruence].
  assert (In (VStr k) l \/ ~ In (VStr k) l) as [H|H]; [|left; exists v, l; auto|right; intros (w & ns & X & Y & Z); injection X as <-; rewrite El in Y; injection Y as <-; auto].
  clear El. induction l as [|y l IH]; [right; intros []|]. destruct IH as [H|H]; [left; right; exact H|].
  destruct y as [| | |z| |]; try (right; intros [X|X]; [discriminate|contradiction]).
  destruct (pstr_eqb z k) eqn:Ez; [apply pstr_eqb_eq in Ez; subst; left; left; reflexivity|].
  right. intros [X|X]; [injection X as ->; rewrite pstr_eqb_refl in Ez; discriminate|contradiction].
Qed.

(** ** C51: theorems *)
(** A builder whose defaults are proper: "clear" is never stored (C51_defaults_history) *)
Record proper_build (h : heap) (f : factory) (kd : pkind) (kw : opts) : Prop := {
  pb_heap : proper_heap h;
  pb_call : proper_source h kw;
  pb_kind : proper_source h (f_defaults f (GKind kd));
  pb_all : proper_source h (f_defaults f GAll);
  pb_clear : dfind (f_defaults f (GKind kd)) k_clear = None /\ dfind (f_defaults f GAll) k_clear = None;
  pb_sep : separate [kw; f_defaults f (GKind kd); f_defaults f GAll]
}.
Lemma build_spec h f kd kw h' f' p : proper_build h f kd kw -> build h f kd kw = (h', f', Ok p) ->
  (forall k, k <> k_overrides -> (named_in kw k -> exists a, dfind kw k = Some (BDict a)) ->
     agree (seen h' (dfind (bp_opts p) k))
           (win (win (seen h (dfind kw k)) (seen h (dfind (f_defaults f (GKind kd)) k))) (seen h (dfind (f_defaults f GAll) k))))
  /\ (forall k v, k <> k_overrides -> named_in kw k -> dfind kw k = Some (BVal v) -> dfind (bp_opts p) k = Some (BVal v))
  /\ (forall g, f_defaults f' g = f_defaults f g) /\ f_keys f' = f_keys f
  /\ (forall k a, dfind (f_defaults f GAll) k = Some (BDict a) -> h_cell h' a = h_cell h a)
  /\ (forall x, (x < h_next h)%nat -> (forall k, dfind kw k <> Some (BDict x)) -> (forall k, dfind (f_defaults f (GKind kd)) k <> Some (BDict x)) -> h_cell h' x = h_cell h x).
Proof.
  intros [PH PC PK PA [CK CA] SEP] E. unfold build in E.
  set (D1 := f_defaults f (GKind kd)) in *. set (D2 := f_defaults f GAll) in *.
  assert (Sep : forall i j d d' k k' a, nth_error [kw; D1; D2] i = Some d -> nth_error [kw; D1; D2] j = Some d' -> dfind d k = Some (BDict a) -> dfind d' k' = Some (BDict a) -> i = j /\ k = k') by exact SEP.
  destruct (take_overrides h kw) as [[kw0 bk]|e] eqn:Eo; [|discriminate].
  (* the keyword arguments and the backup *)
  destruct (take_overrides_spec (ps_dict PC) Eo) as (KW & B1 & B2 & B3).
  assert (K0 : forall k, k <> k_overrides -> dfind kw0 k = dfind kw k).
  { rewrite KW. intros k Hk. rewrite dfind_dpop by apply (ps_dict PC). destruct (eqb k k_overrides) eqn:Ek; [apply eqb_eq in Ek; contradiction|reflexivity]. }
  assert (K0s : forall k x, dfind kw0 k = Some x -> dfind kw k = Some x).
  { intros k x H. destruct (eqb k k_overrides) eqn:Ek; [|rewrite <- K0; [exact H|intro; subst; vm_compute in Ek; discriminate]].
    apply eqb_eq in Ek. subst k. exfalso.
    rewrite KW, dfind_dpop in H by apply (ps_dict PC). rewrite (proj2 (eqb_eq k_overrides k_overrides) eq_refl) in H. discriminate. }
  (* the two stages *)
  rewrite (@set_defaults_plain h D1 kw0 CK) in E. destruct (fold_left (set_default false) D1 (h, kw0)) as [h1 kw1] eqn:E1.
  destruct (@defaults_loop D1 h kw0 h1 kw1 (ps_dict PK) PH) as (L1 & L2 & L3 & L4 & L5 & _); [..|exact E1|].
  { intros k a H. eapply (ps_clear PK); exact H. }
  { intros k k' a H H'. apply K0s in H, H'. eapply (Sep 0%nat 0%nat); try reflexivity; eassumption. }
  { intros k k' a H H'. apply K0s in H'. destruct (Sep 1%nat 0%nat D1 kw k k' a) as [X _]; try reflexivity; try assumption. discriminate. }
  { intros k k' a H H'. eapply (Sep 1%nat 1%nat); try reflexivity; eassumption. }
  assert (G2 : f_defaults (set_group f (GKind kd) D1) GAll = D2) by reflexivity. rewrite G2 in E.
  rewrite (@set_defaults_plain h1 D2 kw1 CA) in E. destruct (fold_left (set_default false) D2 (h1, kw1)) as [h2 kw2] eqn:E2.
  assert (Fr1 : forall x, (forall k, dfind kw k <> Some (BDict x)) -> h_cell h1 x = h_cell h x) by (intros x Hx; apply L2; intros k H; apply K0s in H; destruct (Hx k H)).
  assert (All1 : forall k a, dfind D2 k = Some (BDict a) -> h_cell h1 a = h_cell h a).
  { intros k a H. apply Fr1. intros k' H'. destruct (Sep 2%nat 0%nat D2 kw k k' a) as [X _]; try reflexivity; try assumption. discriminate. }
  assert (Or1 : forall k a, dfind kw1 k = Some (BDict a) -> dfind kw k = Some (BDict a) \/ dfind D1 k = Some (BDict a)).
  { intros k a H. destruct (L5 k a H) as [X|[_ X]]; [left; apply K0s, X|auto]. }
  destruct (@defaults_loop D2 h1 kw1 h2 kw2 (ps_dict PA) L4) as (M1 & M2 & M3 & M4 & M5 & _); [..|exact E2|].
  { intros k a H. rewrite (All1 k a H). eapply (ps_clear PA); exact H. }
  { intros k k' a H H'. destruct (Or1 k a H) as [X|X], (Or1 k' a H') as [Y|Y].
    - eapply (Sep 0%nat 0%nat); try reflexivity; eassumption.
    - destruct (Sep 0%nat 1%nat kw D1 k k' a) as [Z _]; try reflexivity; try assumption. discriminate.
    - destruct (Sep 1%nat 0%nat D1 kw k k' a) as [Z _]; try reflexivity; try assumption. discriminate.
    - eapply (Sep 1%nat 1%nat); try reflexivity; eassumption. }
  { intros k k' a H H'. destruct (Or1 k' a H') as [Y|Y].
    - destruct (Sep 2%nat 0%nat D2 kw k k' a) as [Z _]; try reflexivity; try assumption. discriminate.
    - destruct (Sep 2%nat 1%nat D2 D1 k k' a) as [Z _]; try reflexivity; try assumption. discriminate. }
  { intros k k' a H H'. eapply (Sep 2%nat 2%nat); try reflexivity; eassumption. }
  (* after the two stages *)
  destruct (pattern_formatters h2 (update kw2 bk)) as [[h3 a3] lib] eqn:E3. destruct (formatters_frame E3) as [F1 F2].
  destruct (inherit_keys h3 _ _) as [h4 p4] eqn:E4. destruct (inherit_frame E4) as (I1 & I2 & I3 & _). injection E as <- <- <-. simpl in I3.
  assert (Fr : forall x, (x < h_next h)%nat -> h_cell h4 x = h_cell h2 x).
  { intros x Hx. rewrite I1 by (unfold lt in *; rewrite <- F2, M3, L3; exact Hx). apply F1. rewrite M3, L3. exact Hx. }
  assert (Alloc2 : forall k a, dfind kw2 k = Some (BDict a) -> (a < h_next h)%nat).
  { intros k a H. destruct (M5 k a H) as [X|[_ X]]; [destruct (Or1 k a X) as [Y|Y]; [eapply (ps_alloc PC)|eapply (ps_alloc PK)]; exact Y|eapply (ps_alloc PA); exact X]. }
  assert (Merged : forall k, k <> k_overrides -> agree (seen h2 (dfind kw2 k)) (win (win (seen h (dfind kw k)) (seen h (dfind D1 k))) (seen h (dfind D2 k)))).
  { intros k Hk. eapply agree_trans; [apply M1|]. apply win_agree; [rewrite <- (K0 k Hk); apply L1|].
    destruct (dfind D2 k) as [[v|a]|] eqn:Ek; simpl; auto. intro n. now rewrite (All1 k a Ek). }
  rewrite I3. split; [|split; [|split; [|split; [reflexivity|split]]]].
  - intros k Hk Hn. eapply agree_trans; [|apply Merged, Hk].
    assert (dfind (update kw2 bk) k = dfind kw2 k) as ->.
    { rewrite update_find by exact B1. destruct (dfind bk k) as [v|] eqn:Eb; [|reflexivity].
      assert (named_in kw k) as Nm.
      { destruct (named_in_dec kw k) as [Y|Y]; [exact Y|]. rewrite (B3 k Y) in Eb. discriminate. }
      destruct (Hn Nm) as (a & Ha). destruct (B2 k Hk Nm) as [X _]. rewrite Eb, Ha in X. injection X as ->.
      (* a dictionary stays the same object *)
      pose proof (Merged k Hk) as Mk. rewrite Ha in Mk. simpl in Mk.
      destruct (dfind kw2 k) as [[w|b]|] eqn:Ew.
      - exfalso. destruct (dfind D1 k) as [[|]|], (dfind D2 k) as [[|]|]; simpl in Mk; contradiction.
      - destruct (M5 k b Ew) as [X|[X Y]].
        + destruct (L5 k b X) as [Y|[Y _]]; [apply K0s in Y; congruence|rewrite K0 in Y by exact Hk; congruence].
        + exfalso. pose proof (L1 k) as Lk. rewrite X, K0, Ha in Lk by exact Hk. simpl in Lk. destruct (dfind D1 k) as [[|]|]; simpl in Lk; contradiction.
      - exfalso. destruct (dfind D1 k) as [[|]|], (dfind D2 k) as [[|]|]; simpl in Mk; contradiction. }
    destruct (dfind kw2 k) as [[w|b]|] eqn:Ew; simpl; auto. intro n. rewrite Fr; [reflexivity|]. eapply Alloc2, Ew.
  - intros k v Hk Nm Hv. rewrite update_find by exact B1. destruct (B2 k Hk Nm) as [X _]. rewrite X, Hv. reflexivity.
  - intro g. unfold set_group. simpl. destruct g as [|[]], kd; reflexivity.
  - intros k a H. rewrite Fr by (eapply (ps_alloc PA); exact H). rewrite M2.
    + eapply All1; exact H.
    + intros k' H'. exfalso. destruct (Or1 k' a H') as [Y|Y].
      * destruct (Sep 2%nat 0%nat D2 kw k k' a) as [Z _]; try reflexivity; try assumption. discriminate.
      * destruct (Sep 2%nat 1%nat D2 D1 k k' a) as [Z _]; try reflexivity; try assumption. discriminate.
  - intros x Hx X1 X2. rewrite Fr by exact Hx. rewrite M2; [apply Fr1, X1|]. intros k H. exfalso. destruct (Or1 k x H) as [Y|Y]; [destruct (X1 k Y)|destruct (X2 k Y)].
Qed.
