(** * Properties C51, C52 and C62: options, defaults and declared keys *)
From Verif Require Import Base BaseFacts Loose Builder BuilderFacts.
From Coq Require String.
Export Coq.Strings.String.StringSyntax.
Open Scope string_scope.
Open Scope list_scope.
Set Implicit Arguments.
Unset Strict Implicit.

(** ** C51: specification (see also [view], [win] in BuilderFacts) *)
(** the option [k] last given to the defaults of the group [g] in a history of calls, taking
    the latest "clear" into account *)
Definition clears (kw : opts) : bool := match dfind kw k_clear with Some (BVal v) => truthy v | _ => false end.
Definition after_op (g : group) (cur : pstr -> option bval) (o : bop) : pstr -> option bval :=
  match o with
  | ODefaults g' kw =>
      if group_eqb g' g then fun k => if pstr_eqb k k_clear then None else
        match dfind kw k with Some v => Some v | None => if clears kw then None else cur k end
      else cur
  | _ => cur
  end.
Definition last_given (g : group) (ops : list bop) : pstr -> option bval := fold_left (after_op g) ops (fun _ => None).
(** keyword arguments are dictionaries; "clear" is not a dictionary *)
Definition proper_op (o : bop) : Prop :=
  match o with ODefaults _ kw => NoDup (dkeys kw) /\ (forall a, dfind kw k_clear <> Some (BDict a)) | ODeclare _ => True | OAdd _ _ kw => NoDup (dkeys kw) end.
(** the object an option is: the strongest one, but two lists give a new list *)
Definition pick (strong weak : option bval) : option bval :=
  match strong, weak with
  | Some (BVal v), Some (BVal w) => Some (BVal (win_value v w))
  | Some x, _ => Some x
  | None, w => w
  end.

(** ** Proofs: which object each option is *)
Lemma group_eqb_eq a b : group_eqb a b = true <-> a = b.
Proof. destruct a as [|[]], b as [|[]]; simpl; split; intro H; congruence. Qed.
Lemma set_default_pick ov h kw k0 v0 h1 kw1 : set_default ov (h, kw) (k0, v0) = (h1, kw1) ->
  (forall k, dfind kw1 k = if eqb k k0 then (if ov then Some v0 else pick (dfind kw k0) (Some v0)) else dfind kw k)
  /\ (NoDup (dkeys kw) -> NoDup (dkeys kw1)).
Proof.
  unfold set_default. cbn [fst snd]. intro E.
  assert (KK : eqb k0 k0 = true) by (apply eqb_eq; reflexivity).
  destruct (dfind kw k0) as [own|] eqn:Eo.
  - assert (exists h2 kw2, (match v0, own with
        | BVal (VList l), BVal (VList l') => (h, dset kw k0 (BVal (VList (l ++ l'))))
        | BDict a, BDict b => (set_defaults_cell h a b, kw) | _, _ => (h, kw) end) = (h2, kw2)
        /\ (forall k, dfind kw2 k = if eqb k k0 then pick (Some own) (Some v0) else dfind kw k) /\ (NoDup (dkeys kw) -> NoDup (dkeys kw2))) as (h2 & kw2 & E2 & F2 & N2).
    { assert (Same : pick (Some own) (Some v0) = Some own -> forall k, dfind kw k = if eqb k k0 then pick (Some own) (Some v0) else dfind kw k).
      { intros P k. destruct (eqb k k0) eqn:E0; [apply eqb_eq in E0; subst; congruence|reflexivity]. }
      destruct v0 as [[| | | | |]|], own as [[| | | | |]|]; eexists _, _; (split; [reflexivity|]); (split; [|auto; try apply NoDup_dkeys_dset]); try (apply Same; reflexivity).
      intro k. rewrite dfind_dset. destruct (eqb k k0); reflexivity. }
    rewrite E2 in E. assert (dmem kw2 k0 = true) as M.
    { unfold dmem. rewrite F2, KK. destruct own as [v|], v0 as [w|]; reflexivity. }
    rewrite M in E. destruct ov; cbn [negb orb] in E; injection E as <- <-.
    + split; [|intro N; apply NoDup_dkeys_dset; auto]. intro k. rewrite dfind_dset. destruct (eqb k k0) eqn:E0; [reflexivity|]. rewrite F2, E0. reflexivity.
    + split; [exact F2|auto].
  - assert (dmem kw k0 = false) as M by (unfold dmem; rewrite Eo; reflexivity). rewrite M in E. cbn [negb orb] in E. injection E as <- <-.
    split; [|intro N; apply NoDup_dkeys_dset; auto]. intro k. rewrite dfind_dset. destruct (eqb k k0) eqn:E0; [destruct ov; reflexivity|reflexivity].
Qed.
Lemma loop_keep : forall (D : opts) h kw h' kw', NoDup (dkeys D) -> fold_left (set_default false) D (h, kw) = (h', kw') -> forall k, dfind kw' k = pick (dfind kw k) (dfind D k).
Proof.
  induction D as [|[k0 v0] D IH]; intros h kw h' kw' ND E k; cbn [fold_left] in E.
  - injection E as <- <-. cbn [dfind]. destruct (dfind kw k) as [[]|]; reflexivity.
  - inversion ND as [|? ? Hk ND']; subst. destruct (set_default false (h, kw) (k0, v0)) as [h1 kw1] eqn:E1. destruct (set_default_pick E1) as [P _].
    rewrite (IH h1 kw1 _ _ ND' E k), P. cbn [dfind]. destruct (eqb k k0) eqn:E0; [|reflexivity]. apply eqb_eq in E0. subst k. apply dfind_None in Hk. rewrite Hk.
    destruct (dfind kw k0) as [[]|], v0; reflexivity.
Qed.
Lemma loop_override : forall (D : opts) h kw h' kw', NoDup (dkeys D) -> fold_left (set_default true) D (h, kw) = (h', kw') ->
  forall k, dfind kw' k = match dfind D k with Some v => Some v | None => dfind kw k end.
Proof.
  induction D as [|[k0 v0] D IH]; intros h kw h' kw' ND E k; cbn [fold_left] in E.
  - injection E as <- <-. reflexivity.
  - inversion ND as [|? ? Hk ND']; subst. destruct (set_default true (h, kw) (k0, v0)) as [h1 kw1] eqn:E1. destruct (set_default_pick E1) as [P _].
    rewrite (IH h1 kw1 _ _ ND' E k), P. cbn [dfind]. destruct (eqb k k0) eqn:E0; [|reflexivity]. apply eqb_eq in E0. subst k. apply dfind_None in Hk. rewrite Hk. reflexivity.
Qed.
Lemma loop_NoDup ov : forall (D : opts) h kw h' kw', fold_left (set_default ov) D (h, kw) = (h', kw') -> NoDup (dkeys kw) -> NoDup (dkeys kw').
Proof.
  induction D as [|[k0 v0] D IH]; intros h kw h' kw' E N; cbn [fold_left] in E; [injection E as <- <-; exact N|].
  destruct (set_default ov (h, kw) (k0, v0)) as [h1 kw1] eqn:E1. destruct (set_default_pick E1) as [_ P]. eapply IH; [exact E|auto].
Qed.

Lemma defaults_factory h f g kw h' f' : defaults h f g kw = (h', f') -> NoDup (dkeys kw) -> (forall a, dfind kw k_clear <> Some (BDict a)) ->
  (forall k, dfind (f_defaults f g) k_clear = None -> dfind (f_defaults f' g) k = if pstr_eqb k k_clear then None else match dfind kw k with Some v => Some v | None => if clears kw then None else dfind (f_defaults f g) k end)
  /\ (forall g', g' <> g -> f_defaults f' g' = f_defaults f g') /\ f_keys f' = f_keys f
  /\ (NoDup (dkeys (f_defaults f g)) -> NoDup (dkeys (f_defaults f' g))).
Proof.
  unfold defaults, set_defaults. intros E N C.
  set (kw0 := match dfind kw k_clear with Some v => if btruthy h v then [] else f_defaults f g | None => f_defaults f g end) in *.
  assert (K0 : kw0 = if clears kw then [] else f_defaults f g).
  { unfold kw0, clears. destruct (dfind kw k_clear) as [[v|a]|] eqn:Ec; [reflexivity|destruct (C a eq_refl)|reflexivity]. }
  destruct (fold_left (set_default true) (dpop kw k_clear) (h, kw0)) as [h1 d] eqn:EF. injection E as <- <-. simpl.
  assert (G : group_eqb g g = true) by (apply group_eqb_eq; reflexivity). rewrite G.
  split; [|split; [|split; [reflexivity|]]].
  - intros k Hc. rewrite (loop_override (NoDup_dkeys_dpop kw k_clear N) EF). rewrite dfind_dpop by exact N. change (eqb k k_clear) with (pstr_eqb k k_clear). destruct (pstr_eqb k k_clear) eqn:Ek.
    + apply pstr_eqb_eq in Ek. subst k. rewrite K0. destruct (clears kw); [reflexivity|exact Hc].
    + rewrite K0. destruct (dfind kw k); [reflexivity|]. destruct (clears kw); reflexivity.
  - intros g' Hg. destruct (group_eqb g' g) eqn:Eg; [apply group_eqb_eq in Eg; contradiction|reflexivity].
  - intro Nd. eapply loop_NoDup; [exact EF|]. rewrite K0. destruct (clears kw); [constructor|exact Nd].
Qed.
Definition no_clear_stored (f : factory) : Prop := forall g, dfind (f_defaults f g) k_clear = None.
Lemma build_factory h f kd kw h' f' r : no_clear_stored f -> build h f kd kw = (h', f', r) -> (forall g, f_defaults f' g = f_defaults f g) /\ f_keys f' = f_keys f.
Proof.
  intros C E. unfold build in E. destruct (take_overrides h kw) as [[kw0 bk]|e]; [|injection E as <- <- _; auto].
  rewrite set_defaults_plain in E by apply C. destruct (fold_left _ _ _) as [h1 kw1] eqn:E1.
  rewrite set_defaults_plain in E by (simpl; destruct (group_eqb GAll (GKind kd)); apply C). destruct (fold_left _ _ (h1, kw1)) as [h2 kw2] eqn:E2.
  destruct (pattern_formatters h2 (update kw2 bk)) as [[h3 a] lib]. destruct (inherit_keys h3 _ _) as [h4 p]. injection E as <- <- _. split; [|reflexivity].
  intro g. simpl. destruct g as [|[]], kd; reflexivity.
Qed.
Lemma add_factory h f kd key kw h' f' r : no_clear_stored f -> add h f kd key kw = (h', f', r) -> (forall g, f_defaults f' g = f_defaults f g) /\ f_keys f' = f_keys f.
Proof.
  intros C E. unfold add in E. destruct (apply_key h key kw) as [h0 [kw'|e]]; [eapply build_factory; eassumption|]. injection E as <- <- _. auto.
Qed.
Lemma step_factory st o : no_clear_stored (st_factory st) -> proper_op o ->
  (forall g k, dfind (f_defaults (st_factory (bstep st o)) g) k = after_op g (dfind (f_defaults (st_factory st) g)) o k)
  /\ ((forall g, NoDup (dkeys (f_defaults (st_factory st) g))) -> forall g, NoDup (dkeys (f_defaults (st_factory (bstep st o)) g))).
Proof.
  intros C P. destruct o as [g' kw|ks|kd key kw]; simpl.
  - destruct (defaults _ _ _ _) as [h f] eqn:E. destruct P as [N Cl]. destruct (defaults_factory E N Cl) as (D1 & D2 & _ & D4). simpl. split.
    + intros g k. destruct (group_eqb g' g) eqn:Eg; [apply group_eqb_eq in Eg; subst; apply D1, C|]. rewrite D2; [reflexivity|]. intros ->. rewrite (proj2 (group_eqb_eq g' g') eq_refl) in Eg. discriminate.
    + intros Nd g. destruct (group_eqb g' g) eqn:Eg; [apply group_eqb_eq in Eg; subst; apply D4, Nd|]. rewrite D2; [apply Nd|]. intros ->. rewrite (proj2 (group_eqb_eq g' g') eq_refl) in Eg. discriminate.
  - auto.
  - destruct (add _ _ _ _ _) as [[h f] r] eqn:E. destruct (add_factory C E) as [A _]. destruct r; simpl; (split; [intros g k; now rewrite A|intros Nd g; rewrite A; apply Nd]).
Qed.
Lemma history_from : forall ops st, no_clear_stored (st_factory st) -> Forall proper_op ops -> (forall g, NoDup (dkeys (f_defaults (st_factory st) g))) ->
  let st' := fold_left bstep ops st in
  (forall g k, dfind (f_defaults (st_factory st') g) k = fold_left (after_op g) ops (dfind (f_defaults (st_factory st) g)) k)
  /\ no_clear_stored (st_factory st') /\ (forall g, NoDup (dkeys (f_defaults (st_factory st') g))).
Proof.
  induction ops as [|o ops IH]; intros st C P N; simpl; [auto|]. inversion P as [|? ? Po Pr]; subst.
  destruct (step_factory C Po) as [S1 S2].
  assert (C' : no_clear_stored (st_factory (bstep st o))).
  { intro g. rewrite S1. destruct o as [g' kw| |]; simpl; try apply C. destruct (group_eqb g' g); [|apply C]. reflexivity. }
  destruct (IH (bstep st o) C' Pr (S2 N)) as (I1 & I2 & I3). split; [|auto]. intros g k. rewrite I1.
  assert (X : forall ops (c c' : pstr -> option bval), (forall k, c k = c' k) -> forall k, fold_left (after_op g) ops c k = fold_left (after_op g) ops c' k).
  { clear. induction ops as [|o ops IH]; intros c c' H k; simpl; [apply H|]. apply IH. intro k'. destruct o as [g' kw| |]; simpl; auto.
    destruct (group_eqb g' g); [|apply H]. destruct (pstr_eqb k' k_clear); [reflexivity|]. destruct (dfind kw k'); [reflexivity|]. destruct (clears kw); [reflexivity|apply H]. }
  apply X. intro k'. apply S1.
Qed.

(** ** C51: theorems *)
(** The defaults of each kind are exactly what the calls gave, the latest winning. *)
Theorem C88_defaults_are_the_latest_given h ops g k : Forall proper_op ops ->
  dfind (f_defaults (st_factory (bhistory h ops)) g) k = last_given g ops k.
Proof.
  intro P. destruct (@history_from ops (BState h new_factory [])) as (H & _ & _); simpl; auto; [intro; reflexivity|intro; constructor|]. apply H.
Qed.
Lemma build_objects h f kd kw h' f' p : no_clear_stored f -> (forall g, NoDup (dkeys (f_defaults f g))) -> NoDup (dkeys kw) -> build h f kd kw = (h', f', Ok p) ->
  forall k, k <> k_overrides ->
    (named_in kw k -> dfind (bp_opts p) k = dfind kw k)
    /\ (~ named_in kw k -> dfind (bp_opts p) k = pick (pick (dfind kw k) (dfind (f_defaults f (GKind kd)) k)) (dfind (f_defaults f GAll) k)).
Proof.
  intros C Nf N E k Hk. unfold build in E. destruct (take_overrides h kw) as [[kw0 bk]|e] eqn:Eo; [|discriminate].
  destruct (take_overrides_spec N Eo) as (-> & Nb & T1 & T2).
  rewrite set_defaults_plain in E by apply C. destruct (fold_left _ _ _) as [h1 kw1] eqn:E1.
  rewrite set_defaults_plain in E by (simpl; destruct (group_eqb GAll (GKind kd)); apply C). destruct (fold_left _ _ (h1, kw1)) as [h2 kw2] eqn:E2.
  destruct (pattern_formatters h2 (update kw2 bk)) as [[h3 a] lib]. destruct (inherit_keys h3 _ _) as [h4 p'] eqn:E4. injection E as <- <- <-.
  destruct (inherit_frame E4) as (_ & _ & Eopt & _). rewrite Eopt. simpl. rewrite update_find by exact Nb.
  change (f_defaults (set_group f (GKind kd) (f_defaults f (GKind kd))) GAll) with (f_defaults f GAll) in E2.
  split; intro Hn.
  - destruct (T1 k Hk Hn) as [-> X]. destruct (dfind kw k); [reflexivity|contradiction].
  - rewrite (T2 k Hn). rewrite (loop_keep (Nf GAll) E2), (loop_keep (Nf (GKind kd)) E1). rewrite dfind_dpop by exact N. destruct (eqb k k_overrides) eqn:Eq; [apply eqb_eq in Eq; contradiction|reflexivity].
Qed.
Lemma history_ok h ops : Forall proper_op ops -> no_clear_stored (st_factory (bhistory h ops)) /\ (forall g, NoDup (dkeys (f_defaults (st_factory (bhistory h ops)) g))).
Proof.
  intro P. destruct (@history_from ops (BState h new_factory [])) as (_ & H & H'); simpl; auto; [intro; reflexivity|intro; constructor].
Qed.
(** After any history of calls, each option of a new pattern is the call's, else the kind's, else
    the general default, as last given; two lists are concatenated, the general one first; an
    option named in overrides is the call's. *)
Theorem C88_each_option h ops kd kw h' f' p : Forall proper_op ops -> NoDup (dkeys kw) ->
  build (st_heap (bhistory h ops)) (st_factory (bhistory h ops)) kd kw = (h', f', Ok p) ->
  forall k, k <> k_overrides ->
    (named_in kw k -> dfind (bp_opts p) k = dfind kw k)
    /\ (~ named_in kw k -> dfind (bp_opts p) k = pick (pick (dfind kw k) (last_given (GKind kd) ops k)) (last_given GAll ops k)).
Proof.
  intros P N E k Hk. destruct (history_ok h P) as [C Nf]. rewrite <- !(C88_defaults_are_the_latest_given h _ k P). eapply build_objects; eassumption.
Qed.
(** A call fails iff it names an option it does not give. *)
Theorem C88_overrides_must_be_given h f kd kw names : NoDup (dkeys kw) -> dfind kw k_overrides = Some (BVal (VList (map VStr names))) ->
  (snd (build h f kd kw) = Err KeyError <-> exists n, In n names /\ (dfind kw n = None \/ n = k_overrides)).
Proof.
  intros N E. assert (T : forall l acc, (exists b, backup_of (dpop kw k_overrides) (map VStr l) acc = Ok b /\ forall n, In n l -> dfind kw n <> None /\ n <> k_overrides)
                             \/ (backup_of (dpop kw k_overrides) (map VStr l) acc = Err KeyError /\ exists n, In n l /\ (dfind kw n = None \/ n = k_overrides))).
  { induction l as [|n l IH]; intro acc; simpl; [left; eexists; split; [reflexivity|intros n []]|]. rewrite dfind_dpop by exact N.
    destruct (eqb n k_overrides) eqn:En; [apply eqb_eq in En; right; split; [reflexivity|]; exists n; auto|]. assert (n <> k_overrides) by (intro X; subst; vm_compute in En; discriminate).
    destruct (dfind kw n) as [v|] eqn:Ev; [|right; split; [reflexivity|]; exists n; auto].
    destruct (IH (dset acc n v)) as [(b & H1 & H2)|(H1 & m & H2 & H3)]; [left; exists b; split; [exact H1|]; intros m [<-|Hm]; [split; congruence|auto]|right; split; [exact H1|]; exists m; auto]. }
  unfold build, take_overrides. rewrite E. cbn [override_names]. destruct (T names []) as [(b & -> & H)|(-> & H)].
  - destruct (set_defaults false h _ _) as [[h1 d1] kw1]. destruct (set_defaults false h1 _ _) as [[h2 d2] kw2].
    destruct (pattern_formatters h2 _) as [[h3 a] lib]. destruct (inherit_keys h3 _ _) as [h4 p]. simpl. split; [discriminate|].
    intros (n & Hn & X). destruct (H n Hn) as [Y Z]. destruct X; contradiction.
  - simpl. tauto.
Qed.

(** Every outcome of a call: nothing named, the pattern is added; a truthy value that lists nothing is a TypeError;
    otherwise the first name that is not an option of the call decides: TypeError when it is a list, KeyError else *)
Definition names_given (kw : opts) (v : pyval) : Prop := exists n, v = VStr n /\ n <> k_overrides /\ dfind kw n <> None.
Theorem C88_overrides_errors h f kd kw : NoDup (dkeys kw) ->
  let added := exists p, snd (build h f kd kw) = Ok p in
  let refused names := exists a v b, names = a ++ v :: b /\ Forall (names_given kw) a /\ ~ names_given kw v
        /\ snd (build h f kd kw) = Err (match v with VList _ => TypeError | _ => KeyError end) in
  match dfind kw k_overrides with
  | None => added
  | Some (BVal (VList names)) => (Forall (names_given kw) names /\ added) \/ refused names
  | Some (BVal (VStr t)) => (Forall (names_given kw) (map (fun c => VStr [c]) t) /\ added) \/ refused (map (fun c => VStr [c]) t)
  | Some v => if btruthy h v then snd (build h f kd kw) = Err TypeError else added
  end.
Proof.
  intros N added refused.
  assert (OK : forall kw0 bk, take_overrides h kw = Ok (kw0, bk) -> added).
  { intros kw0 bk E. unfold added, build. rewrite E. destruct (set_defaults false h _ _) as [[h1 d1] kw1]. destruct (set_defaults false h1 _ _) as [[h2 d2] kw2].
    destruct (pattern_formatters h2 _) as [[h3 a] lib]. destruct (inherit_keys h3 _ _) as [h4 p]. eexists; reflexivity. }
  assert (ERR : forall e, take_overrides h kw = Err e -> snd (build h f kd kw) = Err e) by (intros e E; unfold build; rewrite E; reflexivity).
  assert (L : forall v names, dfind kw k_overrides = Some v -> override_names v = Some names -> (Forall (names_given kw) names /\ added) \/ refused names).
  { intros v names E En. unfold take_overrides in OK, ERR. rewrite E, En in OK, ERR.
    assert (T : forall l acc, (exists b, backup_of (dpop kw k_overrides) l acc = Ok b /\ Forall (names_given kw) l)
              \/ (exists a x b, l = a ++ x :: b /\ Forall (names_given kw) a /\ ~ names_given kw x /\ backup_of (dpop kw k_overrides) l acc = Err (match x with VList _ => TypeError | _ => KeyError end))).
    { induction l as [|x l IH]; intro acc; [left; eexists; split; [reflexivity|constructor]|].
      assert (BAD : ~ names_given kw x -> backup_of (dpop kw k_overrides) (x :: l) acc = Err (match x with VList _ => TypeError | _ => KeyError end) ->
        exists a y b, x :: l = a ++ y :: b /\ Forall (names_given kw) a /\ ~ names_given kw y /\ backup_of (dpop kw k_overrides) (x :: l) acc = Err (match y with VList _ => TypeError | _ => KeyError end)).
      { intros H1 H2. exists [], x, l. repeat split; [constructor|exact H1|exact H2]. }
      destruct x as [| | |n| |]; try (right; apply BAD; [intros (n' & X & _); discriminate|reflexivity]).
      assert (S : backup_of (dpop kw k_overrides) (VStr n :: l) acc = match dfind (dpop kw k_overrides) n with Some v => backup_of (dpop kw k_overrides) l (dset acc n v) | None => Err KeyError end) by reflexivity.
      rewrite dfind_dpop in S by exact N. destruct (eqb n k_overrides) eqn:En'.
      { apply eqb_eq in En'. right. apply BAD; [intros (n' & X & Y & _); congruence|exact S]. }
      assert (n <> k_overrides) by (intro X; subst; vm_compute in En'; discriminate).
      destruct (dfind kw n) as [w|] eqn:Ew; [|right; apply BAD; [intros (n' & X & Y & Z); congruence|exact S]].
      assert (G : names_given kw (VStr n)) by (exists n; repeat split; congruence).
      destruct (IH (dset acc n w)) as [(b & H1 & H2)|(a & y & b & -> & H1 & H2 & H3)].
      - left. exists b. split; [rewrite S; exact H1|constructor; assumption].
      - right. exists (VStr n :: a), y, b. split; [reflexivity|]. split; [constructor; assumption|]. split; [exact H2|]. rewrite S. exact H3. }
    destruct (T names []) as [(b & H1 & H2)|(a & x & b & H0 & H1 & H2 & H3)].
    - left. split; [exact H2|]. rewrite H1 in OK. eapply OK. reflexivity.
    - right. exists a, x, b. repeat split; try assumption. apply ERR. rewrite H3. reflexivity. }
  unfold take_overrides in OK, ERR. destruct (dfind kw k_overrides) as [v|] eqn:E; [|eapply OK; reflexivity].
  destruct v as [[| | |t|l|]|a]; try (apply (L _ _ eq_refl eq_refl));
    (cbn [override_names] in OK, ERR; destruct (btruthy h _); [apply ERR; reflexivity|eapply OK; reflexivity]).
Qed.
(** [regex('a', name='n', overrides='name')] lists 'n', 'a', 'm', 'e'; [overrides=[[], 'x']], [overrides=1] *)
Example C88_errors_case :
  let kw o := [(k_name, BVal (VStr (s "n"))); (k_overrides, BVal o)] in let h := Heap 0 (fun _ => []) in
  snd (build h new_factory KRegex (kw (VStr (s "name")))) = Err KeyError
  /\ snd (build h new_factory KRegex (kw (VList [VStr k_name; VList []; VStr (s "x")]))) = Err TypeError
  /\ snd (build h new_factory KRegex (kw (VInt 1))) = Err TypeError
  /\ (exists p, snd (build h new_factory KRegex (kw (VList [VStr k_name]))) = Ok p)
  /\ (exists p, snd (build h new_factory KRegex (kw (VInt 0))) = Ok p).
Proof. cbv zeta. repeat (split; [vm_compute; reflexivity|]). split; eexists; vm_compute; reflexivity. Qed.

(** *** The contents of dictionary options *)
Definition clear_free (h : heap) : Prop := forall a, dfind (h_cell h a) (Some k_clear) = None.
Lemma merge_clear_free src dst : NoDup (dkeys src) -> dfind src (Some k_clear) = None -> dfind dst (Some k_clear) = None -> dfind (merge_cell src dst) (Some k_clear) = None.
Proof. intros N H H'. rewrite merge_cell_find by exact N. now rewrite H, H'. Qed.
Lemma set_default_cells ov h kw k0 v0 h1 kw1 : proper_heap h -> clear_free h -> set_default ov (h, kw) (k0, v0) = (h1, kw1) ->
  (forall x, dfind kw k0 <> Some (BDict x) \/ (forall a, v0 <> BDict a) -> h_cell h1 x = h_cell h x) /\ h_next h1 = h_next h /\ proper_heap h1 /\ clear_free h1.
Proof.
  intros PH CF. unfold set_default. cbn [fst snd]. intro E.
  assert (X : exists kw2, (match dfind kw k0 with
    | None => (h, kw)
    | Some own => match v0, own with
        | BVal (VList l), BVal (VList l') => (h, dset kw k0 (BVal (VList (l ++ l'))))
        | BDict a, BDict b => (set_defaults_cell h a b, kw) | _, _ => (h, kw) end end) = (h1, kw2)).
  { destruct (match dfind kw k0 with None => _ | _ => _ end) as [h2 kw2]. destruct (negb (dmem kw2 k0) || ov); injection E as <- <-; eauto. }
  destruct X as [kw2 X]. clear E.
  destruct (dfind kw k0) as [own|]; [|injection X as <- _; auto].
  destruct v0 as [v|a].
  - assert (h1 = h) as -> by (destruct v; destruct own as [[]|]; injection X as <- _; reflexivity). auto.
  - destruct own as [w|b]; [injection X as <- _; auto|]. rewrite set_defaults_cell_plain in X by apply CF. injection X as <- _. split; [|split; [reflexivity|split]].
    + intros x [Hx|Hx]; [|destruct (Hx a eq_refl)]. simpl. destruct (Nat.eqb x b) eqn:Exb; [apply Nat.eqb_eq in Exb; subst; congruence|reflexivity].
    + intro x. simpl. destruct (Nat.eqb x b); [apply merge_cell_NoDup, PH|apply PH].
    + intro x. simpl. destruct (Nat.eqb x b); [apply merge_clear_free; [apply PH|apply CF|apply CF]|apply CF].
Qed.
Lemma loop_cells ov : forall (D : opts) h kw h' kw', NoDup (dkeys D) -> proper_heap h -> clear_free h -> fold_left (set_default ov) D (h, kw) = (h', kw') ->
  (forall x, (forall k, dfind kw k = Some (BDict x) -> forall a, dfind D k <> Some (BDict a)) -> h_cell h' x = h_cell h x) /\ h_next h' = h_next h /\ proper_heap h' /\ clear_free h'.
Proof.
  induction D as [|[k0 v0] D IH]; intros h kw h' kw' ND PH CF E; cbn [fold_left] in E; [injection E as <- <-; auto|].
  inversion ND as [|? ? Hk ND']; subst. destruct (set_default ov (h, kw) (k0, v0)) as [h1 kw1] eqn:E1.
  destruct (set_default_pick E1) as [P _]. destruct (set_default_cells PH CF E1) as (S1 & S2 & S3 & S4).
  destruct (IH h1 kw1 h' kw' ND' S3 S4 E) as (I1 & I2 & I3 & I4). split; [|split; [congruence|auto]].
  assert (KK : eqb k0 k0 = true) by (apply eqb_eq; reflexivity). apply dfind_None in Hk.
  intros x Hx. rewrite I1.
  - apply S1. destruct (dfind kw k0) as [[w|b]|] eqn:Eo; try (left; discriminate). destruct (Nat.eq_dec b x) as [->|Nb]; [|left; congruence].
    right. intros a ->. specialize (Hx k0 Eo a). cbn [dfind] in Hx. rewrite KK in Hx. contradiction.
  - intros k Hkx a Ha. rewrite P in Hkx. destruct (eqb k k0) eqn:Ek; [apply eqb_eq in Ek; subst; congruence|]. specialize (Hx k Hkx a). cbn [dfind] in Hx. rewrite Ek in Hx. contradiction.
Qed.
Definition key_names_ok (key : keyarg) : Prop := match key with Keys ks => Forall (fun k => bk_name k <> k_clear) ks | _ => True end.
Lemma csetdefault_find c n v m : dfind (csetdefault c n v) m = match dfind c m with Some w => Some w | None => if eqb m n then Some v else None end.
Proof.
  unfold csetdefault. destruct (dfind c n) eqn:E.
  - destruct (dfind c m) eqn:Em; [reflexivity|]. destruct (eqb m n) eqn:En; [apply eqb_eq in En; congruence|reflexivity].
  - rewrite dfind_dset. destruct (eqb m n) eqn:En; [apply eqb_eq in En; subst; now rewrite E|]. destruct (dfind c m); reflexivity.
Qed.
(** the converter of the first key of that name *)
Fixpoint first_converter (ks : list bkey) (n : pstr) : option pyval :=
  match ks with [] => None | k :: r => if pstr_eqb n (bk_name k) then Some (bk_converter k) else first_converter r n end.
Lemma keys_find : forall ks c n, dfind (fold_left (fun c k => csetdefault c (Some (bk_name k)) (bk_converter k)) ks c) n
  = match dfind c n with Some v => Some v | None => match n with Some m => first_converter ks m | None => None end end.
Proof.
  induction ks as [|k ks IH]; intros c n; cbn [fold_left first_converter]; [destruct (dfind c n), n; reflexivity|].
  rewrite IH, csetdefault_find. destruct (dfind c n); [reflexivity|]. destruct n as [m|]; [|reflexivity]. change (eqb (Some m) (Some (bk_name k))) with (pstr_eqb m (bk_name k)).
  destruct (pstr_eqb m (bk_name k)); reflexivity.
Qed.
Lemma keys_NoDup : forall ks c, NoDup (dkeys c) -> NoDup (dkeys (fold_left (fun c k => csetdefault c (Some (bk_name k)) (bk_converter k)) ks c)).
Proof. induction ks as [|k ks IH]; intros c N; simpl; [exact N|]. apply IH. unfold csetdefault. destruct (dfind c _); [exact N|apply NoDup_dkeys_dset, N]. Qed.
Lemma first_converter_None ks n : ~ In n (map bk_name ks) -> first_converter ks n = None.
Proof. induction ks as [|k ks IH]; simpl; [reflexivity|]. intro H. destruct (pstr_eqb n (bk_name k)) eqn:E; [apply pstr_eqb_eq in E; subst; destruct H; auto|apply IH; auto]. Qed.
Lemma halloc_ok h c : proper_heap h -> clear_free h -> NoDup (dkeys c) -> dfind c (Some k_clear) = None -> proper_heap (fst (halloc h c)) /\ clear_free (fst (halloc h c)).
Proof. intros PH CF N H. split; intro x; simpl; destruct (Nat.eqb x (h_next h)); auto. Qed.
Lemma setdefault_find kw n v k : dfind (setdefault kw n v) k = match dfind kw k with Some w => Some w | None => if eqb k n then Some v else None end.
Proof.
  unfold setdefault. destruct (dfind kw n) eqn:E.
  - destruct (dfind kw k) eqn:Em; [reflexivity|]. destruct (eqb k n) eqn:En; [apply eqb_eq in En; congruence|reflexivity].
  - rewrite dfind_dset. destruct (eqb k n) eqn:En; [apply eqb_eq in En; subst; now rewrite E|]. destruct (dfind kw k); reflexivity.
Qed.
Lemma apply_key_cells h key kw h' r : apply_key h key kw = (h', r) -> proper_heap h -> clear_free h -> key_names_ok key -> NoDup (dkeys kw) ->
  (forall x, (x < h_next h)%nat -> h_cell h' x = h_cell h x) /\ (h_next h <= h_next h')%nat /\ proper_heap h' /\ clear_free h'
  /\ forall kw', r = Ok kw' -> NoDup (dkeys kw') /\ (forall k a, dfind kw' k = Some (BDict a) -> dfind kw k = Some (BDict a) \/ (k = k_formatter /\ a = h_next h /\ h_next h' = S (h_next h))).
Proof.
  intros E PH CF KN N. unfold apply_key in E.
  assert (Same : forall kw0, (h, Ok kw0) = (h', r) -> (NoDup (dkeys kw0) /\ forall k a, dfind kw0 k = Some (BDict a) -> dfind kw k = Some (BDict a)) ->
    (forall x, (x < h_next h)%nat -> h_cell h' x = h_cell h x) /\ (h_next h <= h_next h')%nat /\ proper_heap h' /\ clear_free h'
    /\ forall kw', r = Ok kw' -> NoDup (dkeys kw') /\ (forall k a, dfind kw' k = Some (BDict a) -> dfind kw k = Some (BDict a) \/ (k = k_formatter /\ a = h_next h /\ h_next h' = S (h_next h)))).
  { intros kw0 X [Y Z]. injection X as <- <-. split; [auto|]. split; [auto|]. split; [auto|]. split; [auto|]. intros kw' X. injection X as <-. auto. }
  destruct key as [|k|[|k0 ks0]]; [eapply Same; [exact E|auto]| |eapply Same; [exact E|auto]|].
  - eapply Same; [exact E|]. split; [|intros k' a].
    + unfold setdefault. destruct (dfind kw k_name); [|]; destruct (dfind _ k_formatter); repeat apply NoDup_dkeys_dset; auto.
    + rewrite !setdefault_find. destruct (dfind kw k'); [auto|]. destruct (eqb k' k_name); [discriminate|]. destruct (eqb k' k_formatter); discriminate.
  - set (ks := k0 :: ks0) in *. set (oc := match dfind kw k_formatter with None | Some (BVal VNone) => Some [] | Some (BDict a) => Some (h_cell h a) | Some (BVal _) => None end) in *.
    assert (OC : match oc with Some c => NoDup (dkeys c) /\ dfind c (Some k_clear) = None | None => True end).
    { unfold oc. destruct (dfind kw k_formatter) as [[[]|a]|]; simpl; auto; try (split; [constructor|reflexivity]). }
    destruct oc as [c|]; [|injection E as <- <-; split; [auto|]; split; [auto|]; split; [auto|]; split; [auto|]; discriminate].
    destruct OC as [Nc Fc]. set (c' := fold_left (fun (c : cell) (k : bkey) => csetdefault c (Some (bk_name k)) (bk_converter k)) ks c) in *.
    destruct (halloc_ok (c := c') PH CF) as [P1 P2]; [apply keys_NoDup, Nc| |].
    { unfold c'. rewrite keys_find, Fc. apply first_converter_None. intro X. apply in_map_iff in X as (k & Ek & Hin). unfold key_names_ok in KN. fold ks in KN. rewrite Forall_forall in KN. eapply KN; eassumption. }
    unfold halloc in E. injection E as <- <-. split; [intros x Hx; apply (halloc_frame c' Hx)|]. split; [simpl; lia|]. split; [exact P1|]. split; [exact P2|].
    intros kw' X. injection X as <-. split; [apply NoDup_dkeys_dset, N|]. intros k a. rewrite dfind_dset. destruct (eqb k k_formatter) eqn:Ek; [|auto].
    apply eqb_eq in Ek. intro X. injection X as <-. right. auto.
Qed.
Lemma formatters_ok h kw h' a lib : pattern_formatters h kw = (h', a, lib) -> proper_heap h -> clear_free h -> proper_heap h' /\ clear_free h'.
Proof.
  intros E PH CF. unfold pattern_formatters in E.
  assert (A : forall v l, (halloc h [(None, v)], l) = (h', a, lib) -> proper_heap h' /\ clear_free h').
  { intros v l X. injection X as <- _ _. apply (halloc_ok (c := [(None, v)]) PH CF); [repeat constructor; intros []|reflexivity]. }
  destruct (dfind kw k_formatter) as [[v|b]|]; [destruct (truthy v); eapply A; exact E| |eapply A; exact E].
  destruct (h_cell h b); [eapply A; exact E|]. injection E as <- _ _. auto.
Qed.
Definition keys_ok (f : factory) : Prop := forall e, In e (f_keys f) -> bk_name (snd e) <> k_clear.
Lemma fold_dset_NoDup {K V} `{Eqb K} : forall (l c : dict K V), NoDup (dkeys c) -> NoDup (dkeys (fold_left (fun c e => dset c (fst e) (snd e)) l c)).
Proof. induction l as [|e l IH]; intros c N; simpl; [exact N|]. apply IH, NoDup_dkeys_dset, N. Qed.
Lemma fold_dset_absent {K V} `{Eqb K} : forall (l c : dict K V) n, ~ In n (dkeys l) -> dfind (fold_left (fun c e => dset c (fst e) (snd e)) l c) n = dfind c n.
Proof.
  induction l as [|e l IH]; intros c n Hn; simpl; [reflexivity|]. simpl in Hn. rewrite IH by auto. rewrite dfind_dset. destruct (eqb n (fst e)) eqn:E; [|reflexivity].
  apply eqb_eq in E. destruct Hn. auto.
Qed.
Lemma inherit_ok h keys p h' p' : inherit_keys h keys p = (h', p') -> (forall e, In e keys -> bk_name (snd e) <> k_clear) -> proper_heap h -> clear_free h -> proper_heap h' /\ clear_free h'.
Proof.
  intros E KO PH CF. unfold inherit_keys in E. destruct keys as [|e0 ks0]; [injection E as <- <-; auto|]. set (keys := e0 :: ks0) in *.
  destruct (negb (bp_library p)); [injection E as <- <-; auto|]. set (m := flat_map _ keys) in *.
  assert (M : forall e, In e m -> exists n, fst e = Some n /\ n <> k_clear).
  { intros e He. unfold m in He. apply in_flat_map in He as (x & Hx & He). destruct (dmem _ _); [destruct He|]. destruct He as [<-|[]]. simpl. eauto. }
  assert (h' = h \/ h' = fst (halloc h (fold_left (fun c e => dset c (fst e) (snd e)) m (h_cell h (bp_formatters p))))) as [-> | ->]; [|auto|].
  { clear -E. destruct m; injection E as <- _; auto. }
  apply halloc_ok; auto; [apply fold_dset_NoDup, PH|]. rewrite fold_dset_absent; [apply CF|]. intro X. apply in_map_iff in X as (e & Ee & He). destruct (M e He) as (n & X1 & X2). congruence.
Qed.
Lemma build_cells h f kd kw h' f' r : no_clear_stored f -> (forall g, NoDup (dkeys (f_defaults f g))) -> NoDup (dkeys kw) -> keys_ok f -> proper_heap h -> clear_free h ->
  build h f kd kw = (h', f', r) ->
  (forall x, (x < h_next h)%nat -> (forall k, dfind kw k <> Some (BDict x)) ->
     (forall k, dfind (f_defaults f (GKind kd)) k = Some (BDict x) -> forall a, dfind (f_defaults f GAll) k <> Some (BDict a)) -> h_cell h' x = h_cell h x)
  /\ (h_next h <= h_next h')%nat /\ proper_heap h' /\ clear_free h'.
Proof.
  intros C Nf N KO PH CF E. unfold build in E. destruct (take_overrides h kw) as [[kw0 bk]|e] eqn:Eo; [|injection E as <- <- <-; auto].
  destruct (take_overrides_spec N Eo) as (-> & Nb & T1 & T2).
  rewrite set_defaults_plain in E by apply C. destruct (fold_left _ _ _) as [h1 kw1] eqn:E1.
  rewrite set_defaults_plain in E by (simpl; destruct (group_eqb GAll (GKind kd)); apply C). destruct (fold_left _ _ (h1, kw1)) as [h2 kw2] eqn:E2.
  destruct (pattern_formatters h2 (update kw2 bk)) as [[h3 a] lib] eqn:E3. destruct (inherit_keys h3 _ _) as [h4 p'] eqn:E4. injection E as <- <- <-.
  change (f_defaults (set_group f (GKind kd) (f_defaults f (GKind kd))) GAll) with (f_defaults f GAll) in E2. simpl in E4.
  destruct (loop_cells (Nf _) PH CF E1) as (A1 & A2 & A3 & A4). destruct (loop_cells (Nf _) A3 A4 E2) as (B1 & B2 & B3 & B4).
  destruct (formatters_frame E3) as [F1 F2]. destruct (formatters_ok E3 B3 B4) as [F3 F4].
  destruct (inherit_frame E4) as (I1 & I2 & _). destruct (inherit_ok E4 KO F3 F4) as [I3 I4]. clear E3 E4.
  split; [|split; [|auto]].
  2: { rewrite <- I2, <- F2. rewrite B2, A2. apply le_n. }
  intros x Hx X1 X2. rewrite I1 by (unfold lt in *; rewrite <- F2, B2, A2; exact Hx). rewrite F1 by (rewrite B2, A2; exact Hx).
  assert (K0 : forall k, dfind (dpop kw k_overrides) k <> Some (BDict x)).
  { intros k H. rewrite dfind_dpop in H by exact N. destruct (eqb k k_overrides); [discriminate|]. eapply X1; exact H. }
  rewrite B1.
  - apply A1. intros k H. destruct (K0 k H).
  - intros k H. rewrite (loop_keep (Nf _) E1) in H.
    destruct (dfind (dpop kw k_overrides) k) as [[w|b]|] eqn:Ek; simpl in H.
    + destruct (dfind (f_defaults f (GKind kd)) k) as [[|]|]; discriminate.
    + injection H as ->. destruct (K0 k Ek).
    + apply X2, H.
Qed.

(** the option dictionaries a call mentions *)
Definition addrs (kw : opts) : list nat := flat_map (fun e => match snd e with BDict a => [a] | BVal _ => [] end) kw.
Definition op_addrs (o : bop) : list nat := match o with ODefaults _ kw => addrs kw | ODeclare _ => [] | OAdd _ _ kw => addrs kw end.
(** no key is named "clear" *)
Definition op_names_ok (o : bop) : Prop :=
  match o with ODefaults _ _ => True | ODeclare ks => Forall (fun k => bk_name k <> k_clear) ks | OAdd _ key _ => key_names_ok key end.
(** the general defaults never give a dictionary for the option [k] *)
Definition never_general (ops : list bop) (k : pstr) : Prop := forall kw a, In (ODefaults GAll kw) ops -> dfind kw k <> Some (BDict a).

Lemma addrs_In kw k a : dfind kw k = Some (BDict a) -> In a (addrs kw).
Proof. intro H. apply dfind_In in H. apply in_flat_map. exists (k, BDict a). split; [exact H|left; reflexivity]. Qed.
Lemma NoDup_app_r {A} (l l' : list A) : NoDup (l ++ l') -> NoDup l'.
Proof. induction l; simpl; [auto|]. intro H. inversion H; auto. Qed.
Lemma NoDup_app_l {A} (l l' : list A) : NoDup (l ++ l') -> NoDup l.
Proof. induction l; simpl; intro H; [constructor|]. inversion H as [|? ? X Y]; subst. constructor; [intro Z; apply X, in_or_app; auto|auto]. Qed.
Lemma addrs_inj : forall kw, NoDup (addrs kw) -> forall k k' a, dfind kw k = Some (BDict a) -> dfind kw k' = Some (BDict a) -> k = k'.
Proof.
  induction kw as [|[k0 v0] kw IH]; intros ND k k' a H H'; [discriminate|]. cbn [dfind] in H, H'.
  assert (ND' : NoDup (addrs kw)). { unfold addrs in ND. simpl in ND. apply NoDup_app_r in ND. exact ND. }
  assert (Hd : forall b, v0 = BDict b -> ~ In b (addrs kw)). { intros b ->. unfold addrs in ND. simpl in ND. inversion ND; assumption. }
  destruct (eqb k k0) eqn:E, (eqb k' k0) eqn:E'; try apply eqb_eq in E; try apply eqb_eq in E'.
  - congruence.
  - injection H as ->. destruct (Hd a eq_refl). eapply addrs_In; exact H'.
  - injection H' as ->. destruct (Hd a eq_refl). eapply addrs_In; exact H.
  - eapply IH; eassumption.
Qed.
Lemma declare_keys_ok : forall ks f, Forall (fun k => bk_name k <> k_clear) ks -> keys_ok f -> keys_ok (declare_keys f ks).
Proof.
  intros ks f F K. unfold keys_ok, declare_keys. simpl.
  assert (G : forall ks d, Forall (fun k => bk_name k <> k_clear) ks -> (forall e, In e d -> bk_name (snd e) <> k_clear) -> forall e, In e (fold_left (fun d k => dset d (bk_name k) k) ks d) -> bk_name (snd e) <> k_clear).
  { clear. induction ks as [|k ks IH]; intros d F H e; simpl; [apply H|]. inversion F; subst. apply IH; [assumption|]. intros e' He. 
    assert (X : forall (d : dict pstr bkey) n v e, In e (dset d n v) -> snd e = v \/ In e d).
    { clear. induction d as [|[k' v'] d IH]; intros n v e; cbn [dset]; [intros [<-|[]]; auto|]. destruct (eqb n k'); [intros [<-|H]; [auto|right; right; exact H]|].
      intros [<-|H]; [right; left; reflexivity|]. destruct (IH _ _ _ H); [auto|right; right; assumption]. }
    destruct (X _ _ _ _ He) as [->|Y]; auto. }
  apply G; assumption.
Qed.
Record hist_inv (h0 : heap) (K : pstr -> Prop) (rest : list bop) (st : bstate) : Prop := {
  hi_heap : proper_heap (st_heap st);
  hi_free : clear_free (st_heap st);
  hi_next : (h_next h0 <= h_next (st_heap st))%nat;
  hi_clear : no_clear_stored (st_factory st);
  hi_dict : forall g, NoDup (dkeys (f_defaults (st_factory st) g));
  hi_keys : keys_ok (st_factory st);
  hi_alloc : forall g k a, dfind (f_defaults (st_factory st) g) k = Some (BDict a) -> (a < h_next h0)%nat /\ ~ In a (flat_map op_addrs rest);
  hi_inj : forall g g' k k' a, dfind (f_defaults (st_factory st) g) k = Some (BDict a) -> dfind (f_defaults (st_factory st) g') k' = Some (BDict a) -> g = g' /\ k = k';
  hi_never : forall k a, K k -> dfind (f_defaults (st_factory st) GAll) k <> Some (BDict a);
  hi_given : forall g k a, dfind (f_defaults (st_factory st) g) k = Some (BDict a) -> g = GAll \/ K k -> h_cell (st_heap st) a = h_cell h0 a;
  hi_rest : forall a, In a (flat_map op_addrs rest) -> (a < h_next h0)%nat -> h_cell (st_heap st) a = h_cell h0 a
}.
Lemma hist_step h0 K o rest st : hist_inv h0 K (o :: rest) st -> proper_op o -> op_names_ok o -> NoDup (flat_map op_addrs (o :: rest)) ->
  (forall a, In a (op_addrs o) -> (a < h_next h0)%nat) -> (forall kw k a, o = ODefaults GAll kw -> K k -> dfind kw k <> Some (BDict a)) -> hist_inv h0 K rest (bstep st o).
Proof.
  intros [H1 H2 H3 H4 H5 H6 H7 H8 H9 H10 H11] P ON ND AL NG.
  assert (Rest : forall a, In a (flat_map op_addrs rest) -> In a (flat_map op_addrs (o :: rest))) by (intros a H; simpl; apply in_or_app; auto).
  assert (Dis : forall a, In a (op_addrs o) -> ~ In a (flat_map op_addrs rest)).
  { intros a Ha Hr. simpl in ND. revert ND. clear -Ha Hr. intro ND. induction (op_addrs o) as [|x l IH]; [destruct Ha|]. simpl in ND. inversion ND as [|? ? Hx ND']; subst.
    destruct Ha as [->|Ha]; [apply Hx, in_or_app; auto|apply IH; assumption]. }
  assert (NDo : NoDup (op_addrs o)) by (simpl in ND; apply NoDup_app_l in ND; exact ND).
  destruct (step_factory H4 P) as [SF SN]. pose proof (SN H5) as H5'.
  assert (H4' : no_clear_stored (st_factory (bstep st o))).
  { intro g. rewrite SF. destruct o as [g' kw| |]; simpl; try apply H4. destruct (group_eqb g' g); [|apply H4]. reflexivity. }
  destruct o as [g kw|ks|kd key kw].
  - (* defaults *)
    simpl in *. destruct (defaults (st_heap st) (st_factory st) g kw) as [h' f'] eqn:E. destruct P as [N Cl].
    destruct (defaults_factory E N Cl) as (_ & D2 & D3 & _). simpl in *.
    unfold defaults, set_defaults in E.
    set (kw0 := match dfind kw k_clear with Some v => if btruthy (st_heap st) v then [] else f_defaults (st_factory st) g | None => f_defaults (st_factory st) g end) in *.
    assert (K0 : kw0 = [] \/ kw0 = f_defaults (st_factory st) g). { unfold kw0. destruct (dfind kw k_clear) as [v|]; [destruct (btruthy _ v)|]; auto. }
    destruct (fold_left (set_default true) (dpop kw k_clear) (st_heap st, kw0)) as [h1 d] eqn:EF. injection E as <- Ef.
    destruct (loop_cells (NoDup_dkeys_dpop kw k_clear N) H1 H2 EF) as (L1 & L2 & L3 & L4).
    assert (Unch : forall x, (forall k, dfind (f_defaults (st_factory st) g) k = Some (BDict x) -> forall a, dfind kw k <> Some (BDict a)) -> h_cell h1 x = h_cell (st_heap st) x).
    { intros x Hx. apply L1. intros k Hk a Ha. rewrite dfind_dpop in Ha by exact N. destruct (eqb k k_clear); [discriminate|].
      destruct K0 as [K0|K0]; rewrite K0 in Hk; [discriminate|]. eapply Hx; eassumption. }
    (* where a dictionary of the new defaults comes from *)
    assert (Src : forall g' k a, dfind (f_defaults f' g') k = Some (BDict a) ->
      (g' = g /\ k <> k_clear /\ dfind kw k = Some (BDict a)) \/ (dfind (f_defaults (st_factory st) g') k = Some (BDict a) /\ (g' = g -> dfind kw k = None))).
    { intros g' k a H. rewrite SF in H. destruct (group_eqb g g') eqn:Eg.
      - apply group_eqb_eq in Eg. subst g'. destruct (pstr_eqb k k_clear) eqn:Ek; [discriminate|]. destruct (dfind kw k) as [v|] eqn:Ev.
        + left. split; [reflexivity|]. split; [|exact H]. intro X. subst. rewrite pstr_eqb_refl in Ek. discriminate.
        + destruct (clears kw); [discriminate|]. right. auto.
      - right. split; [exact H|]. intros ->. rewrite (proj2 (group_eqb_eq g g) eq_refl) in Eg. discriminate. }
    assert (NewOld : forall k k' g' a, dfind kw k = Some (BDict a) -> dfind (f_defaults (st_factory st) g') k' <> Some (BDict a)).
    { intros k k' g' a Hk Ho. destruct (H7 _ _ _ Ho) as [_ X]. apply X, in_or_app. left. eapply addrs_In; exact Hk. }
    constructor; simpl; auto.
    + rewrite L2. exact H3.
    + intros e He. rewrite D3 in He. apply H6, He.
    + intros g' k a H. destruct (Src _ _ _ H) as [(-> & _ & X)|[X _]].
      * split; [apply AL; eapply addrs_In; exact X|apply Dis; eapply addrs_In; exact X].
      * destruct (H7 _ _ _ X) as [Y Z]. split; [exact Y|]. intro W. apply Z, in_or_app. auto.
    + intros g1 g2 k k' a A B. destruct (Src _ _ _ A) as [(-> & _ & X)|[X _]], (Src _ _ _ B) as [(-> & _ & Y)|[Y _]].
      * split; [reflexivity|]. eapply addrs_inj; eassumption.
      * destruct (NewOld _ _ _ _ X Y).
      * destruct (NewOld _ _ _ _ Y X).
      * eapply H8; eassumption.
    + intros k a Kk H. destruct (Src _ _ _ H) as [(Eg & _ & X)|[X _]]; [subst g; eapply NG; [reflexivity|exact Kk|exact X]|eapply H9; eassumption].
    + intros g' k a H Hg. destruct (Src _ _ _ H) as [(-> & _ & X)|[X Y]].
      * rewrite Unch; [apply H11; [apply in_or_app; left; eapply addrs_In; exact X|apply AL; eapply addrs_In; exact X]|]. intros k' Hk'. destruct (NewOld _ _ _ _ X Hk').
      * rewrite Unch; [eapply H10; eassumption|]. intros k' Hk' b Hb. destruct (H8 _ _ _ _ _ X Hk') as [-> ->]. rewrite Y in Hb by reflexivity. discriminate.
    + intros a Ha La. rewrite Unch; [apply H11; auto|]. intros k Hk. destruct (H7 _ _ _ Hk) as [_ Y]. destruct Y. auto.
  - (* declare_keys *)
    simpl in *. constructor; simpl; auto. apply declare_keys_ok; assumption.
  - (* a pattern *)
    simpl in P, ON. simpl in SF, SN, H5', H4' |- *. unfold add in *. destruct (apply_key (st_heap st) key kw) as [h1 r1] eqn:Ek.
    destruct (apply_key_cells Ek H1 H2 ON P) as (A1 & A2 & A3 & A4 & A5).
    assert (Finish : forall h' f' st', st_heap st' = h' -> st_factory st' = f' -> (forall g, f_defaults f' g = f_defaults (st_factory st) g) /\ f_keys f' = f_keys (st_factory st) ->
      (forall x, (x < h_next h0)%nat -> ~ In x (addrs kw) -> (forall k, dfind (f_defaults (st_factory st) (GKind kd)) k = Some (BDict x) -> forall a, dfind (f_defaults (st_factory st) GAll) k <> Some (BDict a)) -> h_cell h' x = h_cell (st_heap st) x) ->
      (h_next h0 <= h_next h')%nat -> proper_heap h' -> clear_free h' -> hist_inv h0 K rest st').
    { intros h' f' st' <- <- [Ed Ey] Fr Nx Pp Cc.
      assert (Out : forall x, In x (flat_map op_addrs rest) -> ~ In x (addrs kw)) by (intros x Hr Hk; eapply Dis; eassumption).
      constructor; auto.
      - intro g. rewrite Ed. apply H4.
      - intro g. rewrite Ed. apply H5.
      - intros e He. rewrite Ey in He. apply H6, He.
      - intros g k a H. rewrite Ed in H. destruct (H7 _ _ _ H) as [X Y]. split; [exact X|auto].
      - intros g g' k k' a. rewrite !Ed. apply H8.
      - intros k a Kk. rewrite Ed. apply H9, Kk.
      - intros g k a H Hg. rewrite Ed in H. destruct (H7 _ _ _ H) as [X Y]. rewrite Fr; [eapply H10; eassumption|exact X| |].
        + intro Z. apply Y. simpl. apply in_or_app. auto.
        + intros k' Hk' b. destruct (H8 _ _ _ _ _ H Hk') as [-> ->]. destruct Hg as [Hg|Hg]; [discriminate|apply H9, Hg].
      - intros a Ha La. rewrite Fr; [apply H11; auto|exact La|auto|]. intros k' Hk'. destruct (H7 _ _ _ Hk') as [_ Y]. destruct Y. auto. }
    destruct r1 as [kw'|e].
    + destruct (A5 kw' eq_refl) as [N' Src]. destruct (build h1 (st_factory st) kd kw') as [[h2 f2] r2] eqn:Eb.
      pose proof (build_factory H4 Eb) as BF. destruct (build_cells H4 H5 N' H6 A3 A4 Eb) as (B1 & B2 & B3 & B4).
      assert (Fr : forall x, (x < h_next h0)%nat -> ~ In x (addrs kw) -> (forall k, dfind (f_defaults (st_factory st) (GKind kd)) k = Some (BDict x) -> forall a, dfind (f_defaults (st_factory st) GAll) k <> Some (BDict a)) -> h_cell h2 x = h_cell (st_heap st) x).
      { intros x Hx Nx Kx. assert (x < h_next (st_heap st))%nat by (unfold lt in *; now rewrite <- H3).
        rewrite B1; [apply A1; assumption|unfold lt in *; now rewrite <- A2| |exact Kx].
        intros k Hk. destruct (Src k x Hk) as [Y|(_ & -> & _)]; [apply Nx; eapply addrs_In; exact Y|lia]. }
      assert (Nx2 : (h_next h0 <= h_next h2)%nat) by (now rewrite <- B2, <- A2).
      destruct r2; (eapply (Finish h2 f2); [reflexivity|reflexivity|assumption..]).
    + eapply (Finish h1 (st_factory st)); [reflexivity|reflexivity|auto| |now rewrite <- A2|assumption|assumption].
      intros x Hx _ _. apply A1. unfold lt in *. now rewrite <- H3.
Qed.
Lemma hist_run h0 K : forall ops rest st, hist_inv h0 K (ops ++ rest) st -> Forall proper_op ops -> Forall op_names_ok ops -> NoDup (flat_map op_addrs (ops ++ rest)) ->
  (forall a, In a (flat_map op_addrs ops) -> (a < h_next h0)%nat) -> (forall k, K k -> never_general ops k) -> hist_inv h0 K rest (fold_left bstep ops st).
Proof.
  induction ops as [|o ops IH]; intros rest st I P ON ND AL NG; simpl; [exact I|]. inversion P; inversion ON; subst.
  apply IH; auto.
  - apply hist_step; auto.
    + intros a Ha. apply AL. simpl. apply in_or_app. auto.
    + intros kw k a -> Kk. eapply NG; [exact Kk|left; reflexivity].
  - simpl in ND. apply NoDup_app_r in ND. exact ND.
  - intros a Ha. apply AL. simpl. apply in_or_app. auto.
  - intros k Kk kw a Hin. eapply NG; [exact Kk|right; exact Hin].
Qed.
Definition all_addrs (ops : list bop) : list nat := flat_map op_addrs ops.
(** Dictionary options, after any history in which each dictionary is given once: the pattern's
    dictionary is the call's over the kind's over the general one, name by name, provided no kind
    default gives a dictionary for this option, or no general default ever does.  Missing for C51
    ([C51_stale_kind_default_refuted]): both give one. A dictionary named in overrides is merged too
    ([C51_overrides_dictionary_refuted]). *)
Theorem C51_dictionary_option_partial h ops kd kw h' f' p k :
  proper_heap h -> clear_free h -> Forall proper_op ops -> Forall op_names_ok ops -> NoDup (dkeys kw) ->
  NoDup (all_addrs (ops ++ [OAdd kd NoKey kw])) -> (forall a, In a (all_addrs (ops ++ [OAdd kd NoKey kw])) -> (a < h_next h)%nat) ->
  build (st_heap (bhistory h ops)) (st_factory (bhistory h ops)) kd kw = (h', f', Ok p) ->
  k <> k_overrides -> (named_in kw k -> exists a, dfind kw k = Some (BDict a)) ->
  (forall a, last_given (GKind kd) ops k <> Some (BDict a)) \/ never_general ops k ->
  agree (seen h' (dfind (bp_opts p) k))
        (win (win (seen h (dfind kw k)) (seen h (last_given (GKind kd) ops k))) (seen h (last_given GAll ops k))).
Proof.
  intros PH CF P ON N ND AL E Hk Hn Cond.
  assert (AL1 : forall a, In a (flat_map op_addrs ops) -> (a < h_next h)%nat) by (intros a Ha; apply AL; unfold all_addrs; rewrite flat_map_app; apply in_or_app; auto).
  assert (Init : hist_inv h (never_general ops) (ops ++ [OAdd kd NoKey kw]) (BState h new_factory [])).
  { constructor; simpl; auto; try (intros; discriminate); try (intro; constructor). intros e []. }
  pose proof (hist_run Init P ON ND AL1 (fun k H => H)) as I. fold (bhistory h ops) in I. set (st := bhistory h ops) in *.
  destruct I as [I1 I2 I3 I4 I5 I6 I7 I8 I9 I10 I11]. simpl in I7, I11. rewrite app_nil_r in I11.
  assert (I7' : forall g k a, dfind (f_defaults (st_factory st) g) k = Some (BDict a) -> (a < h_next h)%nat /\ ~ In a (addrs kw)) by (intros g k0 a H; destruct (I7 _ _ _ H) as [X Y]; rewrite app_nil_r in Y; auto).
  assert (ALk : forall a, In a (addrs kw) -> (a < h_next h)%nat).
  { intros a Ha. apply AL. unfold all_addrs. rewrite flat_map_app. apply in_or_app. right. simpl. rewrite app_nil_r. exact Ha. }
  assert (NDk : NoDup (addrs kw)). { unfold all_addrs in ND. rewrite flat_map_app in ND. apply NoDup_app_r in ND. simpl in ND. rewrite app_nil_r in ND. exact ND. }
  assert (PB : proper_build (st_heap st) (st_factory st) kd kw).
  { constructor; auto.
    - constructor; auto. intros k0 a H. unfold lt. rewrite <- I3. apply ALk. eapply addrs_In; exact H.
    - constructor; auto. intros k0 a H. unfold lt. rewrite <- I3. eapply I7'; exact H.
    - constructor; auto. intros k0 a H. unfold lt. rewrite <- I3. eapply I7'; exact H.
    - intros i j d d' k0 k1 a Hi Hj Hd Hd'.
      assert (Src : forall i d, nth_error [kw; f_defaults (st_factory st) (GKind kd); f_defaults (st_factory st) GAll] i = Some d ->
                 (i = 0%nat /\ d = kw) \/ (i = 1%nat /\ d = f_defaults (st_factory st) (GKind kd)) \/ (i = 2%nat /\ d = f_defaults (st_factory st) GAll)).
      { intros [|[|[|[|]]]] d0 X; simpl in X; try discriminate; injection X as <-; auto. }
      assert (Out : forall g k2 k3, dfind kw k2 = Some (BDict a) -> dfind (f_defaults (st_factory st) g) k3 = Some (BDict a) -> False).
      { intros g k2 k3 X Y. destruct (I7' _ _ _ Y) as [_ Z]. apply Z. eapply addrs_In; exact X. }
      destruct (Src i d Hi) as [[-> ->]|[[-> ->]|[-> ->]]], (Src j d' Hj) as [[-> ->]|[[-> ->]|[-> ->]]];
        try (exfalso; eapply Out; eassumption); try (destruct (I8 _ _ _ _ _ Hd Hd') as [X Y]; (discriminate X || (split; [reflexivity|exact Y]))).
      split; [reflexivity|]. eapply addrs_inj; eassumption. }
  destruct (build_spec PB E) as (B & _). specialize (B k Hk Hn).
  rewrite !(C88_defaults_are_the_latest_given h _ k P) in B.
  eapply agree_trans; [exact B|].
  assert (Same : forall g, (g = GAll \/ never_general ops k \/ forall a, last_given g ops k <> Some (BDict a)) -> agree (seen (st_heap st) (last_given g ops k)) (seen h (last_given g ops k))).
  { intros g Hg. destruct (last_given g ops k) as [[v|a]|] eqn:El; simpl; auto. intro n. rewrite I10 with (g := g) (k := k); [reflexivity| |].
    - unfold st. rewrite (C88_defaults_are_the_latest_given h _ k P). exact El.
    - destruct Hg as [Hg|[Hg|Hg]]; [auto|auto|destruct (Hg a eq_refl)]. }
  apply win_agree; [apply win_agree|apply Same; auto].
  - destruct (dfind kw k) as [[v|a]|] eqn:Ev; simpl; auto. intro n. rewrite I11; [reflexivity| |]; [|apply ALk]; eapply addrs_In; exact Ev.
  - apply Same. destruct Cond; auto.
Qed.

(** *** Where the property fails *)
(** a formatter dictionary: two names, two functions *)
Definition fa : pyval := VObj 1.
Definition fb : pyval := VObj 2.
Definition fb' : pyval := VObj 3.
Definition na : option pstr := Some (s "a").
Definition nb : option pstr := Some (s "b").
(** object 0 is {'a': fa}, object 1 is {'b': fb}, object 2 is {'b': fb'} *)
Definition h_ex : heap := Heap 3 (fun a => match a with 0%nat => [(na, fa)] | 1%nat => [(nb, fb)] | 2%nat => [(nb, fb')] | _ => [] end).
Definition formatter_is (a : nat) : opts := [(k_formatter, BDict a)].
(** [regex_defaults(formatter={'a': fa}).defaults(formatter={'b': fb}).regex().defaults(formatter={'b': fb'})]:
    the next [regex()] still converts 'b' with fb, which nothing says any more: building the
    first pattern wrote the general default into the kind's own dictionary. *)
Definition ops_ex : list bop := [ODefaults (GKind KRegex) (formatter_is 0); ODefaults GAll (formatter_is 1); OAdd KRegex NoKey []; ODefaults GAll (formatter_is 2)].
Theorem C51_stale_kind_default_refuted : exists h ops kd kw h' f' p k,
  proper_heap h /\ clear_free h /\ Forall proper_op ops /\ Forall op_names_ok ops /\ NoDup (dkeys kw) /\ NoDup (all_addrs (ops ++ [OAdd kd NoKey kw]))
  /\ build (st_heap (bhistory h ops)) (st_factory (bhistory h ops)) kd kw = (h', f', Ok p) /\ no_overrides kw
  /\ ~ agree (seen h' (dfind (bp_opts p) k)) (win (win (seen h (dfind kw k)) (seen h (last_given (GKind kd) ops k))) (seen h (last_given GAll ops k)))
  /\ (match seen h' (dfind (bp_opts p) k) with Some (Many get) => get nb = Some fb | _ => False end)
  /\ (match seen h (last_given GAll ops k) with Some (Many get) => get nb = Some fb' | _ => False end)
  /\ (match seen h (last_given (GKind kd) ops k) with Some (Many get) => get nb = None | _ => False end).
Proof.
  exists h_ex, ops_ex, KRegex, []. set (r := build _ _ _ _). exists (fst (fst r)), (snd (fst r)). eexists. exists k_formatter.
  split; [intros [|[|[|]]]; simpl; repeat constructor; intros []|]. split; [intros [|[|[|]]]; reflexivity|].
  split; [repeat constructor; simpl; intuition discriminate|]. split; [repeat constructor|]. split; [constructor|].
  split; [repeat constructor; simpl; intuition discriminate|]. split; [vm_compute; reflexivity|]. split; [reflexivity|].
  split; [|split; [vm_compute; reflexivity|split; vm_compute; reflexivity]].
  intro A. specialize (A nb). vm_compute in A. discriminate.
Qed.
(** [defaults(formatter={'a': fa})] then [regex(formatter={'b': fb}, overrides=['formatter'])]: the
    pattern also has the default's entry 'a', as if overrides were not given. *)
Theorem C51_overrides_dictionary_refuted : exists h ops kd kw h' f' p k,
  Forall proper_op ops /\ NoDup (dkeys kw) /\ named_in kw k /\ NoDup (all_addrs (ops ++ [OAdd kd NoKey kw]))
  /\ build (st_heap (bhistory h ops)) (st_factory (bhistory h ops)) kd kw = (h', f', Ok p)
  /\ ~ agree (seen h' (dfind (bp_opts p) k)) (seen h (dfind kw k)).
Proof.
  exists h_ex, [ODefaults GAll (formatter_is 0)], KRegex, [(k_formatter, BDict 1); (k_overrides, BVal (VList [VStr k_formatter]))]. set (r := build _ _ _ _).
  exists (fst (fst r)), (snd (fst r)). eexists. exists k_formatter.
  split; [repeat constructor; simpl; intuition discriminate|]. split; [repeat constructor; simpl; intuition discriminate|].
  split; [left; exists [VStr k_formatter]; split; [reflexivity|left; reflexivity]|]. split; [repeat constructor; simpl; intuition discriminate|]. split; [vm_compute; reflexivity|].
  intro A. specialize (A na). vm_compute in A. discriminate.
Qed.
(** *** Non-trivial cases *)
Definition k_tags : pstr := s "tags".
Definition tags (l : list String.string) : bval := BVal (VList (map (fun x => VStr (s x)) l)).
Definition ops_tags : list bop :=
  [ODefaults GAll [(k_tags, tags ["old"]); (k_name, BVal (VStr (s "n")))]; OAdd KString NoKey []; ODefaults GAll [(k_clear, BVal (VBool true)); (k_tags, tags ["general"])];
   ODefaults (GKind KRegex) [(k_tags, tags ["kind"]); (s "children", BVal (VBool true))]].
Example C51_each_option_case :
  Forall proper_op ops_tags
  /\ last_given GAll ops_tags k_tags = Some (tags ["general"]) /\ last_given GAll ops_tags k_name = None
  /\ match build (st_heap (bhistory h_ex ops_tags)) (st_factory (bhistory h_ex ops_tags)) KRegex [(k_tags, tags ["call"]); (s "children", BVal (VBool false))] with
     | (_, _, Ok p) => dfind (bp_opts p) k_tags = Some (tags ["general"; "kind"; "call"]) /\ dfind (bp_opts p) (s "children") = Some (BVal (VBool false)) /\ dfind (bp_opts p) k_name = None
     | _ => False
     end
  /\ match build (st_heap (bhistory h_ex ops_tags)) (st_factory (bhistory h_ex ops_tags)) KRegex [(k_tags, tags ["call"]); (k_overrides, tags ["tags"])] with
     | (_, _, Ok p) => dfind (bp_opts p) k_tags = Some (tags ["call"])
     | _ => False
     end.
Proof.
  split; [repeat constructor; simpl; intuition discriminate|]. split; [reflexivity|]. split; [reflexivity|]. vm_compute. auto.
Qed.
(** the hypotheses of [C51_dictionary_option_partial] on a history where it matters *)
Example C51_dictionary_option_case : let ops := [ODefaults GAll (formatter_is 0); OAdd KRegex NoKey []; OAdd KString NoKey (formatter_is 2)] in
  NoDup (all_addrs (ops ++ [OAdd KRegex NoKey (formatter_is 1)])) /\ (forall a, last_given (GKind KRegex) ops k_formatter <> Some (BDict a))
  /\ match build (st_heap (bhistory h_ex ops)) (st_factory (bhistory h_ex ops)) KRegex (formatter_is 1) with
     | (h', _, Ok p) => match seen h' (dfind (bp_opts p) k_formatter) with Some (Many get) => get na = Some fa /\ get nb = Some fb | _ => False end
     | _ => False
     end.
Proof. split; [repeat constructor; simpl; intuition discriminate|]. split; [discriminate|]. vm_compute. auto. Qed.

(** ** C62: later calls and already built patterns *)
Lemma set_defaults_cell_frame h a b x : x <> a -> x <> b -> h_cell (set_defaults_cell h a b) x = h_cell h x.
Proof.
  intros Ha Hb. unfold set_defaults_cell. assert (forall h c, h_cell (hset h b c) x = h_cell h x) as Fb by (intros; simpl; destruct (Nat.eqb x b) eqn:E; [apply Nat.eqb_eq in E; contradiction|reflexivity]).
  assert (forall h c, h_cell (hset h a c) x = h_cell h x) as Fa by (intros; simpl; destruct (Nat.eqb x a) eqn:E; [apply Nat.eqb_eq in E; contradiction|reflexivity]).
  rewrite Fb. destruct (dfind (h_cell h a) (Some k_clear)) as [v|]; [|reflexivity]. destruct (truthy v); rewrite ?Fb, ?Fa; reflexivity.
Qed.
Lemma set_defaults_cell_next h a b : h_next (set_defaults_cell h a b) = h_next h.
Proof. unfold set_defaults_cell. destruct (dfind _ _) as [v|]; [destruct (truthy v)|]; reflexivity. Qed.
Lemma set_default_frame ov h kw k0 v0 h1 kw1 : set_default ov (h, kw) (k0, v0) = (h1, kw1) ->
  (forall x, v0 <> BDict x -> dfind kw k0 <> Some (BDict x) -> h_cell h1 x = h_cell h x) /\ h_next h1 = h_next h.
Proof.
  unfold set_default. cbn [fst snd]. intro E.
  assert (X : exists kw2, (match dfind kw k0 with
    | None => (h, kw)
    | Some own => match v0, own with
        | BVal (VList l), BVal (VList l') => (h, dset kw k0 (BVal (VList (l ++ l'))))
        | BDict a, BDict b => (set_defaults_cell h a b, kw) | _, _ => (h, kw) end end) = (h1, kw2)).
  { destruct (match dfind kw k0 with None => _ | _ => _ end) as [h2 kw2]. destruct (negb (dmem kw2 k0) || ov); injection E as <- <-; eauto. }
  destruct X as [kw2 X]. clear E.
  destruct (dfind kw k0) as [own|]; [|injection X as <- _; auto].
  destruct v0 as [v|a].
  - assert (h1 = h) as -> by (destruct v; destruct own as [[]|]; injection X as <- _; reflexivity). auto.
  - destruct own as [w|b]; [injection X as <- _; auto|]. injection X as <- _. split; [|apply set_defaults_cell_next].
    intros x Hx Hx'. apply set_defaults_cell_frame; congruence.
Qed.
Lemma loop_frame ov : forall (D : opts) h kw h' kw', fold_left (set_default ov) D (h, kw) = (h', kw') ->
  (forall x, ~ In x (addrs D) -> (forall k, dfind kw k <> Some (BDict x)) -> h_cell h' x = h_cell h x /\ (forall k, dfind kw' k <> Some (BDict x))) /\ h_next h' = h_next h.
Proof.
  induction D as [|[k0 v0] D IH]; intros h kw h' kw' E; cbn [fold_left] in E; [injection E as <- <-; auto|].
  destruct (set_default ov (h, kw) (k0, v0)) as [h1 kw1] eqn:E1. destruct (set_default_pick E1) as [P _]. destruct (set_default_frame E1) as [F1 F2].
  destruct (IH _ _ _ _ E) as [I1 I2]. split; [|congruence]. intros x Hx Hk.
  assert (V : v0 <> BDict x) by (intros ->; apply Hx; left; reflexivity).
  destruct (I1 x) as [J1 J2]; [intro; apply Hx; unfold addrs; simpl; apply in_or_app; auto| |split; [rewrite J1; apply F1; auto|exact J2]].
  intros k X. rewrite P in X. destruct (eqb k k0) eqn:Ek; [|eapply Hk; exact X]. destruct ov; [congruence|].
  specialize (Hk k0). destruct (dfind kw k0) as [[w|b]|], v0; simpl in X; congruence.
Qed.
Lemma addrs_dpop kw k x : In x (addrs (dpop kw k)) -> In x (addrs kw).
Proof.
  induction kw as [|[k0 v0] kw IH]; cbn [dpop]; [auto|]. destruct (eqb k k0).
  - intro H. unfold addrs. simpl. apply in_or_app. auto.
  - unfold addrs. simpl. intro H. apply in_app_or in H as [H|H]; apply in_or_app; auto.
Qed.
Lemma dfind_dpop_addrs kw k k' x : dfind (dpop kw k) k' = Some (BDict x) -> In x (addrs kw).
Proof. intro H. eapply addrs_dpop, addrs_In, H. Qed.
Lemma set_defaults_frame ov h D kw h' D' kw' : set_defaults ov h D kw = (h', D', kw') ->
  (forall x, ~ In x (addrs D) -> (forall k, dfind kw k <> Some (BDict x)) -> h_cell h' x = h_cell h x /\ (forall k, dfind kw' k <> Some (BDict x))) /\ h_next h' = h_next h.
Proof.
  unfold set_defaults. set (kw0 := match dfind D k_clear with Some v => if btruthy h v then [] else kw | None => kw end). destruct (fold_left _ _ _) as [h1 kw1] eqn:E.
  intro X. injection X as <- <- <-. destruct (loop_frame E) as [F1 F2]. split; [|exact F2]. intros x Hx Hk. apply F1; [intro H; apply Hx; eapply addrs_dpop; exact H|].
  intros k H. unfold kw0 in H. destruct (dfind D k_clear) as [v|]; [destruct (btruthy h v); [discriminate|]|]; eapply Hk; exact H.
Qed.
Definition unused (f : factory) (x : nat) : Prop := forall g, ~ In x (addrs (f_defaults f g)).
Lemma take_overrides_addrs h kw kw0 bk : take_overrides h kw = Ok (kw0, bk) -> kw0 = dpop kw k_overrides /\ (forall x, In x (addrs bk) -> In x (addrs kw)).
Proof.
  assert (B : forall names (kw acc b : opts), backup_of kw names acc = Ok b -> forall x, In x (addrs b) -> In x (addrs kw) \/ In x (addrs acc)).
  { assert (S : forall (d : opts) n v x, In x (addrs (dset d n v)) -> In x (addrs d) \/ v = BDict x).
    { induction d as [|[k0 v0] d IH]; intros n v x; cbn [dset].
      - unfold addrs. simpl. rewrite app_nil_r. destruct v; [intros []|intros [->|[]]; auto].
      - destruct (eqb n k0); unfold addrs; simpl; intro H; apply in_app_or in H as [H|H].
        + destruct v; [destruct H|]. destruct H as [->|[]]. auto.
        + left. apply in_or_app. auto.
        + left. apply in_or_app. auto.
        + destruct (IH _ _ _ H); [left; apply in_or_app; auto|auto]. }
    induction names as [|y names IH]; intros kw1 acc b E x Hx; simpl in E; [injection E as <-; auto|]. destruct y; try discriminate. destruct (dfind kw1 v) as [w|] eqn:Ew; [|discriminate].
    destruct (IH _ _ _ E x Hx) as [H|H]; [auto|]. destruct (S _ _ _ _ H) as [H'|H']; [auto|]. subst. left. eapply addrs_In; exact Ew. }
  unfold take_overrides. destruct (dfind kw k_overrides) as [v|]; [|intro E; injection E as <- <-; split; [reflexivity|intros x []]].
  destruct (override_names v) as [l|]; [|destruct (btruthy h v); [discriminate|]; intro E; injection E as <- <-; split; [reflexivity|intros x []]].
  destruct (backup_of _ l []) as [b|] eqn:Eb; [|discriminate]. intro E. injection E as <- <-. split; [reflexivity|]. intros x Hx. destruct (B _ _ _ _ Eb x Hx) as [H|[]]. eapply addrs_dpop; exact H.
Qed.
Lemma build_frame h f kd kw h' f' r : build h f kd kw = (h', f', r) ->
  (forall x, (x < h_next h)%nat -> ~ In x (addrs kw) -> unused f x -> h_cell h' x = h_cell h x) /\ (h_next h <= h_next h')%nat
  /\ (forall x, unused f x -> unused f' x)
  /\ (forall p, r = Ok p -> (bp_formatters p < h_next h')%nat \/ ~ (~ In (bp_formatters p) (addrs kw) /\ unused f (bp_formatters p))).
Proof.
  intro E. unfold build in E. destruct (take_overrides h kw) as [[kw0 bk]|e] eqn:Eo; [|injection E as <- <- <-; repeat (split; [auto|]); discriminate].
  destruct (take_overrides_addrs Eo) as [-> Tb].
  destruct (set_defaults false h _ _) as [[h1 d1] kw1] eqn:E1. set (f1 := set_group f (GKind kd) d1) in *.
  destruct (set_defaults false h1 _ _) as [[h2 d2] kw2] eqn:E2. set (f2 := set_group f1 GAll d2) in *.
  destruct (pattern_formatters h2 (update kw2 bk)) as [[h3 a] lib] eqn:E3. destruct (inherit_keys h3 _ _) as [h4 p'] eqn:E4. injection E as <- <- <-.
  destruct (set_defaults_frame E1) as [A1 A2]. destruct (set_defaults_frame E2) as [B1 B2].
  destruct (formatters_frame E3) as [F1 F2]. destruct (inherit_frame E4) as (I1 & I2 & _).
  assert (D1 : d1 = dpop (f_defaults f (GKind kd)) k_clear) by (unfold set_defaults in E1; destruct (fold_left _ _ _); injection E1 as _ <- _; reflexivity).
  assert (D2 : d2 = dpop (f_defaults f1 GAll) k_clear) by (unfold set_defaults in E2; destruct (fold_left _ _ _); injection E2 as _ <- _; reflexivity).
  assert (U1 : forall x, unused f x -> unused f1 x).
  { intros x U g. unfold f1. simpl. destruct (group_eqb g (GKind kd)); [|apply U]. subst d1. intro H. eapply (U (GKind kd)), addrs_dpop, H. }
  assert (U2 : forall x, unused f1 x -> unused f2 x).
  { intros x U g. unfold f2. simpl. destruct (group_eqb g GAll); [|apply U]. subst d2. intro H. eapply (U GAll), addrs_dpop, H. }
  assert (Main : forall x, ~ In x (addrs kw) -> unused f x -> h_cell h2 x = h_cell h x /\ forall k, dfind (update kw2 bk) k <> Some (BDict x)).
  { intros x Nk U. destruct (A1 x (U _)) as [X1 X2]; [intros k H; apply Nk; eapply dfind_dpop_addrs; exact H|]. destruct (B1 x (U1 x U GAll) X2) as [Y1 Y2]. split; [congruence|].
    intros k H. assert (G : forall bk kw, (forall k, dfind kw k <> Some (BDict x)) -> ~ In x (addrs bk) -> dfind (update kw bk) k <> Some (BDict x)).
    { clear. induction bk as [|[k0 v0] bk IH]; intros kw H Hb; simpl; [apply H|]. apply IH; [|intro X; apply Hb; unfold addrs; simpl; apply in_or_app; auto].
      intro k'. rewrite dfind_dset. destruct (eqb k' k0); [|apply H]. intro X. injection X as ->. apply Hb. left. reflexivity. }
    eapply G; [exact Y2|intro X; apply Nk, Tb, X|exact H]. }
  split; [|split; [|split]].
  - intros x Hx Nk U. rewrite I1 by (unfold lt in *; rewrite <- F2, B2, A2; exact Hx). rewrite F1 by (rewrite B2, A2; exact Hx). apply Main; assumption.
  - rewrite <- I2, <- F2, B2, A2. apply le_n.
  - auto.
  - intros p X. injection X as <-. unfold inherit_keys in E4. simpl in E4.
    assert (a < h_next h3 \/ dfind (update kw2 bk) k_formatter = Some (BDict a))%nat as [La|Da].
    { unfold pattern_formatters in E3. destruct (dfind (update kw2 bk) k_formatter) as [[v|b]|] eqn:Ef.
      - left. destruct (truthy v); injection E3 as <- <- _; simpl; lia.
      - destruct (h_cell h2 b); [left; injection E3 as <- <- _; simpl; lia|right; injection E3 as _ <- _; reflexivity].
      - left. injection E3 as <- <- _. simpl. lia. }
    + left. clear -E4 La. destruct (f_keys f); [injection E4 as <- <-; exact La|]. destruct (negb lib); [injection E4 as <- <-; exact La|]. destruct (flat_map _ _); injection E4 as <- <-; simpl; lia.
    + assert (bp_formatters p' = a \/ (bp_formatters p' < h_next h4)%nat) as [->|L]; [|right|left; exact L].
      { clear -E4. destruct (f_keys f); [injection E4 as <- <-; auto|]. destruct (negb lib); [injection E4 as <- <-; auto|]. destruct (flat_map _ _); injection E4 as <- <-; simpl; [auto|right; lia]. }
      intros [Nk U]. destruct (Main a Nk U) as [_ X]. apply (X _ Da).
Qed.
Lemma addrs_dset : forall (d : opts) n v x, In x (addrs (dset d n v)) -> In x (addrs d) \/ v = BDict x.
Proof.
  induction d as [|[k0 v0] d IH]; intros n v x; cbn [dset].
  - unfold addrs. simpl. rewrite app_nil_r. destruct v; [intros []|intros [->|[]]; auto].
  - destruct (eqb n k0); unfold addrs; simpl; intro H; apply in_app_or in H as [H|H].
    + destruct v; [destruct H|]. destruct H as [->|[]]. auto.
    + left. apply in_or_app. auto.
    + left. apply in_or_app. auto.
    + destruct (IH _ _ _ H); [left; apply in_or_app; auto|auto].
Qed.
Lemma set_default_addrs ov h kw k0 v0 h1 kw1 x : set_default ov (h, kw) (k0, v0) = (h1, kw1) -> In x (addrs kw1) -> In x (addrs kw) \/ v0 = BDict x.
Proof.
  unfold set_default. cbn [fst snd]. intro E.
  set (M := match dfind kw k0 with None => (h, kw) | Some own => match v0, own with
        | BVal (VList l), BVal (VList l') => (h, dset kw k0 (BVal (VList (l ++ l'))))
        | BDict a, BDict b => (set_defaults_cell h a b, kw) | _, _ => (h, kw) end end) in *.
  assert (X : forall x, In x (addrs (snd M)) -> In x (addrs kw)).
  { intros y. unfold M. destruct (dfind kw k0) as [own|]; [|auto]. destruct v0 as [v|a]; [destruct v; destruct own as [[]|]; simpl; auto|destruct own; auto].
    intro H. apply addrs_dset in H as [H|H]; [exact H|discriminate]. }
  destruct M as [h2 kw2]. simpl in X. destruct (negb (dmem kw2 k0) || ov); injection E as <- <-; [|auto].
  intro H. apply addrs_dset in H as [H|H]; auto.
Qed.
Lemma loop_addrs ov x : forall (D : opts) h kw h' kw', fold_left (set_default ov) D (h, kw) = (h', kw') -> In x (addrs kw') -> In x (addrs kw) \/ In x (addrs D).
Proof.
  induction D as [|[k0 v0] D IH]; intros h kw h' kw' E H; cbn [fold_left] in E; [injection E as <- <-; auto|].
  destruct (set_default ov (h, kw) (k0, v0)) as [h1 kw1] eqn:E1. destruct (IH _ _ _ _ E H) as [X|X].
  - destruct (set_default_addrs E1 X) as [Y|Y]; [auto|]. right. subst. left. reflexivity.
  - right. unfold addrs. simpl. apply in_or_app. auto.
Qed.
Lemma apply_key_frame h key kw h' r : apply_key h key kw = (h', r) ->
  (forall x, (x < h_next h)%nat -> h_cell h' x = h_cell h x) /\ (h_next h <= h_next h')%nat
  /\ forall kw' x, r = Ok kw' -> In x (addrs kw') -> In x (addrs kw) \/ (x = h_next h /\ h_next h' = S (h_next h)).
Proof.
  intro E. unfold apply_key in E. destruct key as [|k|[|k0 ks]].
  - injection E as <- <-. split; [auto|]. split; [auto|]. intros kw' x X. injection X as <-. auto.
  - injection E as <- <-. split; [auto|]. split; [auto|]. intros kw' x X. injection X as <-. unfold setdefault. intro H. left.
    assert (S : forall n v kw0, In x (addrs (match dfind kw0 n with Some _ => kw0 | None => dset kw0 n (BVal v) end)) -> In x (addrs kw0)).
    { intros n v kw0 Y. destruct (dfind kw0 n); [exact Y|]. apply addrs_dset in Y as [Y|Y]; [exact Y|discriminate]. }
    apply S in H. apply S in H. exact H.
  - injection E as <- <-. split; [auto|]. split; [auto|]. intros kw' x X. injection X as <-. auto.
  - destruct (match dfind kw k_formatter with None | Some (BVal VNone) => Some [] | Some (BDict a) => Some (h_cell h a) | Some (BVal _) => None end) as [c|].
    + set (c' := fold_left (fun (c : cell) (k : bkey) => csetdefault c (Some (bk_name k)) (bk_converter k)) (k0 :: ks) c) in E. unfold halloc in E. injection E as <- <-. split; [intros x Hx; apply (halloc_frame c' Hx)|]. split; [simpl; lia|].
      intros kw' x X. injection X as <-. intro H. apply addrs_dset in H as [H|H]; [auto|]. injection H as <-. auto.
    + injection E as <- <-. split; [auto|]. split; [auto|]. discriminate.
Qed.
(** the objects given as (part of) a default *)
Definition default_addrs (ops : list bop) : list nat := flat_map (fun o => match o with ODefaults _ kw => addrs kw | _ => [] end) ops.
Lemma step_frame st o :
  (forall x, (x < h_next (st_heap st))%nat -> ~ In x (op_addrs o) -> unused (st_factory st) x -> h_cell (st_heap (bstep st o)) x = h_cell (st_heap st) x)
  /\ (h_next (st_heap st) <= h_next (st_heap (bstep st o)))%nat
  /\ (forall x, unused (st_factory st) x -> ~ In x (default_addrs [o]) -> unused (st_factory (bstep st o)) x)
  /\ (forall p, In p (st_built (bstep st o)) -> In p (st_built st) \/ (bp_formatters p < h_next (st_heap (bstep st o)))%nat \/ In (bp_formatters p) (op_addrs o) \/ ~ unused (st_factory st) (bp_formatters p)).
Proof.
  destruct o as [g kw|ks|kd key kw]; simpl.
  - unfold defaults. destruct (set_defaults true _ kw _) as [[h1 d1] kw1] eqn:E. destruct (set_defaults_frame E) as [F1 F2]. simpl. split; [|split; [rewrite F2; apply le_n|split; [|auto]]].
    + intros x _ Nx U. apply F1; [exact Nx|]. intros k H. apply (U g). eapply addrs_In; exact H.
    + intros x U Nx g'. simpl. destruct (group_eqb g' g) eqn:Eg; [|apply U]. intro H. unfold set_defaults in E.
      set (kw0 := match dfind kw k_clear with Some v => if btruthy (st_heap st) v then [] else f_defaults (st_factory st) g | None => f_defaults (st_factory st) g end) in *.
      destruct (fold_left _ _ _) as [h2 kw2] eqn:EF. injection E as <- <- <-. destruct (loop_addrs EF H) as [X|X].
      * unfold kw0 in X. destruct (dfind kw k_clear) as [v|]; [destruct (btruthy _ v); [destruct X|]|]; eapply U; exact X.
      * apply Nx. rewrite app_nil_r. eapply addrs_dpop; exact X.
  - repeat split; auto.
  - unfold add. destruct (apply_key (st_heap st) key kw) as [h1 r1] eqn:Ek. destruct (apply_key_frame Ek) as (A1 & A2 & A3). destruct r1 as [kw'|e].
    + destruct (build h1 (st_factory st) kd kw') as [[h2 f2] r2] eqn:Eb. destruct (build_frame Eb) as (B1 & B2 & B3 & B4).
      assert (forall st', st_heap st' = h2 -> st_factory st' = f2 -> (forall p, In p (st_built st') -> In p (st_built st) \/ r2 = Ok p) ->
        (forall x, (x < h_next (st_heap st))%nat -> ~ In x (addrs kw) -> unused (st_factory st) x -> h_cell (st_heap st') x = h_cell (st_heap st) x)
        /\ (h_next (st_heap st) <= h_next (st_heap st'))%nat /\ (forall x, unused (st_factory st) x -> ~ False -> unused (st_factory st') x)
        /\ (forall p, In p (st_built st') -> In p (st_built st) \/ (bp_formatters p < h_next (st_heap st'))%nat \/ In (bp_formatters p) (addrs kw) \/ ~ unused (st_factory st) (bp_formatters p))) as Fin.
      { intros st' -> -> Hb. split; [|split; [now rewrite A2|split; [auto|]]].
        - intros x Hx Nx U. rewrite B1; [apply A1, Hx|unfold lt in *; now rewrite <- A2| |exact U]. intro H. destruct (A3 kw' x eq_refl H) as [Y|[-> _]]; [auto|lia].
        - intros p Hp. destruct (Hb p Hp) as [X|X]; [auto|]. right. destruct (B4 p X) as [Y|Y]; [auto|].
          destruct (in_dec Nat.eq_dec (bp_formatters p) (addrs kw')) as [Z|Z].
          + destruct (A3 kw' _ eq_refl Z) as [W|[W W']]; [auto|]. left. rewrite W. unfold lt. now rewrite <- W'.
          + right. right. intro U. apply Y. auto. }
      destruct r2; apply Fin; try reflexivity; simpl; [|auto]. intros q Hq. apply in_app_or in Hq as [Hq|[->|[]]]; auto.
    + simpl. split; [intros x Hx _ _; apply A1, Hx|]. split; [exact A2|]. split; auto.
Qed.
Lemma run_frame : forall ops st x, (x < h_next (st_heap st))%nat -> ~ In x (all_addrs ops) -> unused (st_factory st) x ->
  h_cell (st_heap (fold_left bstep ops st)) x = h_cell (st_heap st) x.
Proof.
  induction ops as [|o ops IH]; intros st x Hx Nx U; simpl; [reflexivity|]. destruct (step_frame st o) as (F1 & F2 & F3 & _).
  assert (No : ~ In x (op_addrs o)) by (intro; apply Nx; unfold all_addrs; simpl; apply in_or_app; auto).
  rewrite IH; [apply F1; assumption|unfold lt in *; now rewrite <- F2|intro; apply Nx; unfold all_addrs; simpl; apply in_or_app; auto|].
  apply F3; [exact U|]. destruct o; simpl; auto. rewrite app_nil_r. exact No.
Qed.
Lemma built_inv h : forall ops, (forall a, In a (all_addrs ops) -> (a < h_next h)%nat) -> let st := bhistory h ops in
  (h_next h <= h_next (st_heap st))%nat /\ (forall x, ~ In x (default_addrs ops) -> unused (st_factory st) x) /\ (forall p, In p (st_built st) -> (bp_formatters p < h_next (st_heap st))%nat).
Proof.
  induction ops as [|o ops IH] using rev_ind; intro AL; simpl; [split; [auto|]; split; [intros x _ g []|intros p []]|].
  unfold bhistory. rewrite fold_left_app. simpl. fold (bhistory h ops).
  assert (AL' : forall a, In a (all_addrs ops) \/ In a (op_addrs o) -> (a < h_next h)%nat).
  { intros a Ha. apply AL. unfold all_addrs. rewrite flat_map_app. apply in_or_app. simpl. rewrite app_nil_r. exact Ha. }
  destruct IH as (I1 & I2 & I3); [intros a Ha; auto|]. destruct (step_frame (bhistory h ops) o) as (F1 & F2 & F3 & F4).
  split; [now rewrite I1|]. split.
  - intros x Hx. unfold default_addrs in Hx. rewrite flat_map_app in Hx. apply F3; [apply I2|]; intro X; apply Hx, in_or_app; auto.
  - intros p Hp. destruct (F4 p Hp) as [X|[X|[X|X]]].
    + unfold lt. rewrite <- F2. apply I3, X.
    + exact X.
    + unfold lt. rewrite <- F2, <- I1. apply AL'. auto.
    + destruct (in_dec Nat.eq_dec (bp_formatters p) (default_addrs ops)) as [Y|Y]; [|destruct X; apply I2, Y].
      unfold lt. rewrite <- F2, <- I1. apply AL'. left. unfold default_addrs in Y. unfold all_addrs. apply in_flat_map in Y as (o' & Ho & Y). apply in_flat_map. exists o'. split; [exact Ho|].
      destruct o'; simpl in *; auto; destruct Y.
Qed.
(** A built pattern is not changed by later calls, provided its dictionary of formatters was never
    given as a default and is not given again.  Missing for C62: a pattern which uses the
    dictionary of a default ([C62_defaults_change_built_patterns_refuted]). *)
Theorem C62_built_patterns_keep_their_formatters_partial h before later p : (forall a, In a (all_addrs before) -> (a < h_next h)%nat) ->
  In p (st_built (bhistory h before)) -> ~ In (bp_formatters p) (default_addrs before) -> ~ In (bp_formatters p) (all_addrs later) ->
  h_cell (st_heap (bhistory h (before ++ later))) (bp_formatters p) = h_cell (st_heap (bhistory h before)) (bp_formatters p).
Proof.
  intros AL Hp Nd Nl. destruct (built_inv AL) as (_ & I2 & I3). unfold bhistory at 1. rewrite fold_left_app. apply run_frame; auto.
Qed.
(** The patterns already built are the same objects, with the same options. *)
Theorem C62_built_patterns_remain h before later : exists more, st_built (bhistory h (before ++ later)) = st_built (bhistory h before) ++ more.
Proof.
  unfold bhistory at 1. rewrite fold_left_app. fold (bhistory h before). generalize (bhistory h before). induction later as [|o later IH]; intro st; simpl; [exists []; now rewrite app_nil_r|].
  destruct (IH (bstep st o)) as [more ->]. destruct o as [g kw|ks|kd key kw]; simpl.
  - destruct (defaults _ _ _ _). exists more. reflexivity.
  - exists more. reflexivity.
  - destruct (add _ _ _ _ _) as [[h' f'] [p|e]]; simpl; [exists (p :: more); now rewrite <- app_assoc|exists more; reflexivity].
Qed.
(** [defaults(formatter={'a': fa}).regex().defaults(formatter={'b': fb})]: the pattern built
    before the second call now also converts 'b' with fb. *)
Theorem C62_defaults_change_built_patterns_refuted : exists h before later p n,
  Forall proper_op (before ++ later) /\ NoDup (all_addrs (before ++ later)) /\ In p (st_built (bhistory h before))
  /\ dfind (h_cell (st_heap (bhistory h before)) (bp_formatters p)) n = None
  /\ dfind (h_cell (st_heap (bhistory h (before ++ later))) (bp_formatters p)) n = Some fb.
Proof.
  exists h_ex, [ODefaults GAll (formatter_is 0); OAdd KRegex NoKey []], [ODefaults GAll (formatter_is 1)]. eexists. exists nb.
  split; [repeat constructor; simpl; intuition discriminate|]. split; [repeat constructor; simpl; intuition discriminate|]. split; [left; vm_compute; reflexivity|].
  split; vm_compute; reflexivity.
Qed.
Example C62_case : let before := [OAdd KRegex NoKey (formatter_is 0); OAdd KString NoKey []] in let later := [ODefaults GAll (formatter_is 1); OAdd KRegex NoKey []; ODefaults GAll (formatter_is 2)] in
  Forall (fun p => ~ In (bp_formatters p) (default_addrs before) /\ ~ In (bp_formatters p) (all_addrs later)) (st_built (bhistory h_ex before)).
Proof. vm_compute. repeat constructor; intuition discriminate. Qed.
