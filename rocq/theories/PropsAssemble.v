(** * Property C130: the options given to a builder are what the matches show *)
From Coq Require Import Permutation.
From Verif Require Import Typed Base BaseFacts Match MatchFacts Coll CollFacts Loose Conseq ConseqFacts Processors ProcFacts Pattern PatternFacts PropsLoose PropsPattern Topo Rules RulesFacts PropsRules Chain SpecChain PropsChain Builder BuilderFacts PropsBuilder PropsKeys Rules Rebulk RebulkFacts PropsRebulk Pipeline OnceFacts PropsOnce PropsInside Assemble.
From Coq Require String.
Export Coq.Strings.String.StringSyntax.
Open Scope string_scope.
Open Scope list_scope.
Set Implicit Arguments.
Unset Strict Implicit.
Open Scope Z_scope.

(** ** Specification *)
(** what a call gives for an option: its keyword argument, or what its key stands for *)
Definition asked (key : keyarg) (kw : opts) (k : pstr) : option bval :=
  match dfind kw k with
  | Some v => Some v
  | None => match key with
            | OneKey t => if pstr_eqb k (s "name") then Some (BVal (VStr (bk_name t)))
                          else if pstr_eqb k (s "formatter") then Some (BVal (bk_converter t)) else None
            | _ => None
            end
  end.
(** the option in force: what the call gives, else the default of the kind of pattern, else the
    general default, as last given before the call; two lists are put together (general first);
    an option the call names in [overrides] is the call's *)
Definition overridden (kw : opts) (k : pstr) : bool :=
  match dfind kw (s "overrides") with
  | Some (BVal (VList ns)) => existsb (fun v => match v with VStr x => pstr_eqb x k | _ => false end) ns
  | Some (BVal (VStr t)) => existsb (fun c => pstr_eqb [c] k) t
  | _ => false
  end.
Definition wanted (ops : list bop) (kd : pkind) (key : keyarg) (kw : opts) (k : pstr) : option bval :=
  if overridden kw k then asked key kw k
  else pick (pick (asked key kw k) (last_given (GKind kd) ops k)) (last_given GAll ops k).
(** matches subject to formatting ([all]: format_all): the ones the pattern is asked to return *)
Definition treated (h : heap) (get : pstr -> option bval) (all : pstr) (m : mtch) : Prop :=
  flag h (get all) = true \/ flag h (get (s "every")) = true \/ flag h (get (s "children")) = match m_parent m with Some _ => true | None => false end.
(** the conflict solver: what is given for [conflict_solver], unless that counts as not set (or is a dictionary) *)
Definition solver_option (W : callables) (o : option bval) : option nat :=
  match o with Some (BVal v) => if truthy v then Some (solver_number W v) else None | _ => None end.
(** what a match shows of the options [get] of its pattern *)
Record shows (W : callables) (h : heap) (get : pstr -> option bval) (m : mtch) : Prop := {
  sh_name : m_parent m = None -> m_name m = match get (s "name") with Some v => text_option v | None => None end;
  sh_tags : m_tags m = tags_option (get (s "tags"));
  sh_marker : m_marker m = flag h (get (s "marker"));
  sh_solver : m_solver m = solver_option W (get (s "conflict_solver"));
  sh_private : m_private m = true <->
      flag h (get (s "private")) = true
      \/ (exists n, m_name m = Some n /\ n <> [] /\ In n (names_option (get (s "private_names"))))
      \/ (m_parent m = None /\ flag h (get (s "private_parent")) = true) \/ (m_parent m <> None /\ flag h (get (s "private_children")) = true);
  sh_ignored : forall n, m_name m = Some n -> ~ In n (names_option (get (s "ignore_names")));
  sh_returned : flag h (get (s "every")) = true
      \/ (m_parent m = None /\ (flag h (get (s "children")) = false \/ flag h (get (s "private_parent")) = true))
      \/ (m_parent m <> None /\ (flag h (get (s "children")) = true \/ flag h (get (s "private_children")) = true));
  sh_value : forall v, get (s "value") = Some (BVal v) -> truthy v = true -> m_value m = v;
  sh_values : forall a n v, get (s "value") = Some (BDict a) -> m_name m = Some n -> n <> [] -> dfind (h_cell h a) (Some n) = Some v -> truthy v = true -> m_value m = v;
  sh_validator : forall v, get (s "validator") = Some (BVal v) -> truthy v = true -> treated h get (s "validate_all") m ->
      exists cs, call_validator W v (match m_parent m with Some _ => m | None => set_children m cs end) = true
}.
(** no processor is given *)
Definition unprocessed (get : pstr -> option bval) : Prop :=
  forall k, In k [s "pre_match_processor"; s "post_match_processor"; s "post_processor"] -> forall n, get k <> Some (BVal (VObj n)).

(** ** Proofs *)
Lemma overridden_named kw k : overridden kw k = true <-> named_in kw k.
Proof.
  unfold overridden, named_in. change (s "overrides") with k_overrides. destruct (dfind kw k_overrides) as [[[| | | |l|]|a]|]; try (split; [discriminate|intros [(ns & X & _)|(t & c & X & _)]; discriminate]).
  - rewrite existsb_exists. split.
    + intros (c & Hc & E). right. exists v, c. split; [reflexivity|]. split; [exact Hc|]. apply pstr_eqb_eq in E. congruence.
    + intros [(ns & X & _)|(t & c & X & Hc & ->)]; [discriminate|]. injection X as <-. exists c. split; [exact Hc|apply pstr_eqb_refl].
  - rewrite existsb_exists. split.
    + intros (v & Hv & E). left. exists l. split; [reflexivity|]. destruct v; try discriminate. apply pstr_eqb_eq in E. now subst.
    + intros [(ns & X & H)|(t & c & X & _)]; [|discriminate]. injection X as <-. exists (VStr k). split; [exact H|apply pstr_eqb_refl].
Qed.
Lemma dset_keep {V} (kw : dict pstr V) n v k : k <> n -> dfind (dset kw n v) k = dfind kw k.
Proof. intro N. rewrite dfind_dset. destruct (eqb k n) eqn:E; [apply eqb_eq in E; contradiction|reflexivity]. Qed.
(** the keyword arguments once the key is applied *)
Lemma key_asked h key kw h1 kw1 : apply_key h key kw = (h1, Ok kw1) -> forall k, (k = k_formatter -> match key with Keys (_ :: _) => False | _ => True end) ->
  dfind kw1 k = asked key kw k.
Proof.
  intros E k Hk. unfold asked. destruct key as [|t|[|t ts]].
  - injection E as _ <-. destruct (dfind kw k); reflexivity.
  - destruct (C52_one_key h t kw) as (kw' & E' & F). rewrite E' in E. injection E as _ <-. rewrite F. reflexivity.
  - injection E as _ <-. destruct (dfind kw k); reflexivity.
  - assert (k <> k_formatter) as Nk by (intro X; exact (Hk X)).
    unfold apply_key in E. destruct (match dfind kw k_formatter with None | Some (BVal VNone) => Some [] | Some (BVal _) => None | Some (BDict a) => Some (h_cell h a) end); [|discriminate].
    destruct (halloc h _) as [h' a]. injection E as _ <-. rewrite dset_keep by exact Nk. destruct (dfind kw k); reflexivity.
Qed.
Lemma key_nodup h key kw h1 kw1 : apply_key h key kw = (h1, Ok kw1) -> NoDup (dkeys kw) -> NoDup (dkeys kw1).
Proof.
  intros E N. destruct key as [|t|[|t ts]].
  - injection E as _ <-. exact N.
  - injection E as _ <-. unfold setdefault. repeat (match goal with |- context [match ?x with Some _ => _ | None => _ end] => destruct x end); repeat apply NoDup_dkeys_dset; exact N.
  - injection E as _ <-. exact N.
  - unfold apply_key in E. destruct (match dfind kw k_formatter with None | Some (BVal VNone) => Some [] | Some (BVal _) => None | Some (BDict a) => Some (h_cell h a) end); [|discriminate].
    destruct (halloc h _) as [h' a]. injection E as _ <-. apply NoDup_dkeys_dset, N.
Qed.
Lemma wanted_built h ops kd key kw h' f' p : Forall proper_op ops -> NoDup (dkeys kw) ->
  add (st_heap (bhistory h ops)) (st_factory (bhistory h ops)) kd key kw = (h', f', Ok p) ->
  forall k, k <> k_overrides -> (k = k_formatter -> match key with Keys (_ :: _) => False | _ => True end) -> dfind (bp_opts p) k = wanted ops kd key kw k.
Proof.
  intros P N E k Ko Kf. unfold add in E. destruct (apply_key _ key kw) as [h1 [kw1|e]] eqn:Ek; [|discriminate].
  destruct (history_ok h P) as [C Nf].
  destruct (build_objects C Nf (key_nodup Ek N) E Ko) as [B1 B2].
  rewrite !(C88_defaults_are_the_latest_given h _ k P) in B2. rewrite (key_asked Ek Kf) in B1, B2.
  assert (O : dfind kw1 k_overrides = dfind kw k_overrides).
  { rewrite (key_asked Ek) by discriminate. unfold asked. destruct (dfind kw k_overrides); [reflexivity|]. destruct key; reflexivity. }
  assert (NI : named_in kw1 k <-> named_in kw k) by (unfold named_in; rewrite O; tauto).
  unfold wanted. destruct (overridden kw k) eqn:Eo.
  - apply B1, NI, overridden_named, Eo.
  - apply B2. intro X. apply NI, overridden_named in X. congruence.
Qed.

Lemma dict_single {V} h (conv : pyval -> V) v default : truthy v = true ->
  ensure_dict (dict_option h conv (Some (BVal v))) default = ([(None, conv v)], conv v).
Proof. intro T. simpl. rewrite T. reflexivity. Qed.
Lemma dfind_conv {V} (conv : pyval -> V) (c : cell) n : dfind (map (fun e => (fst e, conv (snd e))) c) n = option_map conv (dfind c n).
Proof. induction c as [|[k v] c IH]; cbn [map dfind option_map fst snd]; [reflexivity|]. destruct (eqb n k); [reflexivity|exact IH]. Qed.
Lemma resolves_single {V} (v d : V) name child : resolves [(None, v)] d name child v.
Proof. apply by_none; try reflexivity. intros (ch & r & ->). reflexivity. Qed.

Section Assembled.
  Variables (W : callables) (h : heap) (id : nat) (p : bpat).
  Let get k := dfind (bp_opts p) k.
  Let q := assemble W h id p.
  Lemma q_kw : po_kw q = match_options W h get.
  Proof. unfold q, assemble, new_pattern. destruct (ensure_dict _ _), (ensure_dict _ _), (ensure_dict _ _). reflexivity. Qed.
  Lemma q_flags : po_children q = flag h (get (s "children")) /\ po_every q = flag h (get (s "every")) /\ po_private_parent q = flag h (get (s "private_parent"))
    /\ po_private_children q = flag h (get (s "private_children")) /\ po_private_names q = names_option (get (s "private_names")) /\ po_ignore_names q = names_option (get (s "ignore_names"))
    /\ po_format_all q = flag h (get (s "format_all")) /\ po_validate_all q = flag h (get (s "validate_all")).
  Proof. unfold q, assemble, new_pattern. destruct (ensure_dict _ _), (ensure_dict _ _), (ensure_dict _ _). repeat split. Qed.
  Lemma q_values : (po_values q, po_value q) = ensure_dict (dict_option h (fun v => v) (get (s "value"))) VNone.
  Proof. unfold q, assemble, new_pattern. fold get. destruct (ensure_dict (dict_option h (as_formatter W) _) _), (ensure_dict (dict_option h (fun v => v) _) _), (ensure_dict (dict_option h (as_validator W) _) _). reflexivity. Qed.
  Lemma q_validators : (po_validators q, po_validator q) = ensure_dict (dict_option h (as_validator W) (get (s "validator"))) (Some allways_true).
  Proof. unfold q, assemble, new_pattern. fold get. destruct (ensure_dict (dict_option h (as_formatter W) _) _), (ensure_dict (dict_option h (fun v => v) _) _), (ensure_dict (dict_option h (as_validator W) _) _). reflexivity. Qed.
  Lemma q_formatters : po_formatters q = map (fun e => (fst e, as_formatter W (snd e))) (h_cell h (bp_formatters p)).
  Proof. unfold q, assemble, new_pattern. destruct (ensure_dict _ _), (ensure_dict _ _), (ensure_dict _ _). reflexivity. Qed.
  Lemma q_default : po_formatter q = snd (ensure_dict (dict_option h (as_formatter W) (get k_formatter)) (Some default_formatter)).
  Proof. unfold q, assemble, new_pattern. fold get. destruct (ensure_dict (dict_option h (as_formatter W) _) _), (ensure_dict (dict_option h (fun v => v) _) _), (ensure_dict (dict_option h (as_validator W) _) _). reflexivity. Qed.
  Lemma q_plain : unprocessed get -> no_processor q.
  Proof.
    intro U. assert (X : forall k, In k [s "pre_match_processor"; s "post_match_processor"; s "post_processor"] -> callable (get k) = None).
    { intros k Hk. specialize (U k Hk). destruct (get k) as [[[]|]|]; try reflexivity. destruct (U n eq_refl). }
    unfold no_processor, q, assemble, new_pattern. destruct (ensure_dict _ _), (ensure_dict _ _), (ensure_dict _ _). simpl. fold (get (s "pre_match_processor")) (get (s "post_match_processor")) (get (s "post_processor")).
    rewrite !X by (simpl; auto). auto.
  Qed.
  Lemma subject_treated child all : subject q child (flag h (get all)) <-> flag h (get all) = true \/ flag h (get (s "every")) = true \/ flag h (get (s "children")) = child.
  Proof. unfold subject. destruct q_flags as (-> & -> & _). tauto. Qed.

  Lemma assembled_shows src n input n' outs raws m : unprocessed get -> ~ functional src ->
    pattern_matches q src n input = Ok (n', (outs, raws)) -> In m outs -> shows W h get m.
  Proof.
    intros U NF H Hm. pose proof (q_plain U) as N. destruct q_flags as (F1 & F2 & F3 & F4 & F5 & F6 & F7 & F8).
    destruct (returned N H) as (found & Fd & R). pose proof (found_made NF Fd) as MD.
    pose proof (C40_options_resolve N H Hm) as (_ & _ & Cv & cs & Ca).
    pose proof (C42_private N NF H Hm) as Cp. pose proof (C87_marker_option N NF H Hm) as Cm.
    assert (X : exists o child, made q child input o /\ m_name m = m_name o /\ m_tags m = m_tags o /\ m_solver m = m_solver o /\ (m_parent m = None -> child = false)).
    { destruct (R m Hm) as (o & i & Ho & [(E & S & _)|(c & P & E & Hc & S & _)]); destruct (MD o Ho) as [M1 M2].
      - exists o, false. destruct S as [(_ & A1 & A2 & _ & A3 & _) _ _ _ _]. auto.
      - exists c, true. destruct S as [(_ & A1 & A2 & _ & A3 & _) _ _ _ _]. split; [apply M2, Hc|]. split; [exact A1|]. split; [exact A2|]. split; [exact A3|]. intro Z. rewrite E in Z. discriminate. }
    destruct X as (o & child & (_ & T & _ & _ & _ & Ts & _ & _ & _ & _ & Nm) & En & Et & Es & Hch). rewrite q_kw in T, Nm, Ts. rewrite q_kw in Cp, Cm.
    constructor.
    - intro Hp. rewrite En, Nm by (apply Hch, Hp). unfold match_options. cbn [mo_name]. destruct (get (s "name")); reflexivity.
    - rewrite Et, T. unfold match_options. cbn [mo_tags]. destruct (get (s "tags")) as [v|]; reflexivity.
    - apply eq_true_iff_eq. rewrite Cm. unfold match_options. cbn [mo_marker]. destruct (get (s "marker")) as [v|]; simpl; split; congruence.
    - rewrite Es, Ts. unfold match_options, solver_option. cbn [mo_solver]. destruct (get (s "conflict_solver")) as [[v|a]|]; reflexivity.
    - rewrite Cp. unfold match_options. cbn [mo_private]. rewrite F3, F4, F5.
      assert ((match get (s "private") with Some v => Some (btruthy h v) | None => None end = Some true) <-> flag h (get (s "private")) = true) as ->; [|reflexivity].
      destruct (get (s "private")); simpl; split; congruence.
    - intros nm Hn Hin. destruct (C41_all_or_nothing N H) as (fnd & occs & outss & _ & _ & Pr & Eo). subst outs.
      apply in_concat in Hm as (os & Hos & Hm).
      assert (exists P i o, produces q i o (chosen q P) /\ In m (chosen q P)) as (P & _ & _ & _ & Hc).
      { clear - Pr Hos Hm. induction Pr as [|occ os' occs' outss' D0 D IH]; [contradiction|]. destruct Hos as [->|Hos]; [|auto].
        destruct D0 as (oss & D1 & ->). clear D IH. revert D1 Hm. generalize 0%nat. intros i D1. induction D1 as [|i0 o os0 r rs D1 D2 IH]; [contradiction|]. cbn [concat]. intro Hm. apply in_app_or in Hm as [Hm|Hm]; [|auto].
        destruct D1 as (P & A1 & A2 & A3 & [(A4 & A5 & ->)|(_ & ->)]); [|contradiction]. exists P, i0, o. split; [|exact Hm]. exists P. split; [exact A1|]. split; [exact A2|]. split; [exact A3|]. left. auto. }
      assert (ignored q m = false) as Hi.
      { unfold chosen in Hc. apply in_app_or in Hc as [Hc|Hc].
        - destruct (_ && _) eqn:Eb in Hc; [|contradiction]. destruct Hc as [<-|[]]. apply andb_prop in Eb as [_ Eb]. now apply negb_true_iff in Eb.
        - destruct (_ || _) in Hc; [|contradiction]. apply filter_In in Hc as [_ Hc]. now apply negb_true_iff in Hc. }
      unfold ignored in Hi. rewrite Hn, F6 in Hi. apply (existsb_pstr nm) in Hin. rewrite Hin in Hi. discriminate.
    - destruct (C41_all_or_nothing N H) as (fnd & occs & outss & _ & _ & Pr & Eo). subst outs.
      apply in_concat in Hm as (os & Hos & Hm).
      assert (exists P i o, m_parent P = None /\ Forall2 (fun c c' => settings q i true c c' /\ m_parent c' = Some (shell P)) (m_children o) (m_children P) /\ In m (chosen q P)) as (P & i & oo & PP & Pc & Hc).
      { clear - Pr Hos Hm. induction Pr as [|occ os' occs' outss' D0 D IH]; [contradiction|]. destruct Hos as [->|Hos]; [|auto].
        destruct D0 as (oss & D1 & ->). clear D IH. revert D1 Hm. generalize 0%nat. intros i D1. induction D1 as [|i0 o os0 r rs D1 D2 IH]; [contradiction|]. cbn [concat]. intro Hm. apply in_app_or in Hm as [Hm|Hm]; [|auto].
        destruct D1 as (P & A1 & A2 & A3 & [(A4 & A5 & ->)|(_ & ->)]); [|contradiction]. exists P, i0, o. split; [exact A2|]. split; [exact A3|exact Hm]. }
      unfold chosen in Hc. rewrite F1, F2, F3, F4 in Hc. apply in_app_or in Hc as [Hc|Hc].
      + destruct (_ && _) eqn:Eb in Hc; [|contradiction]. destruct Hc as [<-|[]]. apply andb_prop in Eb as [Eb _]. apply orb_prop in Eb as [Eb|Eb]; [apply orb_prop in Eb as [Eb|Eb]|]; [apply negb_true_iff in Eb|..]; auto 6.
      + destruct (_ || _) eqn:Eb in Hc; [|contradiction]. apply filter_In in Hc as [Hc _]. assert (m_parent m <> None) as Np.
        { clear - Pc Hc. induction Pc as [|x y l l' [_ E] F IH]; [contradiction|]. destruct Hc as [->|Hc]; [congruence|auto]. }
        apply orb_prop in Eb as [Eb|Eb]; [apply orb_prop in Eb as [Eb|Eb]|]; auto 6.
    - intros v Ev Tv. apply Cv; [|exact Tv]. pose proof q_values as Q. rewrite Ev, dict_single in Q by exact Tv. apply pair_equal_spec in Q as [-> ->]. apply resolves_single.
    - intros a nm v Ev Hn Nn Dv Tv. apply Cv; [|exact Tv]. pose proof q_values as Q. rewrite Ev in Q. cbn [dict_option] in Q.
      destruct (h_cell h a) as [|e c] eqn:Ec; [discriminate|]. rewrite <- Ec in *. cbn [ensure_dict] in Q. apply pair_equal_spec in Q as [-> ->].
      rewrite Hn. apply by_name; [destruct nm as [|ch r]; [contradiction|exists ch, r; reflexivity]|]. pose proof (dfind_conv (fun v => v) (h_cell h a) (Some nm)) as X. cbv beta in X. rewrite X, Dv. reflexivity.
    - intros v Ev Tv Tr. exists cs. pose proof q_validators as Q. rewrite Ev, dict_single in Q by exact Tv. apply pair_equal_spec in Q as [Qv Qd].
      unfold accepted in Ca. rewrite F8, Qv, Qd in Ca.
      assert (subject q (match m_parent m with Some _ => true | None => false end) (flag h (get (s "validate_all")))) as Sb by (apply subject_treated; exact Tr).
      destruct (Ca Sb) as (w & Rw & Aw). rewrite <- (resolves_fun (resolves_single _ _ _ _) Rw) in Aw. unfold as_validator in Aw. rewrite Tv in Aw.
      destruct (m_parent m); exact Aw.
  Qed.
End Assembled.
Lemma shows_ext W h g g' m : (forall k, k <> k_overrides -> k <> k_formatter -> g k = g' k) -> shows W h g m -> shows W h g' m.
Proof.
  intros E [S1 S2 S3 S4 S5 S6 S7 S8 S9 S10].
  assert (G : forall k : pstr, pstr_eqb k k_overrides = false -> pstr_eqb k k_formatter = false -> g k = g' k).
  { intros k A B. apply E; intros ->; rewrite pstr_eqb_refl in *; discriminate. }
  unfold treated in *. rewrite !G in * by (vm_compute; reflexivity). constructor; assumption.
Qed.

(** When an option counts as set: everything does but None, False, 0, the empty text, the empty list and the empty dictionary *)
Theorem C130_truth : forall h o,
  flag h o = false <-> o = None \/ o = Some (BVal VNone) \/ o = Some (BVal (VBool false)) \/ o = Some (BVal (VInt 0)) \/ o = Some (BVal (VStr []))
    \/ o = Some (BVal (VList [])) \/ exists a, o = Some (BDict a) /\ h_cell h a = [].
Proof.
  intros h o. split.
  - destruct o as [[v|a]|]; cbn [flag btruthy]; [|destruct (h_cell h a) eqn:E; [eauto 10|discriminate]|auto].
    destruct v as [|[]|z|[|]|[|]|]; cbn [truthy]; try discriminate; auto 8. destruct (Z.eqb_spec z 0); [subst; auto 8|discriminate].
  - intros [->|[->|[->|[->|[->|[->|(a & -> & E)]]]]]]; try reflexivity. cbn [flag btruthy]. now rewrite E.
Qed.
(** Names are texts; lists of names and tags are their texts, in their order; a single tag may be given as a (non-empty) text *)
Theorem C130_texts : forall v o l,
  (forall x, text_option v = Some x <-> v = BVal (VStr x))
  /\ names_option (Some (BVal (VList (map VStr l)))) = l /\ tags_option (Some (BVal (VList (map VStr l)))) = l
  /\ (forall x, x <> [] -> tags_option (Some (BVal (VStr x))) = [x])
  /\ (forall x, In x (names_option o) <-> exists vs, o = Some (BVal (VList vs)) /\ In (VStr x) vs)
  /\ (forall x, In x (tags_option o) <-> (exists vs, o = Some (BVal (VList vs)) /\ In (VStr x) vs) \/ (o = Some (BVal (VStr x)) /\ x <> [])).
Proof.
  assert (T : forall vs x, In x (texts vs) <-> In (VStr x) vs).
  { intros vs x. unfold texts. rewrite in_flat_map. split.
    - intros (w & Hw & H). destruct w; try contradiction. destruct H as [H|[]]. now subst.
    - intro H. exists (VStr x). split; [exact H|left; reflexivity]. }
  assert (M : forall l, texts (map VStr l) = l) by (intro l0; induction l0 as [|x l0 IH]; [reflexivity|]; cbn; f_equal; exact IH).
  assert (N : forall o x, In x (names_option o) <-> exists vs, o = Some (BVal (VList vs)) /\ In (VStr x) vs).
  { intros o0 x. split.
    - destruct o0 as [[[]|]|]; try contradiction. cbn [names_option]. intro H. apply T in H. eauto.
    - intros (vs & -> & H). apply T, H. }
  intros v o l. split; [|split; [apply M|split; [apply M|split; [|split; [apply N|]]]]].
  - intro x. destruct v as [[]|]; cbn [text_option]; split; try discriminate; intro E; injection E as ->; reflexivity.
  - intros [|ch x] H; [contradiction|reflexivity].
  - intro x. destruct o as [[[| | |[|ch t]| |]|]|]; cbn [tags_option]; try (rewrite N; split; [auto|intros [H|[H1 H2]]; [exact H|discriminate]]).
    + split; [intros []|intros [(vs & H & _)|[H1 H2]]; [discriminate|]]. injection H1 as <-. contradiction.
    + split; [intros [<-|[]]; right; split; [reflexivity|discriminate]|intros [(vs & H & _)|[H1 H2]]; [discriminate|]]. injection H1 as <-. left. reflexivity.
Qed.
(** Every match of a string or regex pattern shows the options in force when the pattern was built *)
Theorem C130_options : forall W h ops kd key kw h' f' p id src n input n' outs raws m,
  Forall proper_op ops -> NoDup (dkeys kw) ->
  add (st_heap (bhistory h ops)) (st_factory (bhistory h ops)) kd key kw = (h', f', Ok p) ->
  unprocessed (wanted ops kd key kw) -> ~ functional src ->
  pattern_matches (assemble W h' id p) src n input = Ok (n', (outs, raws)) -> In m outs ->
  shows W h' (wanted ops kd key kw) m.
Proof.
  intros W h ops kd key kw h' f' p id src n input n' outs raws m P N E U NF H Hm.
  assert (G : forall k, k <> k_overrides -> k <> k_formatter -> dfind (bp_opts p) k = wanted ops kd key kw k).
  { intros k A B. apply (wanted_built P N E A). intro X. destruct (B X). }
  apply (shows_ext (g := fun k => dfind (bp_opts p) k)); [exact G|]. eapply assembled_shows; [|exact NF|exact H|exact Hm].
  intros k Hk x. rewrite G; [apply U, Hk|..]; intros ->; simpl in Hk; intuition discriminate.
Qed.

Lemma built_with_key : forall h0 f kd key kw h' f' p, match key with Keys _ => False | _ => True end -> NoDup (dkeys kw) -> (forall a, In a (addrs kw) -> (a < h_next h0)%nat) ->
  add h0 f kd key kw = (h', f', Ok p) -> exists kw1, build h0 f kd kw1 = (h', f', Ok p) /\ NoDup (dkeys kw1) /\ forall a, In a (addrs kw1) -> (a < h_next h0)%nat.
Proof.
  intros h0 f kd key kw h' f' p Hkey N ALk E. unfold add in E. destruct (apply_key _ key kw) as [h1 [kw1|e]] eqn:Ek; [|discriminate]. exists kw1.
    assert (h1 = h0) as -> by (destruct key as [|t|]; [injection Ek; auto|injection Ek; auto|contradiction]).
    split; [exact E|]. split; [exact (key_nodup Ek N)|]. intros a Ha. apply ALk.
    destruct key as [|t|]; [|destruct (C52_one_key h0 t kw) as (kw' & E' & F); rewrite E' in Ek; injection Ek as <-|contradiction].
    - injection Ek as <-. exact Ha.
    - clear - Ha F E'. unfold apply_key in E'. injection E' as <-. unfold setdefault in Ha.
      assert (X : forall d k v, In a (addrs (dset d k (BVal v))) -> In a (addrs d)).
      { clear. induction d as [|[k0 v0] d IH]; intros k v H; cbn [dset] in H; [destruct H|]. destruct (eqb k k0); unfold addrs in *; simpl in *.
        - apply in_or_app. right. exact H.
        - apply in_app_or in H as [H|H]; apply in_or_app; [left; exact H|right; eapply IH, H]. }
      repeat match type of Ha with context [match ?x with Some _ => _ | None => _ end] => destruct x end; eauto.
Qed.
(** the formatter of a match, for a pattern built with any configuration *)
Lemma formatters_at : forall W h0 f kd key kw h' f' p id child m (gf : option bval) (decl : pstr -> option pyval),
  no_clear_stored f -> (forall g, NoDup (dkeys (f_defaults f g))) -> NoDup (dkeys kw) -> match key with Keys _ => False | _ => True end ->
  well_keyed (f_keys f) -> (forall n, (match dfind (f_keys f) n with Some k => Some (bk_converter k) | None => None end) = decl n) ->
  (forall g k a, dfind (f_defaults f g) k = Some (BDict a) -> (a < h_next h0)%nat) -> (forall a, In a (addrs kw) -> (a < h_next h0)%nat) ->
  add h0 f kd key kw = (h', f', Ok p) -> dfind (bp_opts p) k_formatter = gf ->
  resolves (po_formatters (assemble W h' id p)) (po_formatter (assemble W h' id p)) (m_name m) child (m_fmt m) ->
  (forall v, gf = Some (BVal v) -> truthy v = true -> v <> library_formatter -> m_fmt m = Some (call_formatter W v))
  /\ ((forall v, gf = Some (BVal v) -> truthy v = true -> v = library_formatter) ->
      forall x, m_name m = Some x -> x <> [] ->
      let entry := match gf with Some (BDict a) => dfind (h_cell h' a) (Some x) | _ => None end in
      forall v, match entry with Some v => Some v | None => decl x end = Some v -> m_fmt m = as_formatter W v).
Proof.
  intros W h0 f kd key kw h' f' p id child m gf decl C Nf N Hkey WK LD AL ALk E Gf Cf. rewrite q_formatters in Cf.
  destruct (built_with_key Hkey N ALk E) as (kw1 & B & N1 & A1). destruct (@keys_fill h0 f kd kw1 h' f' p decl C Nf N1 WK LD AL (fun k a H => A1 a (addrs_In H)) B) as [D1 D2]. unfold bare in D1, D2. rewrite Gf in D1, D2.
  assert (Fd : forall k, dfind (map (fun e => (fst e, as_formatter W (snd e))) (h_cell h' (bp_formatters p))) k = option_map (as_formatter W) (dfind (h_cell h' (bp_formatters p)) k)) by (intro k; apply dfind_conv).
  split.
  - intros v Ev Tv Nv. specialize (D1 v (conj Ev (conj Tv Nv))).
    assert (R : as_formatter W v = Some (call_formatter W v)).
    { unfold as_formatter. rewrite Tv. destruct (py_eqb v library_formatter) eqn:El; [apply library_eqb in El; contradiction|reflexivity]. }
    rewrite <- R. eapply resolves_fun; [exact Cf|]. apply by_none.
    + intros (ch & r & ->). rewrite Fd, D1. reflexivity.
    + unfold role. rewrite Fd, D1. reflexivity.
    + rewrite Fd, D1. reflexivity.
  - intros Nb x Hx Nx entry v Ev.
    assert (NB : forall v, ~ (gf = Some (BVal v) /\ truthy v = true /\ v <> library_formatter)) by (intros w (X1 & X2 & X3); apply X3, Nb; auto).
    specialize (D2 NB (Some x)). eapply resolves_fun; [exact Cf|]. rewrite Hx. apply by_name; [destruct x as [|ch r]; [contradiction|exists ch, r; reflexivity]|].
    rewrite Fd, D2. unfold own_formatter. rewrite Gf.
    assert (Y : (match gf with Some (BDict a) => match h_cell h' a with [] => library_only (Some x) | _ :: _ => dfind (h_cell h' a) (Some x) end | _ => library_only (Some x) end) = entry).
    { unfold entry. destruct (gf) as [[w|a]|]; try reflexivity. destruct (h_cell h' a); reflexivity. }
    unfold entry in *. destruct (gf) as [[w|a]|]; cbn [library_only] in *.
    + rewrite Ev. reflexivity.
    + destruct (h_cell h' a) as [|e c] eqn:Ec; [cbn [dfind] in Ev; rewrite Ev; reflexivity|]. rewrite Ev. reflexivity.
    + rewrite Ev. reflexivity.
Qed.
Lemma formatters_shown : forall W h ops kd key kw h' f' p id child m,
  Forall proper_op ops -> NoDup (dkeys kw) -> match key with Keys _ => False | _ => True end ->
  (forall a, In a (all_addrs ops) -> (a < h_next h)%nat) -> (forall a, In a (addrs kw) -> (a < h_next h)%nat) ->
  add (st_heap (bhistory h ops)) (st_factory (bhistory h ops)) kd key kw = (h', f', Ok p) ->
  resolves (po_formatters (assemble W h' id p)) (po_formatter (assemble W h' id p)) (m_name m) child (m_fmt m) ->
  (forall v, wanted ops kd key kw (s "formatter") = Some (BVal v) -> truthy v = true -> v <> library_formatter -> m_fmt m = Some (call_formatter W v))
  /\ ((forall v, wanted ops kd key kw (s "formatter") = Some (BVal v) -> truthy v = true -> v = library_formatter) ->
      forall x, m_name m = Some x -> x <> [] ->
      let entry := match wanted ops kd key kw (s "formatter") with Some (BDict a) => dfind (h_cell h' a) (Some x) | _ => None end in
      forall v, match entry with Some v => Some v | None => last_declared ops x end = Some v -> m_fmt m = as_formatter W v).
Proof.
  intros W h ops kd key kw h' f' p id child m P N Hkey AL ALk E Cf.
  assert (Gf : dfind (bp_opts p) k_formatter = wanted ops kd key kw (s "formatter")).
  { apply (wanted_built P N E); [discriminate|]. intro X. destruct key; [exact I|exact I|contradiction]. }
  destruct (history_ok h P) as [C Nf]. destruct (history_keys h P) as [WK LD]. destruct (built_inv AL) as (B1 & B2 & _).
  refine (formatters_at C Nf N Hkey WK LD _ _ E Gf Cf).
  - intros g k0 a0 H0. unfold lt. rewrite <- B1. apply AL. destruct (in_dec Nat.eq_dec a0 (default_addrs ops)) as [Y|Y].
    + unfold default_addrs in Y. apply in_flat_map in Y as (o & Ho & Y). unfold all_addrs. apply in_flat_map. exists o. split; [exact Ho|]. destruct o; simpl in *; auto; destruct Y.
    + exfalso. eapply (B2 a0 Y g), addrs_In, H0.
  - intros a Ha. unfold lt. rewrite <- B1. exact (ALk a Ha).
Qed.

(** The formatter of a match: a single one given (or the key's converter, or a default) formats
    every match asked for; without one, the entry for the name in the dictionary given, else the converter
    of the key declared with that name *)
Theorem C130_formatters : forall W h ops kd key kw h' f' p id src n input n' outs raws m,
  Forall proper_op ops -> NoDup (dkeys kw) -> match key with Keys _ => False | _ => True end ->
  (forall a, In a (all_addrs ops) -> (a < h_next h)%nat) -> (forall a, In a (addrs kw) -> (a < h_next h)%nat) ->
  add (st_heap (bhistory h ops)) (st_factory (bhistory h ops)) kd key kw = (h', f', Ok p) ->
  unprocessed (wanted ops kd key kw) ->
  pattern_matches (assemble W h' id p) src n input = Ok (n', (outs, raws)) -> In m outs -> treated h' (wanted ops kd key kw) (s "format_all") m ->
  (forall v, wanted ops kd key kw (s "formatter") = Some (BVal v) -> truthy v = true -> v <> library_formatter -> m_fmt m = Some (call_formatter W v))
  /\ ((forall v, wanted ops kd key kw (s "formatter") = Some (BVal v) -> truthy v = true -> v = library_formatter) ->
      forall x, m_name m = Some x -> x <> [] ->
      let entry := match wanted ops kd key kw (s "formatter") with Some (BDict a) => dfind (h_cell h' a) (Some x) | _ => None end in
      forall v, match entry with Some v => Some v | None => last_declared ops x end = Some v -> m_fmt m = as_formatter W v).
Proof.
  intros W h ops kd key kw h' f' p id src n input n' outs raws m P N Hkey AL ALk E U H Hm Tr.
  assert (G : forall k, k <> k_overrides -> dfind (bp_opts p) k = wanted ops kd key kw k).
  { intros k A. apply (wanted_built P N E A). intro X. destruct key; [exact I|exact I|contradiction]. }
  assert (Gf : dfind (bp_opts p) k_formatter = wanted ops kd key kw (s "formatter")) by (apply G; discriminate).
  assert (NP : no_processor (assemble W h' id p)).
  { apply q_plain. intros k Hk x. rewrite G; [apply U, Hk|]. intros ->; simpl in Hk; intuition discriminate. }
  destruct (C40_options_resolve NP H Hm) as (_ & Cf & _).
  assert (S : subject (assemble W h' id p) (match m_parent m with Some _ => true | None => false end) (po_format_all (assemble W h' id p))).
  { destruct (q_flags W h' id p) as (_ & _ & _ & _ & _ & _ & F7 & _). rewrite F7. apply subject_treated. rewrite !G by discriminate. exact Tr. }
  specialize (Cf S).
  exact (formatters_shown P N Hkey AL ALk E Cf).
Qed.

(** ** A whole Rebulk object *)
(** a rule which adds no match: what is there after its [when] and its [then] was there before *)
Definition adds_nothing {R} (bh : behav found R) (u : nat) : Prop :=
  forall f f1 x, b_when bh u f = (f1, x) -> incl (all_found f1) (all_found f)
    /\ forall resp, x = Ok resp -> b_truthy bh resp = true -> incl (all_found (fst (b_then bh u f1 resp))) (all_found f).
(** the calls the theorem is about: keyword arguments are named once, strings and regular expressions are searched *)
Definition plain_call (before : list bcall) (c : bcall) : Prop :=
  proper_op (call_op c) /\ match c with
                           | CPattern key kw what => kind_searched what <> KFunctional /\ unprocessed (wanted (map call_op before) (kind_searched what) key kw)
                           | _ => True
                           end.
Definition plain_calls (cs : list bcall) : Prop := forall before c after, cs = before ++ c :: after -> plain_call before c.

Lemma fewer_incl (f f' : found) : sublist (c_del (fd_matches f')) (c_del (fd_matches f)) -> fd_markers f' = fd_markers f -> incl (all_found f') (all_found f).
Proof. intros S E m Hm. unfold all_found in *. rewrite E in Hm. apply in_app_or in Hm as [Hm|Hm]; apply in_or_app; [left|right; exact Hm].
  assert (F : Forall (fun x => In x (c_del (fd_matches f))) (c_del (fd_matches f'))) by (apply (sub_Forall S), Forall_forall; auto). rewrite Forall_forall in F. exact (F m Hm). Qed.
Lemma considered_incl R solvers order (user : behav found R) u f f' o : (forall u, adds_nothing user u) ->
  consider (with_defaults solvers order user) u f f' o -> incl (all_found f') (all_found f).
Proof.
  intros Hu H. destruct u as [|[|u]].
  - destruct H as [H|f1 resp _ Ew Et|f1 resp f2 _ Ew Et En]; [intros m Hm; exact Hm|..]; cbn [with_defaults default_behav b_when b_then] in *;
      pose proof (conflict_when_del solvers (fd_matches f)) as D; destruct (conflict_when solvers (fd_matches f)) as [c1 [rm|e]]; try discriminate; injection Ew as <- <-; cbn [fst] in D.
    + apply fewer_incl; [|reflexivity]. cbn [fd_matches with_matches]. rewrite D. apply sublist_refl.
    + cbn [fd_matches with_matches] in En. pose proof (drop_then_sub c1 (order rm)) as S. destruct (drop_ret (remove_then c1 (Conseq.Many (order rm)))) as [c x]. injection En as <- _.
      apply fewer_incl; [|reflexivity]. cbn [fd_matches with_matches fst] in *. rewrite <- D. exact S.
  - destruct H as [H|f1 resp _ Ew Et|f1 resp f2 _ Ew Et En]; [intros m Hm; exact Hm|..]; cbn [with_defaults default_behav b_when b_then] in *; injection Ew as <- <-; [intros m Hm; exact Hm|].
    pose proof (drop_then_sub (fd_matches f) (filter m_private (c_del (fd_matches f)))) as S.
    destruct (drop_ret (remove_then (fd_matches f) _)) as [c x]. injection En as <- _. apply fewer_incl; [|reflexivity]. exact S.
  - destruct H as [H|f1 resp _ Ew Et|f1 resp f2 _ Ew Et En]; [intros m Hm; exact Hm|..]; cbn [with_defaults b_when b_then] in *;
      destruct (b_when user (S (S u)) f) as [f1' [x|e]] eqn:E; try discriminate; injection Ew as <- <-; destruct (Hu _ _ _ _ E) as [W T]; [exact W|].
    specialize (T x eq_refl Et). rewrite En in T. exact T.
Qed.
(** with such rules, what [matches] returns was found by one of the patterns *)
Lemma returned_found Ctx R (ctx : Ctx) (r : rb Ctx) env perm solvers order (user : Ctx -> behav found R) isinst check input f m :
  (forall u, adds_nothing (user ctx) u) ->
  rb_matches env perm (fun c => with_defaults solvers order (user c)) isinst check r ctx input = Ok f -> In m (all_found f) ->
  exists p n n' outs raws, In p (effective_patterns ctx r) /\ pt_match p ctx n input = Ok (n', (outs, raws)) /\ In m outs.
Proof.
  intros Hu E Hm. unfold rb_matches, matches_patterns, execute_rules in E.
  destruct (rb_disabled r ctx).
  { destruct (if check then _ else _); [|discriminate]. injection E as <-. destruct Hm. }
  change {| fd_next := 0; fd_matches := empty_coll KMatches (Some input); fd_markers := empty_coll KMarkers (Some input); fd_keys := effective_keys ctx r |}
    with (fresh input (effective_keys ctx r)) in E.
  destruct (@run_patterns_spec Ctx ctx input (effective_patterns ctx r) (fresh input (effective_keys ctx r)) eq_refl eq_refl) as [A _].
  destruct (run_patterns ctx input (effective_patterns ctx r) (fresh input (effective_keys ctx r))) as [f1|e]; [|discriminate].
  destruct (A f1 eq_refl) as (outs & n' & Y & Ef1). cbn [fd_next fresh] in Y. destruct (stage_del input (effective_keys ctx r) outs n') as (S1 & S2 & _). rewrite <- Ef1 in S1, S2.
  destruct (if check then check_declared_keys isinst (fd_keys f1) (fd_matches f1) else Ok tt); [|discriminate].
  destruct (execute_all_rules env perm (with_defaults solvers order (user ctx)) (effective_rules env ctx r) f1) as [f' [ret|e]] eqn:Ex; [|discriminate]. injection E as ->.
  destruct (execute_all_rules env perm recorder (effective_rules env ctx r) []) as [ord fin] eqn:Er. pose proof (C30_execution Er Ex) as (-> & H).
  assert (In m (all_found f1)) as N1.
  { clear - H Hu Hm. induction H as [s|u l s s1 s2 ret H1 H2 IH|u l s s1 s2 resp ret H1 H2 IH]; [exact Hm|..]; apply (considered_incl Hu H1), IH, Hm. }
  assert (In m (concat outs)) as N2.
  { unfold all_found in N1. rewrite S1, S2 in N1. eapply Permutation_in; [symmetry; apply all_split|exact N1]. }
  clear - Y N2. induction Y as [n|p ps n outs n' D Y IH|p ps n n1 out raws outs n' D E Y IH]; [destruct N2|..].
  - destruct (IH N2) as (q & a & b & c & d & H1 & H2). exists q, a, b, c, d. split; [right; exact H1|exact H2].
  - cbn [concat] in N2. apply in_app_or in N2 as [H|H].
    + exists p, n, n1, out, raws. split; [left; reflexivity|]. split; assumption.
    + destruct (IH H) as (q & a & b & c & d & H1 & H2). exists q, a, b, c, d. split; [right; exact H1|exact H2].
Qed.
(** each pattern was built by a call, after the calls before it *)
Lemma patterns_from_call W lower captures h : forall cs pre id q, In q (patterns_from W lower captures (bhistory h (map call_op pre)) id cs) ->
  exists mid key kw what after h' f' p i, cs = mid ++ CPattern key kw what :: after
  /\ add (st_heap (bhistory h (map call_op (pre ++ mid)))) (st_factory (bhistory h (map call_op (pre ++ mid)))) (kind_searched what) key kw = (h', f', Ok p)
  /\ h' = st_heap (bhistory h (map call_op (pre ++ mid ++ [CPattern key kw what])))
  /\ q = (assemble W h' i p, source lower captures h' p what).
Proof.
  induction cs as [|c cs IH]; intros pre id q H; [destruct H|]. cbn [patterns_from] in H. apply in_app_or in H as [H|H].
  - destruct c as [g kw|ks|key kw what]; try contradiction. cbn [built] in H.
    destruct (add _ _ _ key kw) as [[h' f'] [p|e]] eqn:E; [|destruct H]. destruct H as [<-|[]].
    exists [], key, kw, what, cs, h', f', p, id. rewrite app_nil_r. split; [reflexivity|]. split; [exact E|]. split; [|reflexivity].
    cbn [app]. rewrite map_app. unfold bhistory. rewrite fold_left_app. cbn [map fold_left call_op bstep]. unfold bhistory in E. rewrite E. reflexivity.
  - assert (X : bstep (bhistory h (map call_op pre)) (call_op c) = bhistory h (map call_op (pre ++ [c]))).
    { rewrite map_app. unfold bhistory. rewrite fold_left_app. reflexivity. }
    rewrite X in H. destruct (IH _ _ _ H) as (mid & key & kw & what & after & h' & f' & p & i & E1 & E2 & E3 & E4).
    exists (c :: mid), key, kw, what, after, h', f', p, i. rewrite <- app_assoc in E2, E3. cbn [app] in E2, E3 |- *. split; [now rewrite E1|]. auto.
Qed.

(** [Rebulk.matches]: every match and marker returned shows the options in force when some pattern was built *)
Theorem C130_rebulk : forall W lower captures Ctx R (ctx : Ctx) info h cs rules keys env perm solvers order (user : Ctx -> behav found R) isinst check input f m,
  plain_calls cs -> (forall u, adds_nothing (user ctx) u) ->
  rb_matches env perm (fun c => with_defaults solvers order (user c)) isinst check (rebulk_of W lower captures info h cs rules keys) ctx input = Ok f ->
  In m (all_found f) ->
  exists before key kw what after, cs = before ++ CPattern key kw what :: after
  /\ shows W (st_heap (bhistory h (map call_op (before ++ [CPattern key kw what])))) (wanted (map call_op before) (kind_searched what) key kw) m.
Proof.
  intros W lower captures Ctx R ctx info h cs rules keys env perm solvers order user isinst check input f m Hc Hu E Hm.
  destruct (returned_found Hu E Hm) as (p & n & n' & outs & raws & Hp & Ep & Ho).
  unfold effective_patterns, rebulk_of in Hp. cbn [rb_patterns rb_children] in Hp.
  assert (exists q, In q (patterns_of W lower captures h cs) /\ pattern_matches (fst q) (snd q) n input = Ok (n', (outs, raws))) as (q & Hq & Eq).
  { clear - Hp Ep. cbn in Hp. apply in_map_iff in Hp as (q & <- & Hq). exists q. split; [exact Hq|exact Ep]. }
  unfold patterns_of in Hq. destruct (@patterns_from_call W lower captures h cs [] 0 q Hq) as (mid & key & kw & what & after & h' & f' & bp & i & E1 & E2 & E3 & ->).
  cbn [app] in E2, E3. cbn [fst snd] in Eq. destruct (Hc mid _ after E1) as [P1 [P2 P3]].
  exists mid, key, kw, what, after. split; [exact E1|]. rewrite <- E3.
  apply (C130_options (ops := map call_op mid) (h := h) (f' := f') (p := bp) (id := i) (src := source lower captures h' bp what) (n := n) (input := input) (n' := n') (outs := outs) (raws := raws)); try assumption.
  - clear - Hc E1. assert (forall pre post, mid = pre ++ post -> Forall (fun c => proper_op (call_op c)) post) as X.
    { intros pre post. revert pre. induction post as [|c post IH]; intros pre Em; constructor.
      - apply (Hc pre c (post ++ CPattern key kw what :: after)). rewrite E1, Em, <- app_assoc. reflexivity.
      - apply (IH (pre ++ [c])). rewrite <- app_assoc. exact Em. }
    rewrite Forall_map. apply (X [] mid eq_refl).
  - destruct what; [intro F; exact F|intro F; exact F|contradiction (P2 eq_refl)].
Qed.

(** ** A case: [defaults(tags=["all"])], [string_defaults(tags=["text"])], then
    [string("ab", key=Key("title", converter 7))] and [regex("[0-9]", name="num", tags=["n"], overrides=["tags"], formatter=converter 8)];
    the text is "1 ab 2"; converter 8 of a text is its length *)
Definition some_calls : list bcall :=
  [CDefaults GAll [(s "tags", BVal (VList [VStr (s "all")]))]; CDefaults (GKind KString) [(s "tags", BVal (VList [VStr (s "text")]))];
   CPattern (OneKey (BKey (s "title") (VObj 7))) [] (GString [s "ab"]);
   CPattern NoKey [(s "name", BVal (VStr (s "num"))); (s "tags", BVal (VList [VStr (s "n")])); (s "overrides", BVal (VList [VStr (s "tags")])); (s "formatter", BVal (VObj 8))]
            (GRegex [char_rx (s "12")])].
Definition some_callables : callables :=
  Callables (fun f v => match f, v with VObj 8, VStr t => VInt (zlen t) | _, _ => v end) (fun _ _ => true) (fun _ m => (m, Keep)) (fun _ l => l) (fun _ => 0%nat).
Definition no_info : pinfo := PInfo None [] [] false false [] false (ShChain []).
Definition some_rebulk : rb unit := rebulk_of some_callables (fun x => x) false no_info (Heap 0 (fun _ => [])) some_calls default_rules [].
Example C130_case : plain_calls some_calls /\ (forall u, adds_nothing idle u)
  /\ match rb_matches default_env (fun l => l) (fun _ => with_defaults (fun _ _ _ => VDefault) (fun l => l) idle) (fun _ _ => true) true some_rebulk tt (s "1 ab 2") with
     | Ok f => map (fun m => (m_span m, m_name m, m_tags m, m_value m)) (all_found f)
     | Err _ => []
     end = [(2, 4, Some (s "title"), [s "all"; s "text"], VStr (s "ab")); (0, 1, Some (s "num"), [s "n"], VInt 1); (5, 6, Some (s "num"), [s "n"], VInt 1)].
Proof.
  split; [|split].
  - intros before c after E. destruct before as [|c1 [|c2 [|c3 [|c4 [|c5 before]]]]]; try discriminate; injection E; intros; subst.
    all: split; try exact I.
    + split; [repeat constructor; intros []|intro a; vm_compute; discriminate].
    + split; [repeat constructor; intros []|intro a; vm_compute; discriminate].
    + constructor.
    + split; [discriminate|]. intros k Hk x. destruct Hk as [<-|[<-|[<-|[]]]]; vm_compute; discriminate.
    + repeat constructor; cbn; intuition discriminate.
    + split; [discriminate|]. intros k Hk x. destruct Hk as [<-|[<-|[<-|[]]]]; vm_compute; discriminate.
  - intros u f f1 x [= <- <-]. split; [|intros resp _ _]; intros m Hm; exact Hm.
  - vm_compute. reflexivity.
Qed.
(** and the conflict solver given to a builder is what decides: [string("bc")] and [string("b", conflict_solver=f)] on "abc", where [f]
    drops the other match; without the option the longer match stays *)
Definition solver_calls (given : opts) : list bcall := [CPattern NoKey [] (GString [s "bc"]); CPattern NoKey given (GString [s "b"])].
Example C130_solver_case :
  let result given :=
    match rb_matches default_env (fun l => l) (fun _ => with_defaults (fun _ own other => VMatch other) (fun l => l) idle) (fun _ _ => true) true
            (rebulk_of some_callables (fun x => x) false no_info (Heap 0 (fun _ => [])) (solver_calls given) default_rules []) tt (s "abc") with
    | Ok f => map (fun m => (m_span m, m_solver m)) (all_found f)
    | Err _ => []
    end in
  result [(s "conflict_solver", BVal (VObj 9))] = [((1, 2), Some 0%nat)] /\ result [] = [((1, 3), None)]
  /\ result [(s "conflict_solver", BVal VNone)] = [((1, 3), None)].
Proof. repeat split; vm_compute; reflexivity. Qed.
(** the second pattern meets the hypotheses of [C130_formatters] too, with the single formatter it was given *)
Example C130_formatters_case :
  let ops := map call_op (firstn 3 some_calls) in let h := Heap 0 (fun _ => []) in
  exists kw rx h' f' p n' outs raws, nth_error some_calls 3 = Some (CPattern NoKey kw (GRegex [rx])) /\ Forall proper_op ops /\ all_addrs ops = [] /\ addrs kw = [] /\ NoDup (dkeys kw)
  /\ add (st_heap (bhistory h ops)) (st_factory (bhistory h ops)) KRegex NoKey kw = (h', f', Ok p)
  /\ unprocessed (wanted ops KRegex NoKey kw) /\ wanted ops KRegex NoKey kw (s "formatter") = Some (BVal (VObj 8)) /\ VObj 8 <> library_formatter
  /\ pattern_matches (assemble some_callables h' 1 p) (source (fun x => x) false h' p (GRegex [rx])) 0%nat (s "1 ab 2") = Ok (n', (outs, raws))
  /\ length outs = 2%nat /\ Forall (treated h' (wanted ops KRegex NoKey kw) (s "format_all")) outs.
Proof.
  intros ops h. do 8 eexists. split; [reflexivity|]. split; [|split; [|split; [|split; [|split; [|split; [|split; [|split; [|split; [|split]]]]]]]]].
  3: reflexivity. 4: reflexivity.
  - subst ops. cbn. repeat constructor; cbn; try (intros []); try discriminate.
  - reflexivity.
  - repeat constructor; cbn; intuition discriminate.
  - intros k Hk x. destruct Hk as [<-|[<-|[<-|[]]]]; vm_compute; discriminate.
  - vm_compute. reflexivity.
  - discriminate.
  - vm_compute. reflexivity.
  - reflexivity.
  - repeat constructor; right; right; reflexivity.
Qed.
