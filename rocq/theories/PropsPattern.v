(** * Patterns: C22, C40, C41, C42, C59, C60 *)
From Verif Require Import Base BaseFacts Match Coll Loose MatchFacts Pattern PatternFacts PropsLoose.
Set Implicit Arguments.
Unset Strict Implicit.
Open Scope Z_scope.

(** ** Specification *)

(** the option applying to a match: the entry for its name, else for its role, else the entry
    None, else the default *)
Definition named_with (n : option pstr) : Prop := exists ch r, n = Some (ch :: r).
Definition role (child : bool) : option pstr := Some (if child then s "__children__" else s "__parent__").
Inductive resolves {V} (d : dict (option pstr) V) (default : V) (name : option pstr) (child : bool) : V -> Prop :=
| by_name v : named_with name -> dfind d name = Some v -> resolves d default name child v
| by_role v : (named_with name -> dfind d name = None) -> dfind d (role child) = Some v -> resolves d default name child v
| by_none v : (named_with name -> dfind d name = None) -> dfind d (role child) = None -> dfind d None = Some v ->
    resolves d default name child v
| by_default : (named_with name -> dfind d name = None) -> dfind d (role child) = None -> dfind d None = None ->
    resolves d default name child default.

(** is a match of this role produced (or is every match subject to the treatment)? *)
Definition subject (p : popts) (child all : bool) : Prop :=
  all = true \/ po_every p = true \/ po_children p = child.

(** [m'] is the occurrence [m] with the options of the pattern applied *)
Record settings (p : popts) (i : nat) (child : bool) (m m' : mtch) : Prop := {
  st_same : m_span m' = m_span m /\ m_name m' = m_name m /\ m_tags m' = m_tags m /\ m_marker m' = m_marker m
            /\ m_solver m' = m_solver m /\ m_input m' = m_input m /\ m_pattern m' = m_pattern m
            /\ raw_start m' = raw_start m /\ raw_end m' = raw_end m
            /\ m_rawstart m' = m_rawstart m /\ m_rawend m' = m_rawend m;
  st_index : m_index m' = i;
  st_private : m_private m' = true <->
      m_private m = true
      \/ (exists n, m_name m = Some n /\ n <> [] /\ In n (po_private_names p))
      \/ (child = false /\ po_private_parent p = true) \/ (child = true /\ po_private_children p = true);
  st_value : exists v, resolves (po_values p) (po_value p) (m_name m) child v
                       /\ (truthy v = true -> m_lit m' = v) /\ (truthy v = false -> m_lit m' = m_lit m);
  st_format : (subject p child (po_format_all p) -> resolves (po_formatters p) (po_formatter p) (m_name m) child (m_fmt m'))
              /\ (~ subject p child (po_format_all p) -> m_fmt m' = m_fmt m)
}.

(** the validator applying to the (configured) match accepts it, if it is subject to validation *)
Definition accepted (p : popts) (child : bool) (m : mtch) : Prop :=
  subject p child (po_validate_all p) ->
  exists v, resolves (po_validators p) (po_validator p) (m_name m) child v /\ match v with Some f => f m = true | None => True end.

Definition ignored (p : popts) (m : mtch) : bool :=
  match m_name m with Some n => existsb (pstr_eqb n) (po_ignore_names p) | None => false end.
(** the matches produced for a valid occurrence: parent first, then the children in order *)
Definition chosen (p : popts) (m : mtch) : list mtch :=
  (if (negb (po_children p) || po_every p || po_private_parent p) && negb (ignored p m) then [m] else [])
  ++ (if po_children p || po_every p || po_private_children p then filter (fun c => negb (ignored p c)) (m_children m) else []).

(** the matches produced for the [i]-th occurrence [m]: [P] is the configured parent with its
    configured children (which are not configured yet when the parent is validated) *)
Definition produces (p : popts) (i : nat) (m : mtch) (outs : list mtch) : Prop :=
  exists P, settings p i false m P /\ m_parent P = None
    /\ Forall2 (fun c c' => settings p i true c c' /\ m_parent c' = Some (shell P)) (m_children m) (m_children P)
    /\ let P0 := set_children P (m_children m) in
       ((accepted p false P0 /\ Forall (accepted p true) (m_children P) /\ outs = chosen p P)
        \/ ((~ accepted p false P0 \/ Exists (fun c => ~ accepted p true c) (m_children P)) /\ outs = [])).

Definition no_processor (p : popts) : Prop := po_pre p = None /\ po_post p = None /\ po_post_processor p = None.

(** the occurrences found by each sub-pattern of a string, regex or functional pattern *)
Definition finds (p : popts) (input : pstr) (src : psource) (found : list (list mtch)) : Prop :=
  match src with
  | SString lower o subs => Forall2 (fun sub ms => string_match lower p o sub input = Ok ms) subs found
  | SRegex repeated subs => Forall2 (fun rx ms => re_match p repeated rx input = Ok ms) subs found
  | SFunctional subs => Forall2 (fun f ms => functional_match p f input = Ok ms) subs found
  end.

(** ** Proofs *)
Lemma truthy_name_spec n : truthy_name n = true <-> named_with n.
Proof. destruct n as [[|c r]|]; simpl; unfold named_with; split; try discriminate; try (intros (? & ? & ?); discriminate); eauto. Qed.

Lemma get_first_resolves {V} (d : dict (option pstr) V) default m child :
  resolves d default (m_name m) child (get_first_defined d (config_keys m child) default).
Proof.
  unfold config_keys. fold (role child). destruct (truthy_name (m_name m)) eqn:E.
  - apply truthy_name_spec in E. cbn [app get_first_defined]. destruct (dfind d (m_name m)) eqn:E1.
    + apply by_name; auto.
    + change (Some (if child then s "__children__" else s "__parent__")) with (role child). destruct (dfind d (role child)) eqn:E2.
      * apply by_role; auto.
      * destruct (dfind d None) eqn:E3; [apply by_none|apply by_default]; auto.
  - assert (named_with (m_name m) -> dfind d (m_name m) = None) as N.
    { intro X. apply truthy_name_spec in X. congruence. }
    cbn [app get_first_defined]. change (Some (if child then s "__children__" else s "__parent__")) with (role child).
    destruct (dfind d (role child)) eqn:E2; [apply by_role; auto|].
    destruct (dfind d None) eqn:E3; [apply by_none|apply by_default]; auto.
Qed.
Lemma resolves_fun {V} (d : dict (option pstr) V) default n child v w :
  resolves d default n child v -> resolves d default n child w -> v = w.
Proof. intros H K; inversion H; inversion K; subst; try reflexivity;
  repeat match goal with H : ?a -> _, K : ?a |- _ => specialize (H K) end; congruence. Qed.

Lemma subject_included p child all : (included p child || all)%bool = true <-> subject p child all.
Proof.
  unfold subject, included, include_children, include_parent.
  destruct child, (po_children p), (po_every p), all; simpl; intuition congruence.
Qed.

Lemma mem_names n l : mem (option_eqb pstr_eqb) n (map Some l) = match n with Some x => existsb (pstr_eqb x) l | None => false end.
Proof. unfold mem. destruct n as [x|]; induction l as [|y l IH]; simpl; auto. simpl in IH. now rewrite IH. Qed.
Lemma existsb_pstr x l : existsb (pstr_eqb x) l = true <-> In x l.
Proof.
  rewrite existsb_exists. split; [intros (y & Hy & E); apply (list_eqb_spec _ N.eqb_eq) in E; now subst|].
  intro H. exists x. split; auto. now apply (list_eqb_spec _ N.eqb_eq).
Qed.

Lemma configure_settings p i child m q :
  settings p i child m (set_parent (configure p i child m) q).
Proof.
  constructor.
  - unfold m_span, raw_start, raw_end. simpl.
    rewrite configure_start, configure_end, configure_name, configure_tags, configure_marker, configure_solver, configure_input, configure_pattern, configure_rawstart, configure_rawend.
    repeat split.
  - simpl. apply configure_index.
  - simpl. rewrite configure_private. rewrite !orb_true_iff, !andb_true_iff, negb_true_iff, mem_names, truthy_name_spec.
    split.
    + intros [[[[H1 H2]|H]|H]|H]; auto.
      right; left. destruct (m_name m) as [n|]; [|discriminate]. exists n. destruct H1 as (ch & r & E). injection E as ->. split; [reflexivity|]. split; [discriminate|now apply existsb_pstr].
    + intros [H|[(n & H1 & H2 & H3)|[H|H]]]; auto.
      left; left; left. rewrite H1. split; [destruct n; [contradiction|]; unfold named_with; eauto|now apply existsb_pstr].
  - simpl. exists (get_first_defined (po_values p) (config_keys m child) (po_value p)).
    split; [apply get_first_resolves|]. rewrite configure_lit. cbv zeta. split; intros ->; reflexivity.
  - simpl. rewrite configure_fmt. split; intro H.
    + apply subject_included in H. rewrite H. apply get_first_resolves.
    + destruct (_ || _)%bool eqn:E; [|reflexivity]. apply subject_included in E. contradiction.
Qed.

Lemma validator_accepted p child m : process_validator p m child = true <-> accepted p child m.
Proof.
  unfold process_validator, accepted. destruct (_ || _)%bool eqn:E.
  - apply subject_included in E. pose proof (get_first_resolves (po_validators p) (po_validator p) m child) as R. split.
    + intros H _. eexists; split; [exact R|]. destruct (get_first_defined _ _ _); auto.
    + intro H. destruct (H E) as (v & Hv & Hf). rewrite (resolves_fun R Hv). destruct v; auto.
  - split; auto. intros _ H. apply subject_included in H. congruence.
Qed.

Lemma not_ignored_eq p m : not_ignored p m = negb (ignored p m).
Proof. unfold not_ignored, ignored. rewrite mem_names. reflexivity. Qed.
Lemma dispatch_chosen p m : dispatch p m = chosen p m.
Proof.
  unfold dispatch, chosen, include_parent, include_children. rewrite not_ignored_eq.
  rewrite (filter_ext _ _ (not_ignored_eq p)). reflexivity.
Qed.

Lemma valid_children_accepted p cs : valid_children p cs = true <-> Forall (accepted p true) cs.
Proof.
  unfold valid_children. rewrite forallb_forall, Forall_forall. split; intros H c Hc; [apply validator_accepted|apply validator_accepted]; auto.
Qed.

Lemma forallb_false_exists {A} (f : A -> bool) l : forallb f l = false -> exists x, In x l /\ f x = false.
Proof. induction l as [|x l IH]; simpl; [discriminate|]. destruct (f x) eqn:E; simpl; [intro H; destruct (IH H) as (y & ? & ?)|]; eauto. Qed.

Lemma outcome_produces p i m outs : family m -> mtrue m = true -> outcome p i m outs -> produces p i m outs.
Proof.
  intros [F1 F2] T H. unfold outcome in H. rewrite T in H. cbn [andb] in H.
  exists (configured p i m). split.
  { unfold configured. destruct (configure_settings p i false m None) as [A B C D E].
    constructor; [exact A|exact B|exact C|exact D|exact E]. }
  split; [unfold configured; simpl; now rewrite configure_parent|]. split.
  { unfold configured, configured_children. simpl. clear. induction (m_children m) as [|c r IH]; simpl; constructor; auto.
    split; [apply configure_settings|reflexivity]. }
  assert (set_children (configured p i m) (m_children m) = configure p i false m) as E0.
  { unfold configured. rewrite <- (configure_children p i false m). destruct (configure p i false m); reflexivity. }
  cbv zeta. rewrite E0.
  destruct (process_validator p (configure p i false m) false) eqn:V1; [destruct (valid_children p (configured_children p i m)) eqn:V2|].
  - left. apply validator_accepted in V1. apply valid_children_accepted in V2. rewrite <- dispatch_chosen. auto.
  - right. split; [right|exact H]. change (m_children (configured p i m)) with (configured_children p i m).
    unfold valid_children in V2. apply forallb_false_exists in V2 as (c & Hc & V). apply Exists_exists. exists c. split; auto.
    intro A. apply validator_accepted in A. congruence.
  - right. split; [left|exact H]. intro A. apply validator_accepted in A. congruence.
Qed.

Lemma string_match_raw lower p o sub input ms : string_match lower p o sub input = Ok ms ->
  Forall (fun m => m_parent m = None /\ m_children m = [] /\ mtrue m = true) ms.
Proof.
  unfold string_match. destruct (find_all_n _ _ _ _ _ _ _) as [l|]; [|discriminate]. intro H.
  apply keep_truthy_inv in H as [_ ->]. apply Forall_forall. intros m Hm. apply filter_In in Hm as [Hm T].
  apply in_map_iff in Hm as (i & <- & _). repeat split; auto.
Qed.
Lemma append_children_parent : forall cs main m, append_children main cs = Ok m -> m_parent m = m_parent main /\ m_span m = m_span main /\ m_name m = m_name main
  /\ m_children m = m_children main ++ filter mtrue cs /\ Forall (fun c => 0 <= mlen c) cs /\ Forall (fun c => mtrue c = true -> m_marker c = false) cs
  /\ m = set_children main (m_children m).
Proof.
  induction cs as [|c r IH]; intros main m H; cbn [append_children] in H.
  - injection H as <-. rewrite app_nil_r. repeat split; auto. destruct main; reflexivity.
  - unfold mbool in H. destruct (Z.ltb_spec (mlen c) 0); [discriminate|]. cbn [filter]. fold (mtrue c) in H. destruct (mtrue c) eqn:T.
    + destruct (m_marker c) eqn:M; [discriminate|]. apply IH in H as (A1 & A2 & A3 & A4 & A5 & A6 & A7). simpl in *. rewrite <- app_assoc in A4.
      repeat split; auto; constructor; auto; try lia; try congruence.
    + apply IH in H as (A1 & A2 & A3 & A4 & A5 & A6 & A7). repeat split; auto; constructor; auto; try lia; try congruence.
Qed.
Lemma re_match_raw p repeated rx input ms : re_match p repeated rx input = Ok ms ->
  Forall (fun m => m_parent m = None /\ mtrue m = true) ms.
Proof.
  unfold re_match. destruct (sequence _ _) as [l|] eqn:E; [|discriminate]. intro H. apply keep_truthy_inv in H as [_ ->].
  apply sequence_ok in E. apply Forall_forall. intros m Hm. apply filter_In in Hm as [Hm T]. split; auto.
  clear T. induction E as [|o m' os l E0 E IH]; [contradiction|]. destruct Hm as [<-|Hm]; auto.
  unfold re_one in E0. apply append_children_parent in E0 as (-> & _). reflexivity.
Qed.
Lemma functional_match_raw p f input ms : functional_match p f input = Ok ms ->
  Forall (fun m => m_parent m = None /\ m_children m = [] /\ mtrue m = true) ms.
Proof.
  unfold functional_match. destruct (sequence _ _) as [l|] eqn:E; [|discriminate]. intro H. apply keep_truthy_inv in H as [_ ->].
  apply sequence_ok in E. apply Forall_forall. intros m Hm. apply filter_In in Hm as [Hm T]. rewrite <- and_assoc. split; auto.
  clear T. induction E as [|o m' os l' E0 E IH]; [contradiction|]. destruct Hm as [<-|Hm]; auto.
  unfold functional_one in E0. destruct o as [st en v o|st en o].
  - destruct v; destruct o; simpl in E0; try (destruct (mo_value _); [discriminate|]); injection E0 as <-; auto.
  - injection E0 as <-. auto.
Qed.

(** for every occurrence, either nothing or all the selected matches *)
Theorem C41_all_or_nothing : forall p src n input n' outs raws,
  no_processor p -> pattern_matches p src n input = Ok (n', (outs, raws)) ->
  exists found occs outss,
    finds p input src found                                (* the occurrences found *)
    /\ Forall2 (Forall2 same_occurrence) found occs      (* with the identities they get *)
    /\ Forall2 (fun occ os => exists oss, Forall2i (produces p) 0 occ oss /\ os = concat oss) occs outss
    /\ outs = concat outss.
Proof.
  intros p src n input n' outs raws (N1 & N2 & N3) H.
  assert (exists found occs, finds p input src found /\ Forall2 (Forall2 same_occurrence) found occs /\ Forall (Forall family) occs
    /\ Forall (Forall (fun m => mtrue m = true)) found
    /\ exists outss, Forall2 (outcomes p) occs outss /\ outs = concat outss) as (found & occs & A & B & C & T & outss & D & E).
  { destruct src.
    - apply run_pattern_spec in H as (found & occs & A & B & C & D & _); auto.
      + exists found, occs. split; [exact A|]. repeat split; auto. clear - A. induction A; constructor; auto.
        apply string_match_raw in H. eapply Forall_impl; [|exact H]. simpl; tauto.
      + intros. apply string_match_raw in H1. eapply Forall_impl; [|exact H1]. simpl; tauto.
    - apply run_pattern_spec in H as (found & occs & A & B & C & D & _); auto.
      + exists found, occs. split; [exact A|]. repeat split; auto. clear - A. induction A; constructor; auto.
        apply re_match_raw in H. eapply Forall_impl; [|exact H]. simpl; tauto.
      + intros. apply re_match_raw in H1. eapply Forall_impl; [|exact H1]. simpl; tauto.
    - apply run_pattern_spec in H as (found & occs & A & B & C & D & _); auto.
      + exists found, occs. split; [exact A|]. repeat split; auto. clear - A. induction A; constructor; auto.
        apply functional_match_raw in H. eapply Forall_impl; [|exact H]. simpl; tauto.
      + intros. apply functional_match_raw in H1. eapply Forall_impl; [|exact H1]. simpl; tauto. }
  exists found, occs, outss. split; auto. split; auto. split; [|exact E]. clear E H A.
  assert (Forall (Forall (fun m => mtrue m = true)) occs) as T'.
  { clear - T B. induction B; inversion T; subst; constructor; auto. clear - H H2. induction H; inversion H2; subst; constructor; auto.
    apply same_occurrence_len in H as [L _]. unfold mtrue in *. now rewrite L. }
  clear B T. induction D as [|occ os occs' outss' D0 D IH]; constructor.
  - destruct D0 as (oss & D1 & D2). exists oss. split; [|exact D2]. inversion C; inversion T'; subst.
    eapply Forall2i_impl_in; [|exact D1]. intros i a b Ha Hb O. rewrite Forall_forall in H1, H5. apply outcome_produces; auto.
  - inversion C; inversion T'; subst. auto.
Qed.

Lemma settings_transfer p i child (m m1 m' : mtch) :
  m_span m1 = m_span m -> m_name m1 = m_name m -> m_tags m1 = m_tags m -> m_marker m1 = m_marker m -> m_solver m1 = m_solver m ->
  m_input m1 = m_input m -> m_pattern m1 = m_pattern m -> m_rawstart m1 = m_rawstart m -> m_rawend m1 = m_rawend m ->
  m_private m1 = m_private m -> m_lit m1 = m_lit m -> m_fmt m1 = m_fmt m ->
  settings p i child m1 m' -> settings p i child m m'.
Proof.
  intros E1 E2 E3 E4 E5 E6 E7 E8 E9 E10 E11 E12 [A B C D E].
  assert (raw_start m1 = raw_start m) as R1 by (unfold raw_start; injection E1 as X Y; now rewrite X, E8).
  assert (raw_end m1 = raw_end m) as R2 by (unfold raw_end; injection E1 as X Y; now rewrite Y, E9).
  rewrite E1, E2, E3, E4, E5, E6, E7, R1, R2, E8, E9 in A. rewrite E2, E10 in C. rewrite E2, E11 in D. rewrite E2, E12 in E.
  constructor; auto.
Qed.

(** every returned match is an occurrence, or a child of one, with the options applied *)
Lemma returned p src n input n' outs raws :
  no_processor p -> pattern_matches p src n input = Ok (n', (outs, raws)) ->
  exists found, finds p input src found /\ forall m, In m outs ->
    exists o i, In o (concat found) /\
     ((m_parent m = None /\ settings p i false o m /\ (exists cs, accepted p false (set_children m cs)))
      \/ (exists c P, m_parent m = Some (shell P) /\ In c (m_children o) /\ settings p i true c m /\ accepted p true m
                    /\ settings p i false o P /\ In m (m_children P))).
Proof.
  intros N H. destruct (C41_all_or_nothing N H) as (found & occs & outss & A & B & C & D). exists found. split; auto.
  intros m Hm. rewrite D in Hm. apply in_concat in Hm as (os & Hos & Hm).
  assert (exists occ, In occ occs /\ exists oss, Forall2i (produces p) 0 occ oss /\ os = concat oss) as (occ & Hocc & oss & F & ->).
  { clear - C Hos. induction C; [contradiction|]. destruct Hos as [->|Hos]; [exists x; split; [left; auto|auto]|].
    destruct (IHC Hos) as (occ & ? & ?). exists occ. split; [right; auto|auto]. }
  apply in_concat in Hm as (outs1 & Ho1 & Hm). destruct (Forall2i_in_r F Ho1) as (a & i & Ha & P).
  assert (exists f, In f found /\ exists o, In o f /\ same_occurrence o a) as (f & Hf & o & Ho & S).
  { clear - B Hocc Ha. induction B; [contradiction|]. destruct Hocc as [->|Hocc].
    - exists x. split; [left; auto|]. clear - H Ha. induction H; [contradiction|]. destruct Ha as [->|Ha].
      + exists x. split; [left; auto|auto].
      + destruct (IHForall2 Ha) as (o & ? & ?). exists o. split; [right; auto|auto].
    - destruct (IHB Hocc) as (f & ? & ?). exists f. split; [right; auto|auto]. }
  exists o, i. split; [apply in_concat; eauto|].
  destruct P as (P & P1 & P2 & P3 & P4). cbv zeta in P4. destruct P4 as [(V1 & V2 & ->)|[_ ->]]; [|contradiction].
  pose proof (same_occurrence_len S) as (S0 & S1 & S2 & S3 & S4 & S5 & S6 & S7 & S8 & S9 & S10 & S11 & S12 & S13).
  assert (settings p i false o P) as P1' by (apply settings_transfer with (m1 := a); auto).
  unfold chosen in Hm. apply in_app_iff in Hm as [Hm|Hm].
  - left. destruct (_ && _)%bool; [|contradiction]. destruct Hm as [<-|[]]. repeat split; auto; try apply P1'. eauto.
  - right. destruct (_ || _ || _)%bool; [|contradiction]. apply filter_In in Hm as [Hm _].
    assert (exists c, In c (m_children a) /\ settings p i true c m /\ m_parent m = Some (shell P)) as (c & Hc & Sc & Pc).
    { clear - P3 Hm. induction P3; [contradiction|]. destruct Hm as [->|Hm]; [exists x; split; [left; auto|tauto]|].
      destruct (IHP3 Hm) as (c & ? & ?). exists c. split; [right; auto|auto]. }
    destruct S as (k & _ & S).
    assert (exists c0, In c0 (m_children o) /\ same_child c0 c) as (c0 & Hc0 & (k' & q & ->)).
    { clear - S Hc. induction S; [contradiction|]. destruct Hc as [->|Hc]; [exists x; split; [left; auto|auto]|].
      destruct (IHS Hc) as (c0 & ? & ?). exists c0. split; [right; auto|auto]. }
    exists c0, P. split; auto. split; auto. split; [|split; [|split; auto]].
    + apply settings_transfer with (m1 := set_parent (set_id c0 k') (Some q)); auto.
    + rewrite Forall_forall in V2. auto.
Qed.

(** The value, formatter and validator of every returned match are the ones its name, else its
    role, else None, else the default designate *)
Theorem C40_options_resolve : forall p src n input n' outs raws m,
  no_processor p -> pattern_matches p src n input = Ok (n', (outs, raws)) -> In m outs ->
  let child := match m_parent m with Some _ => true | None => false end in
  (exists i o, settings p i child o m)
  /\ (subject p child (po_format_all p) -> resolves (po_formatters p) (po_formatter p) (m_name m) child (m_fmt m))
  /\ (forall v, resolves (po_values p) (po_value p) (m_name m) child v -> truthy v = true -> m_value m = v)
  /\ (exists cs, accepted p child (if child then m else set_children m cs)).
Proof.
  intros p src n input n' outs raws m N H Hm child. destruct (returned N H) as (found & _ & R).
  destruct (R m Hm) as (o & i & _ & [(E & S & cs & V)|(c & P & E & _ & S & V & _)]); unfold child; rewrite E; clear child.
  - split; [eauto|]. split; [|split; [|eauto]].
    + intro X. destruct S as [A _ _ _ S]. apply S in X. replace (m_name m) with (m_name o); [auto|symmetry; apply A].
    + intros v Hv T. destruct S as [A _ _ (w & S1 & S2 & S3) _]. replace (m_name m) with (m_name o) in Hv; [|symmetry; apply A].
      rewrite <- (resolves_fun Hv S1) in S2. unfold m_value. rewrite (S2 T), T. reflexivity.
  - split; [eauto|]. split; [|split; [|exists []; exact V]].
    + intro X. destruct S as [A _ _ _ S]. apply S in X. replace (m_name m) with (m_name c); [auto|symmetry; apply A].
    + intros v Hv T. destruct S as [A _ _ (w & S1 & S2 & S3) _]. replace (m_name m) with (m_name c) in Hv; [|symmetry; apply A].
      rewrite <- (resolves_fun Hv S1) in S2. unfold m_value. rewrite (S2 T), T. reflexivity.
Qed.

(** a bare option applies to every match *)
Theorem C40_bare_option : forall V (v default : V) name child w,
  resolves (fst (ensure_dict (DSingle v) default)) (snd (ensure_dict (DSingle v) default)) name child w <-> w = v.
Proof.
  intros V v default name child w. simpl. assert (resolves [(None, v)] v name child v) as R.
  { apply by_none; try reflexivity. intros (ch & r & ->). reflexivity. }
  split; [intro H; symmetry; eapply resolves_fun; eauto|intros ->; exact R].
Qed.
Theorem C40_no_option : forall V (default : V) name child w,
  resolves (fst (ensure_dict DNone default)) (snd (ensure_dict DNone default)) name child w <-> w = default.
Proof.
  intros V v name child w. simpl. assert (resolves [(None, v)] v name child v) as R.
  { apply by_none; try reflexivity. intros (ch & r & ->). reflexivity. }
  split; [intro H; symmetry; eapply resolves_fun; eauto|intros ->; exact R].
Qed.

(** what the raw occurrences carry: the options meant for matches *)
Definition made (p : popts) (child : bool) (input : pstr) (m : mtch) : Prop :=
  m_lit m = VNone /\ m_tags m = given (mo_tags (po_kw p)) [] /\ m_marker m = given (mo_marker (po_kw p)) false
  /\ m_private m = given (mo_private (po_kw p)) false /\ m_fmt m = None /\ m_solver m = given (mo_solver (po_kw p)) None
  /\ m_input m = Some input /\ m_pattern m = Some (po_id p) /\ m_rawstart m = None /\ m_rawend m = None
  /\ (child = false -> m_name m = given (mo_name (po_kw p)) None).

Lemma string_match_made lower p o sub input ms : string_match lower p o sub input = Ok ms -> Forall (made p false input) ms.
Proof.
  unfold string_match. destruct (find_all_n _ _ _ _ _ _ _) as [l|]; [|discriminate]. intro H.
  apply keep_truthy_inv in H as [_ ->]. apply Forall_forall. intros m Hm. apply filter_In in Hm as [Hm T].
  apply in_map_iff in Hm as (i & <- & _). repeat split; auto.
Qed.
Lemma re_match_made p repeated rx input ms : re_match p repeated rx input = Ok ms ->
  Forall (fun m => made p false input m /\ Forall (made p true input) (m_children m)) ms.
Proof.
  unfold re_match. destruct (sequence _ _) as [l|] eqn:E; [|discriminate]. intro H. apply keep_truthy_inv in H as [_ ->].
  apply sequence_ok in E. apply Forall_forall. intros m Hm. apply filter_In in Hm as [Hm _].
  induction E as [|o m' os l E0 E IH]; [contradiction|]. destruct Hm as [<-|Hm]; auto. clear - E0.
  unfold re_one in E0. apply append_children_parent in E0 as (_ & _ & _ & A4 & _ & _ & A7). split.
  - rewrite A7. repeat split; auto.
  - rewrite A4. cbn [m_children new_match app]. apply Forall_forall. intros c Hc. apply filter_In in Hc as [Hc _].
    apply in_flat_map in Hc as (g & _ & Hc). unfold re_child in Hc. apply in_map_iff in Hc as (sp & <- & _).
    unfold made; simpl. repeat split; auto. discriminate.
Qed.

Definition functional (src : psource) : Prop := match src with SFunctional _ => True | _ => False end.

Lemma found_made p input src found : ~ functional src -> finds p input src found ->
  forall o, In o (concat found) -> made p false input o /\ forall c, In c (m_children o) -> made p true input c.
Proof.
  intros NF F o Ho. apply in_concat in Ho as (ms & Hms & Ho).
  assert (Forall (fun m => made p false input m /\ Forall (made p true input) (m_children m)) ms) as X.
  { destruct src as [lower oo subs|rep subs|subs]; simpl in F, NF.
    - clear - F Hms. induction F; [contradiction|]. destruct Hms as [->|Hms]; auto.
      pose proof (string_match_made H) as A. pose proof (string_match_raw H) as B. rewrite Forall_forall in *. intros x0 Hx0.
      destruct (B x0 Hx0) as (_ & -> & _). auto.
    - clear - F Hms. induction F; [contradiction|]. destruct Hms as [->|Hms]; auto. eapply re_match_made; eauto.
    - destruct (NF I). }
  rewrite Forall_forall in X. destruct (X o Ho) as [A B]. rewrite Forall_forall in B. auto.
Qed.

Theorem C42_private : forall p src n input n' outs raws m,
  no_processor p -> ~ functional src -> pattern_matches p src n input = Ok (n', (outs, raws)) -> In m outs ->
  (m_private m = true <->
    mo_private (po_kw p) = Some true
    \/ (exists nm, m_name m = Some nm /\ nm <> [] /\ In nm (po_private_names p))
    \/ (m_parent m = None /\ po_private_parent p = true)
    \/ (m_parent m <> None /\ po_private_children p = true)).
Proof.
  intros p src n input n' outs raws m N HM H Hm. destruct (returned N H) as (found & F & R).
  pose proof (found_made HM F) as MD.
  destruct (R m Hm) as (o & i & Ho & [(E & S & _)|(c & P & E & Hc & S & _)]); destruct (MD o Ho) as [M1 M2]; rewrite E.
  - destruct S as [A _ C _ _]. rewrite C. replace (m_name m) with (m_name o); [|symmetry; apply A].
    destruct M1 as (_ & _ & _ & -> & _). destruct (mo_private (po_kw p)) as [[]|]; simpl; intuition congruence.
  - specialize (M2 c Hc). destruct S as [A _ C _ _]. rewrite C. replace (m_name m) with (m_name c); [|symmetry; apply A].
    destruct M2 as (_ & _ & _ & -> & _). destruct (mo_private (po_kw p)) as [[]|]; simpl; intuition congruence.
Qed.

(** for a functional pattern the occurrence's own [private] option replaces the pattern's *)
Theorem C42_private_functional : forall p src n input n' outs raws m,
  no_processor p -> functional src -> pattern_matches p src n input = Ok (n', (outs, raws)) -> In m outs ->
  exists found o, finds p input src found /\ In o (concat found) /\ m_span o = m_span m /\
  (m_private m = true <->
    m_private o = true \/ (exists nm, m_name m = Some nm /\ nm <> [] /\ In nm (po_private_names p)) \/ po_private_parent p = true).
Proof.
  intros p src n input n' outs raws m N HM H Hm. destruct (returned N H) as (found & F & R).
  destruct src as [| |subs]; try contradiction.
  destruct (R m Hm) as (o & i & Ho & [(E & S & _)|(c & P & E & Hc & S & _)]).
  - exists found, o. split; auto. split; auto. destruct S as [A _ C _ _]. split; [symmetry; apply A|]. rewrite C.
    replace (m_name m) with (m_name o); [|symmetry; apply A]. intuition congruence.
  - exfalso. simpl in F. apply in_concat in Ho as (ms & Hms & Ho). clear - F Hms Ho Hc. induction F; [contradiction|]. destruct Hms as [->|Hms]; auto.
    apply functional_match_raw in H. rewrite Forall_forall in H. destruct (H o Ho) as (_ & E & _). rewrite E in Hc. contradiction.
Qed.

(** ** C22 *)
Lemma occurs_slice str sub i : occurs str sub i -> py_slice str (Some i) (Some (i + zlen sub)) = sub.
Proof.
  intros (a & b & -> & <-). unfold py_slice, py_clip. rewrite !zlen_app. pose proof (zlen_nonneg a). pose proof (zlen_nonneg sub). pose proof (zlen_nonneg b).
  destruct (Z.ltb_spec (zlen a) 0); [lia|]. destruct (Z.ltb_spec (zlen a + zlen sub) 0); [lia|].
  rewrite !Z.min_l by lia. replace (zlen a + zlen sub - zlen a) with (zlen sub) by lia.
  unfold zlen. rewrite !Nat2Z.id. rewrite skipn_app, skipn_all, Nat.sub_diag, skipn_O. simpl.
  rewrite firstn_app, firstn_all, Nat.sub_diag, firstn_O. now rewrite app_nil_r.
Qed.

Lemma string_match_found lower p o sub input : so_ignore_case o = false -> sub <> [] ->
  exists l ms, greedy input sub (so_start o) (so_end o) l /\ string_match lower p o sub input = Ok ms
    /\ ms = map (fun i => new_match 0 i (i + zlen sub) (filter_match_kwargs (po_kw p) false) (po_id p) input) l.
Proof.
  intros C Hs. unfold string_match, find_all_n. rewrite C.
  destruct (@find_all_greedy input sub (so_end o) Hs (S (length input)) (so_start o)) as (l & L1 & L2).
  { destruct (so_start o) as [a|]; unfold py_clip, zlen; [destruct (a <? 0) eqn:?|]; lia. }
  rewrite L1 by lia. exists l. eexists. split; [exact L2|]. 
  assert (0 < zlen sub) by (destruct sub; [congruence|rewrite zlen_cons; pose proof (zlen_nonneg sub); lia]).
  split; [|reflexivity]. rewrite keep_truthy_ok.
  - rewrite filter_all; [reflexivity|]. intros m Hm. apply in_map_iff in Hm as (i & <- & _). unfold mtrue, mlen; simpl.
    destruct (Z.eqb_spec (i + zlen sub - i) 0); [lia|reflexivity].
  - apply Forall_forall. intros m Hm. apply in_map_iff in Hm as (i & <- & _). unfold mlen; simpl. lia.
Qed.

Lemma run_pattern_ok p {A} (subs : list A) match_ n input :
  po_pre p = None -> po_post p = None ->
  (forall sub, In sub subs -> exists ms, match_ sub input = Ok ms /\ Forall (fun m => m_parent m = None /\ 0 <= mlen m) ms) ->
  exists r, run_pattern p subs match_ n input = Ok r.
Proof.
  intros H1 H2 H. unfold run_pattern.
  assert (exists found, sequence (fun sub => match_ sub input) subs = Ok found /\ Forall (Forall (fun m => m_parent m = None /\ 0 <= mlen m)) found) as (found & -> & F).
  { clear - H. induction subs as [|x r IH]; simpl; [exists []; auto|]. destruct (H x (or_introl eq_refl)) as (ms & -> & Hm).
    destruct IH as (f & -> & F); [intros; apply H; now right|]. exists (ms :: f). auto. }
  assert (Forall (Forall (fun m => m_parent m = None)) found) as F1.
  { eapply Forall_impl; [|exact F]. intros l. apply Forall_impl. tauto. }
  destruct (@number_lists_spec found n F1) as [N1 N2]. destruct (number_lists n found) as [k occs]. simpl in N1, N2.
  unfold finish_matches. destruct (@process_patterns_ok p H1 H2 occs N1) as [[raws outs] ->]; [|eauto].
  clear - F N2. induction N2; inversion F; subst; constructor; auto. clear - H H2. induction H; inversion H2; subst; constructor; auto.
  apply same_occurrence_len in H as [-> _]. tauto.
Qed.

(** Every returned match is an occurrence of one of the searched strings *)
Theorem C22_string_text : forall p lower o subs n input n' outs raws m,
  no_processor p -> so_ignore_case o = false -> Forall (fun sub => sub <> []) subs ->
  pattern_matches p (SString lower o subs) n input = Ok (n', (outs, raws)) -> In m outs ->
  exists sub i, In sub subs /\ occurs input sub i /\ inside input sub (so_start o) (so_end o) i
    /\ m_span m = (i, i + zlen sub) /\ 0 <= m_start m < m_end m /\ m_end m <= zlen input /\ m_raw m = VStr sub.
Proof.
  intros p lower o subs n input n' outs raws m N C Hs H Hm. destruct (returned N H) as (found & F & R).
  assert (exists sub i, In sub subs /\ occurs input sub i /\ inside input sub (so_start o) (so_end o) i /\ m_span m = (i, i + zlen sub)
     /\ m_input m = Some input /\ raw_start m = i /\ raw_end m = i + zlen sub) as (sub & i & H1 & H2 & H3 & H4 & H5 & H6 & H7).
  { destruct (R m Hm) as (oc & j & Ho & X). apply in_concat in Ho as (ms & Hms & Ho). simpl in F.
    assert (exists sub, In sub subs /\ string_match lower p o sub input = Ok ms) as (sub & Hsub & E).
    { clear - F Hms. induction F; [contradiction|]. destruct Hms as [->|Hms]; [exists x; split; [left; auto|auto]|].
      destruct (IHF Hms) as (sub & ? & ?). exists sub. split; [right; auto|auto]. }
    rewrite Forall_forall in Hs. destruct (@string_match_found lower p o sub input C (Hs sub Hsub)) as (l & ms' & G & E' & D).
    rewrite E in E'. injection E' as <-. subst ms. apply in_map_iff in Ho as (i & <- & Hi).
    destruct G as (G1 & _). rewrite Forall_forall in G1. destruct (G1 i Hi) as [O I]. exists sub, i.
    destruct X as [(_ & S & _)|(c & P & _ & Hc & _)]; [|simpl in Hc; contradiction].
    destruct S as [(S1 & _ & _ & _ & _ & S2 & _ & S3 & S4 & _) _ _ _ _]. repeat split; auto; apply I. }
  exists sub, i. injection H4 as A1 A2. pose proof (occurs_bounds H2) as B. rewrite Forall_forall in Hs. specialize (Hs sub H1).
  assert (0 < zlen sub) by (destruct sub; [congruence|rewrite zlen_cons; pose proof (zlen_nonneg sub); lia]).
  repeat split; auto; try (apply H3); try lia.
  - unfold m_span. congruence.
  - unfold m_raw. rewrite H5. destruct input as [|ch r]; [unfold zlen in B at 2; simpl in B; lia|]. rewrite H6, H7, occurs_slice; auto.
Qed.

(** patterns which return every occurrence *)
Definition plain (p : popts) : Prop :=
  no_processor p /\ (po_children p = false \/ po_every p = true) /\ po_ignore_names p = [] /\ forall m, accepted p false m.

Lemma chosen_plain p m : plain p -> m_children m = [] -> chosen p m = [m].
Proof.
  intros (_ & C & I & _) E. unfold chosen, ignored. rewrite I, E. simpl.
  assert ((negb (po_children p) || po_every p || po_private_parent p)%bool = true) as -> by (destruct C as [-> | ->]; rewrite ?orb_true_r; reflexivity).
  destruct (m_name m); simpl; destruct (po_children p || po_every p || po_private_children p)%bool; reflexivity.
Qed.

(** matching succeeds, and returns exactly the greedy occurrences of each string in turn *)
Theorem C22_string_exact : forall p lower o subs n input,
  plain p -> so_ignore_case o = false -> Forall (fun sub => sub <> []) subs ->
  exists n' outs raws ls, pattern_matches p (SString lower o subs) n input = Ok (n', (outs, raws))
    /\ Forall2 (fun sub l => greedy input sub (so_start o) (so_end o) l) subs ls
    /\ map m_span outs = concat (map (fun sl => map (fun i => (i, i + zlen (fst sl))) (snd sl)) (combine subs ls)).
Proof.
  intros p lower o subs n input PL C Hs. pose proof PL as ((N1 & N2 & N3) & _).
  destruct (@run_pattern_ok p pstr subs (string_match lower p o) n input N1 N2) as ((n' & outs & raws) & H).
  { intros sub Hsub. rewrite Forall_forall in Hs. destruct (@string_match_found lower p o sub input C (Hs sub Hsub)) as (l & ms & G & E & D).
    exists ms. split; auto. subst. apply Forall_forall. intros m Hm. apply in_map_iff in Hm as (i & <- & _). split; auto. unfold mlen; simpl.
    pose proof (zlen_nonneg sub). lia. }
  exists n', outs, raws. 
  destruct (@C41_all_or_nothing p (SString lower o subs) n input n' outs raws) as (found & occs & outss & A & B & D & ->); [repeat split; auto|exact H|].
  cut (exists ls, Forall2 (fun sub l => greedy input sub (so_start o) (so_end o) l) subs ls
    /\ map m_span (concat outss) = concat (map (fun sl => map (fun i => (i, i + zlen (fst sl))) (snd sl)) (combine subs ls))).
  { intros (ls & L1 & L2). exists ls. auto. }
  clear H. simpl in A. revert found occs outss A B D. induction subs as [|sub subs IH]; intros found occs outss A B D.
  - inversion A; subst. inversion B; subst. inversion D; subst. exists []. split; constructor.
  - inversion A as [|? ms ? found' A1 A2]; subst. inversion B as [|? occ ? occs' B1 B2]; subst. inversion D as [|? os ? outss' D1 D2]; subst.
    inversion Hs; subst. destruct (IH H2 _ _ _ A2 B2 D2) as (ls & L1 & L2).
    destruct (@string_match_found lower p o sub input C H1) as (l & ms' & G & E & M). rewrite A1 in E. injection E as <-.
    exists (l :: ls). split; [constructor; auto|]. cbn [concat combine map fst snd]. rewrite map_app, L2. f_equal.
    destruct D1 as (oss & F & ->). rewrite M in B1. clear - F B1 PL.
    assert (forall j, Forall2i (produces p) j occ oss -> map m_span (concat oss) = map (fun i => (i, i + zlen sub)) l) as X; [|eauto].
    clear F. revert occ oss B1. induction l as [|i l IH]; intros occ oss B1 j F; simpl in B1.
    + inversion B1; subst. inversion F; subst. reflexivity.
    + inversion B1 as [|? y ? occ' Y1 Y2]; subst. inversion F as [|? ? b ? oss' F1 F2]; subst.
      cbn [concat map]. rewrite map_app. rewrite (IH _ _ Y2 (S j) F2).
      destruct F1 as (P & P1 & P2 & P3 & P4). pose proof (same_occurrence_len Y1) as S.
      assert (m_children y = []) as EC.
      { destruct Y1 as (k & _ & X). simpl in X. now inversion X. }
      rewrite EC in P3. assert (m_children P = []) as EP by now inversion P3.
      cbv zeta in P4. destruct P4 as [(_ & _ & ->)|[[X|X] _]].
      * rewrite (chosen_plain PL EP). simpl. f_equal. destruct P1 as [(Q & _) _ _ _ _]. rewrite Q. apply S.
      * exfalso. apply X. apply PL.
      * rewrite EP in X. inversion X.
Qed.

(** so every occurrence overlaps a returned match *)
Theorem C22_string_complete : forall p lower o subs n input n' outs raws sub i,
  plain p -> so_ignore_case o = false -> Forall (fun sub => sub <> []) subs ->
  pattern_matches p (SString lower o subs) n input = Ok (n', (outs, raws)) ->
  In sub subs -> occurs input sub i -> inside input sub (so_start o) (so_end o) i ->
  exists m, In m outs /\ m_end m - m_start m = zlen sub /\ m_start m <= i < m_end m.
Proof.
  intros p lower o subs n input n' outs raws sub i PL C Hs H Hsub Ho Hi.
  destruct (@C22_string_exact p lower o subs n input PL C Hs) as (n1 & outs1 & raws1 & ls & H' & L & E).
  rewrite H in H'. injection H' as <- <- <-.
  assert (exists l, In (sub, l) (combine subs ls) /\ greedy input sub (so_start o) (so_end o) l) as (l & Hl & G).
  { clear - L Hsub. induction L; [contradiction|]. destruct Hsub as [->|Hsub]; [exists y; split; [left; auto|auto]|].
    destruct (IHL Hsub) as (l0 & ? & ?). exists l0. split; [right; auto|auto]. }
  destruct G as (_ & _ & G). destruct (G i Ho Hi) as (j & Hj & J).
  assert (In (j, j + zlen sub) (map m_span outs)) as X.
  { rewrite E. apply in_concat. exists (map (fun i => (i, i + zlen sub)) l). split; [apply in_map_iff; exists (sub, l); auto|].
    apply in_map_iff. exists j. auto. }
  apply in_map_iff in X as (m & E1 & Hm). injection E1 as E1 E2. exists m. split; auto. lia.
Qed.

(** with ignore_case, when lowering a string works character by character, the text of a match
    is the searched string up to case *)
Lemma map_occurs (f : char -> char) str sub i : occurs (map f str) (map f sub) i ->
  exists t, occurs str t i /\ map f t = map f sub /\ zlen t = zlen sub.
Proof.
  intros (a & b & E & L). assert (length str = length a + length sub + length b)%nat as EL.
  { apply (f_equal (@length _)) in E. rewrite !app_length, !map_length in E. lia. }
  exists (firstn (length sub) (skipn (length a) str)). split; [|split].
  - exists (firstn (length a) str), (skipn (length sub) (skipn (length a) str)). split.
    + now rewrite firstn_skipn, firstn_skipn.
    + unfold zlen in *. rewrite firstn_length. lia.
  - rewrite <- firstn_map, <- skipn_map, E. rewrite skipn_app, skipn_all, Nat.sub_diag. simpl.
    rewrite firstn_app, map_length, Nat.sub_diag. simpl. rewrite app_nil_r. rewrite <- (map_length f sub). apply firstn_all.
  - unfold zlen. rewrite firstn_length, skipn_length. lia.
Qed.

Theorem C22_ignore_case : forall p (f : char -> char) o subs n input n' outs raws m,
  no_processor p -> so_ignore_case o = true -> Forall (fun sub => sub <> []) subs ->
  pattern_matches p (SString (map f) o subs) n input = Ok (n', (outs, raws)) -> In m outs ->
  exists sub text, In sub subs /\ occurs input text (m_start m) /\ map f text = map f sub
    /\ m_end m = m_start m + zlen sub /\ zlen text = zlen sub /\ m_raw m = VStr text.
Proof.
  intros p f o subs n input n' outs raws m N C Hs H Hm. destruct (returned N H) as (found & F & R).
  destruct (R m Hm) as (oc & j & Ho & X). apply in_concat in Ho as (ms & Hms & Ho). simpl in F.
  assert (exists sub, In sub subs /\ string_match (map f) p o sub input = Ok ms) as (sub & Hsub & E).
  { clear - F Hms. induction F; [contradiction|]. destruct Hms as [->|Hms]; [exists x; split; [left; auto|auto]|].
    destruct (IHF Hms) as (sub & ? & ?). exists sub. split; [right; auto|auto]. }
  rewrite Forall_forall in Hs. specialize (Hs sub Hsub).
  unfold string_match, find_all_n in E. rewrite C in E.
  destruct (@find_all_greedy (map f input) (map f sub) (so_end o) ltac:(destruct sub; simpl; congruence) (S (length (map f input))) (so_start o)) as (l & L1 & L2).
  { unfold py_clip, zlen. rewrite !map_length. destruct (so_start o) as [a|]; [destruct (Z.ltb_spec a 0)|]; lia. }
  rewrite L1 in E by (rewrite !map_length; apply Nat.le_refl). apply keep_truthy_inv in E as [_ ->]. apply filter_In in Ho as [Ho _]. apply in_map_iff in Ho as (i & <- & Hi).
  destruct L2 as (G1 & _). rewrite Forall_forall in G1. destruct (G1 i Hi) as [O _]. apply map_occurs in O as (t & O & T1 & T2).
  destruct X as [(_ & S & _)|(c & P & _ & Hc & _)]; [|simpl in Hc; contradiction].
  destruct S as [(S1 & _ & _ & _ & _ & S2 & _ & S3 & S4 & _) _ _ _ _]. injection S1 as S1 S5. simpl in S1, S5, S2, S3, S4.
  exists sub, t. rewrite S1, S5. repeat split; auto.
  unfold m_raw. rewrite S2, S3, S4. change (raw_start _) with i. change (raw_end _) with (i + zlen sub).
  pose proof (occurs_bounds O) as B. assert (0 < zlen sub) by (destruct sub; [congruence|rewrite zlen_cons; pose proof (zlen_nonneg sub); lia]).
  destruct input as [|ch r]; [exfalso; unfold pstr, char, zlen in *; cbn [length] in *; lia|]. f_equal; transitivity (py_slice (ch :: r) (Some i) (Some (i + zlen t))); [do 3 f_equal; unfold pstr, char in *; lia|apply occurs_slice; auto].
Qed.

(** Not so when lowering changes lengths (U+0130 becomes two characters): the match lies outside
    the input and has no text. *)
Definition default_pattern (id : nat) (kw : mopts) : popts :=
  new_pattern id kw DNone DNone DNone false false false false [] [] false false None None None.
Definition unicode_lower (str : pstr) : pstr := flat_map (fun c => if N.eqb c 304 then [105; 775]%N else [c]) str.
Example C22_ignore_case_outside : exists outs raws m,
  pattern_matches (default_pattern 0 no_opts) (SString unicode_lower (StringOpts None None true) [s "x"]) 0%nat [304; 120]%N
    = Ok (1%nat, (outs, raws))
  /\ In m outs /\ m_end m > zlen [304; 120]%N /\ m_raw m = VStr [].
Proof. eexists _, _, _. split; [vm_compute; reflexivity|]. split; [left; reflexivity|]. split; reflexivity. Qed.

Lemma default_plain id kw : plain (default_pattern id kw).
Proof.
  split; [repeat split|]. split; [left; reflexivity|]. split; [reflexivity|]. intros m _.
  exists (Some allways_true). split; [|reflexivity]. apply (C40_no_option (Some allways_true) (m_name m) false). reflexivity.
Qed.
Example C22_example : exists outs raws,
  pattern_matches (default_pattern 0 no_opts) (SString (fun x => x) (StringOpts None None false) [s "ab"; s "b"]) 0%nat (s "abbab")
    = Ok (5%nat, (outs, raws)) /\ map m_span outs = [(0, 2); (3, 5); (1, 2); (2, 3); (4, 5)]
    /\ map m_value outs = [VStr (s "ab"); VStr (s "ab"); VStr (s "b"); VStr (s "b"); VStr (s "b")].
Proof. eexists _, _. split; [vm_compute; reflexivity|]. split; reflexivity. Qed.

(** ** C59 *)
Definition span_ok (input : pstr) (sp : Z * Z) : Prop := 0 <= fst sp <= snd sp /\ snd sp <= zlen input.
(** the engine reports positions inside the text, and one capture list per group *)
Definition engine_ok (rx : regex) (input : pstr) : Prop :=
  Forall (fun o => span_ok input (oc_span o) /\ length (oc_groups o) = length (rx_groups rx) /\ Forall (Forall (span_ok input)) (oc_groups o))
         (rx_finditer rx input).
Definition nonempty_span (sp : Z * Z) : bool := negb (fst sp =? snd sp).
(** the participating captures of an occurrence, in group order, with the group's name: all of
    them with repeated captures, the last one of each group otherwise *)
Definition captures (repeated : bool) (rx : regex) (o : occurrence) : list (option pstr * (Z * Z)) :=
  flat_map (fun g => map (fun sp => (fst g, sp))
                         (if repeated then snd g else match rev (snd g) with [] => [] | sp :: _ => [sp] end))
           (combine (rx_groups rx) (oc_groups o)).
(** [m] mirrors the occurrence [o] *)
Definition mirrors (p : popts) (repeated : bool) (rx : regex) (o : occurrence) (m : mtch) : Prop :=
  m_span m = oc_span o /\ m_name m = given (mo_name (po_kw p)) None /\ m_parent m = None
  /\ Forall2 (fun g c => m_span c = snd g /\ m_name c = match fst g with Some nm => Some nm | None => m_name m end
                         /\ exists P, m_parent c = Some P /\ m_span P = m_span m /\ m_name P = m_name m)
             (filter (fun g => nonempty_span (snd g)) (captures repeated rx o)) (m_children m).

Lemma group_spans_taken input repeated caps : Forall (span_ok input) caps ->
  group_spans repeated caps = if repeated then caps else match rev caps with [] => [] | sp :: _ => [sp] end.
Proof.
  intro F. unfold group_spans. destruct repeated; [reflexivity|]. destruct (rev caps) as [|sp r] eqn:E; [reflexivity|].
  assert (In sp caps) as Hin by (apply in_rev; rewrite E; now left). rewrite Forall_forall in F. destruct (F sp Hin) as [[A B] _].
  destruct (Z.gtb_spec (fst sp) (-1)); [|lia]. destruct (Z.gtb_spec (snd sp) (-1)); [reflexivity|lia].
Qed.

Lemma append_children_ok : forall cs main, Forall (fun c => 0 <= mlen c) cs -> Forall (fun c => m_marker c = false) cs ->
  append_children main cs = Ok (set_children main (m_children main ++ filter mtrue cs)).
Proof.
  induction cs as [|c r IH]; intros main F1 F2; cbn [append_children].
  - rewrite app_nil_r. destruct main; reflexivity.
  - inversion F1; inversion F2; subst. unfold mbool. destruct (Z.ltb_spec (mlen c) 0); [lia|]. cbn [filter]. fold (mtrue c).
    destruct (mtrue c); [|apply IH; auto]. rewrite H5. rewrite IH; auto. simpl. rewrite <- app_assoc. reflexivity.
Qed.

Lemma filter_map_eq {A B} (f : A -> B) (P : B -> bool) l : filter P (map f l) = map f (filter (fun x => P (f x)) l).
Proof. induction l; simpl; auto. destruct (P (f a)); simpl; congruence. Qed.
Lemma flat_map_map_out {A B C} (f : B -> C) (g : A -> list B) l : flat_map (fun x => map f (g x)) l = map f (flat_map g l).
Proof. induction l; simpl; auto. now rewrite map_app, IHl. Qed.
Lemma flat_map_ext_in' {A B} (f g : A -> list B) l : (forall x, In x l -> f x = g x) -> flat_map f l = flat_map g l.
Proof. induction l; simpl; intros H; auto. rewrite H, IHl; auto. Qed.

Theorem C59_regex_occurrences : forall p repeated rx input, given (mo_marker (po_kw p)) false = false -> engine_ok rx input ->
  exists ms, re_match p repeated rx input = Ok ms
    /\ Forall2 (mirrors p repeated rx) (filter (fun o => nonempty_span (oc_span o)) (rx_finditer rx input)) ms.
Proof.
  intros p repeated rx input HM E. unfold re_match, engine_ok in *.
  assert (forall o, span_ok input (oc_span o) /\ length (oc_groups o) = length (rx_groups rx) /\ Forall (Forall (span_ok input)) (oc_groups o) ->
    exists m, re_one p repeated (rx_groups rx) input o = Ok m /\ mirrors p repeated rx o m) as X.
  { intros o (O1 & O2 & O3). unfold re_one. 
    set (main := new_match 0 (fst (oc_span o)) (snd (oc_span o)) (filter_match_kwargs (po_kw p) false) (po_id p) input).
    set (child := fun g : option pstr * (Z * Z) => set_parent (set_name (new_match 0 (fst (snd g)) (snd (snd g)) (filter_match_kwargs (po_kw p) true) (po_id p) input)
                                      (match fst g with Some nm => Some nm | None => m_name main end)) (Some (shell main))).
    assert (flat_map (fun g => re_child p input main g repeated) (combine (rx_groups rx) (oc_groups o)) = map child (captures repeated rx o)) as EC.
    { unfold captures. rewrite <- flat_map_map_out. apply flat_map_ext_in'. intros [nm caps] Hin. apply in_combine_r in Hin.
      rewrite Forall_forall in O3. unfold re_child. simpl. rewrite (@group_spans_taken input); auto. rewrite map_map. reflexivity. }
    assert (Forall (fun g => span_ok input (snd g)) (captures repeated rx o)) as OK.
    { apply Forall_forall. intros g Hg. unfold captures in Hg. apply in_flat_map in Hg as ([nm caps] & Hc & Hg). apply in_combine_r in Hc.
      rewrite Forall_forall in O3. specialize (O3 caps Hc). rewrite Forall_forall in O3. apply in_map_iff in Hg as (sp & <- & Hsp). simpl in *.
      apply O3. destruct repeated; auto. destruct (rev caps) eqn:Er; [contradiction|]. destruct Hsp as [<-|[]]. apply in_rev. rewrite Er. now left. }
    rewrite EC. rewrite append_children_ok.
    - eexists; split; [reflexivity|]. unfold mirrors. simpl. split; [destruct (oc_span o); reflexivity|]. split; [reflexivity|]. split; [reflexivity|].
      rewrite filter_map_eq. rewrite Forall_forall in OK.
      assert (filter (fun x => mtrue (child x)) (captures repeated rx o) = filter (fun g => nonempty_span (snd g)) (captures repeated rx o)) as ->.
      { apply filter_ext_in. intros g Hg. destruct (OK g Hg) as [A B]. unfold mtrue, mlen, nonempty_span, child. simpl.
        destruct (Z.eqb_spec (snd (snd g) - fst (snd g)) 0), (Z.eqb_spec (fst (snd g)) (snd (snd g))); simpl; auto; lia. }
      induction (filter _ _) as [|g l IH]; simpl; constructor; auto. unfold child; simpl. split; [destruct g as [? []]; reflexivity|].
      split; [reflexivity|]. eexists; split; [reflexivity|]. split; reflexivity.
    - rewrite Forall_forall in *. intros c Hc. apply in_map_iff in Hc as (g & <- & Hg). destruct (OK g Hg). unfold mlen, child. simpl. lia.
    - apply Forall_forall. intros c Hc. apply in_map_iff in Hc as (g & <- & Hg). unfold child. simpl. exact HM. }
  assert (exists ms, sequence (re_one p repeated (rx_groups rx) input) (rx_finditer rx input) = Ok ms /\ Forall2 (mirrors p repeated rx) (rx_finditer rx input) ms) as (ms & -> & F).
  { induction (rx_finditer rx input) as [|o l IH]; simpl; [exists []; auto|]. inversion E; subst. destruct (X o H1) as (m & -> & Hm).
    destruct (IH H2) as (ms & -> & F). exists (m :: ms). auto. }
  assert (Forall (fun m => 0 <= mlen m) ms) as L.
  { clear X. induction F; inversion E; subst; constructor; auto. destruct H as [H _]. destruct H2 as [[A B] _]. unfold mlen. unfold m_span in H.
    rewrite <- H in A. simpl in A. lia. }
  rewrite keep_truthy_ok by exact L. eexists; split; [reflexivity|]. clear X L. induction F as [|o m l ms' M F IH]; simpl; [constructor|].
  inversion E; subst. specialize (IH H2). assert (mtrue m = nonempty_span (oc_span o)) as ->.
  { destruct M as [M _]. rewrite <- M. unfold mtrue, mlen, nonempty_span, m_span. simpl. 
    destruct (Z.eqb_spec (m_end m - m_start m) 0), (Z.eqb_spec (m_start m) (m_end m)); simpl; auto; lia. }
  destruct (nonempty_span (oc_span o)); [constructor; auto|auto].
Qed.

(** what matches() returns for a plain regex pattern *)
Theorem C59_regex_matches : forall p repeated rxs n input, plain p -> (forall m, accepted p true m) ->
  po_children p = false -> po_every p = false -> po_private_children p = false ->
  given (mo_marker (po_kw p)) false = false -> Forall (fun rx => engine_ok rx input) rxs ->
  exists n' outs raws outss, pattern_matches p (SRegex repeated rxs) n input = Ok (n', (outs, raws)) /\ outs = concat outss
    /\ Forall2 (fun rx os => Forall2 (mirrors p repeated rx) (filter (fun o => nonempty_span (oc_span o)) (rx_finditer rx input)) os) rxs outss.
Proof.
  intros p repeated rxs n input PL AC C1 C2 C3 HM E. pose proof PL as ((N1 & N2 & N3) & _).
  destruct (@run_pattern_ok p regex rxs (re_match p repeated) n input N1 N2) as ((n' & outs & raws) & H).
  { intros rx Hrx. rewrite Forall_forall in E. destruct (@C59_regex_occurrences p repeated rx input HM (E rx Hrx)) as (ms & Em & F).
    exists ms. split; auto. pose proof (re_match_raw Em) as R. rewrite Forall_forall in *. intros m Hm. destruct (R m Hm). split; auto.
    unfold re_match in Em. destruct (sequence _ _); [|discriminate]. apply keep_truthy_inv in Em as [L ->]. rewrite Forall_forall in L. apply L.
    apply filter_In in Hm. tauto. }
  exists n', outs, raws.
  destruct (@C41_all_or_nothing p (SRegex repeated rxs) n input n' outs raws) as (found & occs & outss & A & B & D & ->); [repeat split; auto|exact H|].
  exists outss. split; [exact H|]. split; [reflexivity|]. clear H. simpl in A.
  revert found occs outss A B D E. induction rxs as [|rx rxs IH]; intros found occs outss A B D E.
  - inversion A; subst. inversion B; subst. inversion D; subst. constructor.
  - inversion A as [|? ms ? found' A1 A2]; subst. inversion B as [|? occ ? occs' B1 B2]; subst. inversion D as [|? os ? outss' D1 D2]; subst.
    inversion E; subst. constructor; [|eapply IH; eauto].
    destruct (@C59_regex_occurrences p repeated rx input HM H1) as (ms' & Em & F). rewrite A1 in Em. injection Em as <-.
    destruct D1 as (oss & D1 & ->). clear - F D1 B1 PL AC C1 C2 C3.
    assert (forall j, Forall2i (produces p) j occ oss -> Forall2 (mirrors p repeated rx) (filter (fun o => nonempty_span (oc_span o)) (rx_finditer rx input)) (concat oss)) as X; [|eauto].
    clear D1. revert occ oss B1. induction F as [|o m l ms M F IH]; intros occ oss B1 j D1.
    + inversion B1; subst. inversion D1; subst. constructor.
    + inversion B1 as [|? y ? occ' Y1 Y2]; subst. inversion D1 as [|? ? b ? oss' F1 F2]; subst.
      cbn [concat]. specialize (IH _ _ Y2 (S j) F2). change (mirrors p repeated rx) with (mirrors p repeated rx) in IH.
      destruct F1 as (P & P1 & P2 & P3 & P4). pose proof (same_occurrence_len Y1) as S.
      cbv zeta in P4. destruct P4 as [(_ & _ & ->)|[[X|X] _]].
      * assert (chosen p P = [P]) as ->.
        { unfold chosen, ignored. rewrite C1, C2, C3. destruct PL as (_ & _ & -> & _). simpl. destruct (m_name P); simpl; rewrite ?orb_true_r; reflexivity. }
        constructor; [|exact IH]. destruct M as (M1 & M2 & M3 & M4). destruct P1 as [(Q1 & Q2 & _) _ _ _ _].
        destruct S as (_ & S1 & S2 & _). unfold mirrors. rewrite Q1, Q2, S1, S2. split; [exact M1|]. split; [exact M2|]. split; [exact P2|].
        assert (m_span (shell P) = m_span m /\ m_name (shell P) = m_name m) as [G1 G2].
        { change (m_span (shell P)) with (m_span P). change (m_name (shell P)) with (m_name P). split; congruence. }
        destruct Y1 as (k & _ & Y1). revert M4 Y1 P3. generalize (m_children m), (m_children y), (m_children P), (filter (fun g => nonempty_span (snd g)) (captures repeated rx o)).
        clear - G1 G2. intros l1 l2 l3 l4 F1. revert l2 l3. induction F1 as [|g c l4 l1 (A1 & A2 & _) F1 IH]; intros l2 l3 F2 F3.
        -- inversion F2; subst. inversion F3; subst. constructor.
        -- inversion F2 as [|? c1 ? l2' (k & q & ->) F2']; subst. inversion F3 as [|? c2 ? l3' (T1 & T2) F3']; subst. constructor; [|eapply IH; eauto].
           destruct T1 as [(T1 & T3 & _) _ _ _ _]. split; [rewrite T1; exact A1|]. split; [rewrite T3; exact A2|]. exists (shell P). auto.
      * exfalso. apply X. apply PL.
      * exfalso. apply Exists_exists in X as (c & _ & X). apply X, AC.
Qed.

(** A regex engine for the example: two occurrences, the second empty *)
Definition example_rx : regex :=
  Regex [Some (s "a"); None; Some (s "c")]
        (fun _ => [Occurrence (0, 3) [[(0, 1); (1, 2)]; [(2, 3)]; []]; Occurrence (3, 3) [[]; []; [(3, 3)]]]).
Example C59_example : exists outs raws,
  pattern_matches (default_pattern 7 (MOpts None (Some (Some (s "n"))) None None None None None)) (SRegex true [example_rx]) 0%nat (s "xyz")
    = Ok (4%nat, (outs, raws))
  /\ map m_span outs = [(0, 3)] /\ flat_map (fun m => map (fun c => (m_span c, m_name c)) (m_children m)) outs
     = [((0, 1), Some (s "a")); ((1, 2), Some (s "a")); ((2, 3), Some (s "n"))]
  /\ engine_ok example_rx (s "xyz").
Proof.
  eexists _, _. split; [vm_compute; reflexivity|]. split; [reflexivity|]. split; [reflexivity|].
  unfold engine_ok, example_rx, span_ok, zlen. simpl. repeat constructor; simpl; lia.
Qed.

(** ** C60 *)
Definition item_span (x : fitem) : Z * Z := match x with FTuple st en _ _ => (st, en) | FDict st en _ => (st, en) end.
(** the options of a result: [first] applies a projection, the result's options first *)
Definition item_opts (x : fitem) : mopts := match x with FTuple _ _ _ (Some o) => o | FTuple _ _ _ None => no_opts | FDict _ _ o => o end.
Definition item_value (x : fitem) : option pyval := match x with FTuple _ _ (Some v) _ => Some v | _ => mo_value (item_opts x) end.
(** no result gives its value twice *)
Definition one_value (x : fitem) : Prop := match x with FTuple _ _ (Some _) (Some o) => mo_value o = None | _ => True end.
Definition wins {A} (a b : option A) (d : A) : A := match a with Some x => x | None => match b with Some y => y | None => d end end.
(** [m] is the match described by the result [x]; value and formatter of the pattern apply later (C40) *)
Record describes (p : popts) (input : pstr) (x : fitem) (m : mtch) : Prop := {
  ds_span : m_span m = item_span x;
  ds_value : m_lit m = given (item_value x) VNone;
  ds_name : m_name m = wins (mo_name (item_opts x)) (mo_name (po_kw p)) None;
  ds_tags : m_tags m = wins (mo_tags (item_opts x)) (mo_tags (po_kw p)) [];
  ds_marker : m_marker m = wins (mo_marker (item_opts x)) (mo_marker (po_kw p)) false;
  ds_private : m_private m = wins (mo_private (item_opts x)) (mo_private (po_kw p)) false;
  ds_fmt : m_fmt m = given (mo_fmt (item_opts x)) None;
  ds_solver : m_solver m = wins (mo_solver (item_opts x)) (mo_solver (po_kw p)) None;
  ds_input : m_input m = Some input;
  ds_pattern : m_pattern m = Some (po_id p);
  ds_alone : m_parent m = None /\ m_children m = []
}.
Definition results (r : fresult) : list fitem := match r with FFalsy => [] | FOne x => [x] | FMany l => l end.

Lemma wins_or {A} (a b : option A) d : given (or_else a b) d = wins a b d.
Proof. destruct a, b; reflexivity. Qed.

Lemma functional_one_describes p input x : one_value x -> exists m, functional_one p input x = Ok m /\ describes p input x m.
Proof.
  intro H.
  destruct x as [st en [v|] [o|]|st en o]; simpl in *; rewrite ?H; eexists; (split; [reflexivity|]);
    constructor; simpl; try reflexivity; try apply wins_or; auto;
    try (destruct (mo_value o); reflexivity); try (destruct (mo_fmt o); reflexivity).
Qed.

Theorem C60_functional_results : forall p f input,
  Forall (fun x => fst (item_span x) <= snd (item_span x) /\ one_value x) (results (f input)) ->
  exists ms, functional_match p f input = Ok ms
    /\ Forall2 (describes p input) (filter (fun x => nonempty_span (item_span x)) (results (f input))) ms.
Proof.
  intros p f input H. unfold functional_match. fold (results (f input)).
  assert (exists ms, sequence (functional_one p input) (results (f input)) = Ok ms /\ Forall2 (describes p input) (results (f input)) ms) as (ms & -> & F).
  { induction (results (f input)) as [|x l IH]; simpl; [exists []; auto|]. inversion H as [|? ? [H1 H2] H3]; subst.
    destruct (@functional_one_describes p input x H2) as (m & -> & D). destruct (IH H3) as (ms & -> & F). exists (m :: ms). auto. }
  assert (Forall (fun m => 0 <= mlen m) ms) as L.
  { clear - F H. induction F as [|x m l ms' D F IH]; inversion H as [|? ? [H1 H2] H3]; subst; constructor; auto. destruct D as [D _ _ _ _ _ _ _ _ _ _]. unfold mlen. unfold m_span in D.
    rewrite <- D in H1. simpl in H1. lia. }
  rewrite keep_truthy_ok by exact L. eexists; split; [reflexivity|]. clear L. induction F as [|x m l ms' D F IH]; simpl; [constructor|].
  inversion H as [|? ? [H1 H2] H3]; subst. specialize (IH H3). assert (mtrue m = nonempty_span (item_span x)) as ->.
  { destruct D as [D _ _ _ _ _ _ _ _ _ _]. rewrite <- D. unfold mtrue, mlen, nonempty_span, m_span. simpl.
    destruct (Z.eqb_spec (m_end m - m_start m) 0), (Z.eqb_spec (m_start m) (m_end m)); simpl; auto; lia. }
  destruct (nonempty_span (item_span x)); [constructor; auto|auto].
Qed.
(** a result whose end precedes its start is an error *)
Theorem C60_negative_span : forall p f input x, one_value x -> In x (results (f input)) -> Forall one_value (results (f input)) ->
  snd (item_span x) < fst (item_span x) -> functional_match p f input = Err ValueError.
Proof.
  intros p f input x Hx Hin H L. unfold functional_match. fold (results (f input)). clear Hx.
  assert (exists ms, sequence (functional_one p input) (results (f input)) = Ok ms /\ exists m, In m ms /\ mlen m < 0) as (ms & -> & m & Hm & Lm).
  { assert (exists ms, sequence (functional_one p input) (results (f input)) = Ok ms /\ Forall2 (describes p input) (results (f input)) ms) as (ms & Es & F).
    { clear Hin. induction (results (f input)) as [|y l IH]; simpl; [exists []; auto|]. inversion H; subst.
      destruct (@functional_one_describes p input y H2) as (m & -> & D). destruct (IH H3) as (ms & -> & F). exists (m :: ms). auto. }
    exists ms. split; auto. clear Es H. induction F; [contradiction|]. destruct Hin as [->|Hin].
    - exists y. split; [now left|]. destruct H as [D _ _ _ _ _ _ _ _ _ _]. unfold mlen, m_span in *. rewrite <- D in L. simpl in L. lia.
    - destruct (IHF Hin) as (m & ? & ?). exists m. split; [now right|auto]. }
  clear - Hm Lm. induction ms as [|a r IH]; [contradiction|]. simpl. unfold mbool. destruct (Z.ltb_spec (mlen a) 0); [reflexivity|].
  destruct Hm as [->|Hm]; [lia|]. now rewrite (IH Hm).
Qed.
(** matches() returns them all, in order, for a plain pattern *)
Theorem C60_functional_matches : forall p fs n input, plain p ->
  Forall (fun f => Forall (fun x => fst (item_span x) <= snd (item_span x) /\ one_value x) (results (f input))) fs ->
  exists n' outs raws, pattern_matches p (SFunctional fs) n input = Ok (n', (outs, raws))
    /\ Forall2 (fun x m => m_span m = item_span x /\ m_name m = wins (mo_name (item_opts x)) (mo_name (po_kw p)) None
                           /\ m_tags m = wins (mo_tags (item_opts x)) (mo_tags (po_kw p)) []
                           /\ m_marker m = wins (mo_marker (item_opts x)) (mo_marker (po_kw p)) false)
               (filter (fun x => nonempty_span (item_span x)) (flat_map (fun f => results (f input)) fs)) outs.
Proof.
  intros p fs n input PL H. pose proof PL as ((N1 & N2 & N3) & _).
  destruct (@run_pattern_ok p _ fs (functional_match p) n input N1 N2) as ((n' & outs & raws) & E).
  { intros f Hf. rewrite Forall_forall in H. destruct (C60_functional_results p (H f Hf)) as (ms & Em & F). exists ms. split; auto.
    pose proof (functional_match_raw Em) as R. rewrite Forall_forall in *. intros m Hm. destruct (R m Hm). split; auto.
    unfold functional_match in Em. destruct (sequence _ _); [|discriminate]. apply keep_truthy_inv in Em as [L ->]. rewrite Forall_forall in L. apply L.
    apply filter_In in Hm. tauto. }
  exists n', outs, raws. split; [exact E|].
  destruct (@C41_all_or_nothing p (SFunctional fs) n input n' outs raws) as (found & occs & outss & A & B & D & ->); [repeat split; auto|exact E|].
  clear E. simpl in A. revert found occs outss A B D H. induction fs as [|f fs IH]; intros found occs outss A B D H.
  - inversion A; subst. inversion B; subst. inversion D; subst. constructor.
  - inversion A as [|? ms ? found' A1 A2]; subst. inversion B as [|? occ ? occs' B1 B2]; subst. inversion D as [|? os ? outss' D1 D2]; subst.
    inversion H; subst. cbn [flat_map concat]. rewrite filter_app. apply Forall2_app; [|eapply IH; eauto].
    destruct (C60_functional_results p H2) as (ms' & Em & F). rewrite A1 in Em. injection Em as <-.
    destruct D1 as (oss & D1 & ->). clear - F D1 B1 PL. revert F. generalize (filter (fun x => nonempty_span (item_span x)) (results (f input))). intros l F.
    revert D1. generalize 0%nat. revert occ oss B1. induction F as [|x m l ms Dx F IH]; intros occ oss B1 j D1.
    + inversion B1; subst. inversion D1; subst. constructor.
    + inversion B1 as [|? y ? occ' Y1 Y2]; subst. inversion D1 as [|? ? b ? oss' F1 F2]; subst.
      cbn [concat]. specialize (IH _ _ Y2 (S j) F2).
      destruct F1 as (P & P1 & P2 & P3 & P4). pose proof (same_occurrence_len Y1) as S.
      assert (m_children y = []) as EC.
      { destruct Y1 as (k & _ & X). destruct Dx as [_ _ _ _ _ _ _ _ _ _ [_ Dx]]. rewrite Dx in X. now inversion X. }
      rewrite EC in P3. assert (m_children P = []) as EP by now inversion P3.
      cbv zeta in P4. destruct P4 as [(_ & _ & ->)|[[X|X] _]].
      * rewrite (chosen_plain PL EP). constructor; [|exact IH]. destruct P1 as [(Q1 & Q2 & Q3 & Q4 & _) _ _ _ _].
        destruct S as (_ & S1 & S2 & S3 & S4 & _). destruct Dx. rewrite Q1, Q2, Q3, Q4, S1, S2, S3, S4. auto.
      * exfalso. apply X. apply PL.
      * rewrite EP in X. inversion X.
Qed.

Definition example_fun : pstr -> fresult := fun _ =>
  FMany [FTuple 0 2 (Some (VInt 5)) None; FTuple 2 2 None None; FDict 1 3 (MOpts None (Some (Some (s "own"))) None (Some true) None None None)].
Example C60_example : exists outs raws,
  pattern_matches (default_pattern 0 (MOpts None (Some (Some (s "n"))) (Some [s "t"]) None None None None)) (SFunctional [example_fun; fun _ => FFalsy]) 0%nat (s "xyz")
    = Ok (2%nat, (outs, raws))
  /\ map m_span outs = [(0, 2); (1, 3)] /\ map m_name outs = [Some (s "n"); Some (s "own")] /\ map m_marker outs = [false; true]
  /\ map m_value outs = [VInt 5; VStr (s "yz")].
Proof. eexists _, _. split; [vm_compute; reflexivity|]. repeat split. Qed.

(** ** Examples for C40, C41, C42: a regex with a parent and three children *)
Definition family_pattern (reject : pstr) : popts :=
  new_pattern 3 (MOpts None (Some (Some (s "n"))) None None None None None)
    (DDict [(Some (s "a"), Some (fun _ => VInt 1)); (Some (s "__children__"), Some (fun _ => VInt 2)); (None, Some (fun _ => VInt 3))])
    DNone (DDict [(Some reject, Some (fun _ => false))]) false true false true [s "n"] [s "c"] false false None None None.
Definition family_rx : regex :=
  Regex [Some (s "a"); Some (s "b"); Some (s "c")] (fun _ => [Occurrence (0, 3) [[(0, 1)]; [(1, 2)]; [(2, 3)]]]).
(** nothing is rejected: the parent, then the children except the ignored one *)
Example C41_example_all : exists outs raws,
  pattern_matches (family_pattern (s "z")) (SRegex false [family_rx]) 0%nat (s "xyz") = Ok (4%nat, (outs, raws))
  /\ map m_name outs = [Some (s "n"); Some (s "a"); Some (s "b")] /\ map m_value outs = [VInt 3; VInt 1; VInt 2]
  /\ map m_private outs = [true; true; true].
Proof. eexists _, _. split; [vm_compute; reflexivity|]. repeat split. Qed.
(** one child is rejected: nothing *)
Example C41_example_nothing : exists raws,
  pattern_matches (family_pattern (s "c")) (SRegex false [family_rx]) 0%nat (s "xyz") = Ok (4%nat, ([], raws)).
Proof. eexists. vm_compute; reflexivity. Qed.

Print Assumptions C22_string_text.
Print Assumptions C22_string_exact.
Print Assumptions C22_string_complete.
Print Assumptions C22_ignore_case.
Print Assumptions C40_options_resolve.
Print Assumptions C40_bare_option.
Print Assumptions C40_no_option.
Print Assumptions C41_all_or_nothing.
Print Assumptions C42_private.
Print Assumptions C42_private_functional.
Print Assumptions C59_regex_occurrences.
Print Assumptions C59_regex_matches.
Print Assumptions C60_functional_results.
Print Assumptions C60_negative_span.
Print Assumptions C60_functional_matches.
