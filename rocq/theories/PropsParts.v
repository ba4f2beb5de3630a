(** * Properties C133 and C134: the options of a chain and the options of its parts *)
From Coq Require Import Permutation.
From Verif Require Import Typed Base BaseFacts Match MatchFacts Coll CollFacts Loose Conseq Pattern PatternFacts PropsLoose PropsPattern Topo Rules Chain SpecChain PropsChain PropsChain2 SpecMoved PropsMoved SpecNest Builder BuilderFacts PropsBuilder PropsKeys Rebulk ConseqFacts OnceFacts Assemble PropsAssemble.
From Coq Require String.
Export Coq.Strings.String.StringSyntax.
Open Scope string_scope.
Open Scope list_scope.
Set Implicit Arguments.
Unset Strict Implicit.
Open Scope Z_scope.

(** ** Specification *)
(** [m] is [o] with the options of [p] applied; its end may have been moved back (C79) *)
Definition shown (p : popts) (child : bool) (o m : mtch) : Prop := exists i e, settings p i child (set_end o e) m.
(** [c] is what a part of the chain found (a match it returned or a child of one), with the options of the chain applied *)
Definition from_part (p : popts) (input : pstr) (parts : list cpart) (c : mtch) : Prop :=
  exists x y, piece input parts x /\ In y (x :: m_children x) /\ shown p true y c.

(** ** Proofs *)
Lemma configure_again_any p i child m cs e : configure p i child (set_end (set_children (configure p i child m) cs) e) = configure p i child (set_end (set_children m cs) e).
Proof.
  assert (forall x, m_name (set_end (set_children x cs) e) = m_name x) as N by (intro x; destruct x; reflexivity).
  assert (forall x, m_private (set_end (set_children x cs) e) = m_private x) as Pr by (intro x; destruct x; reflexivity).
  assert (forall x, m_lit (set_end (set_children x cs) e) = m_lit x) as Li by (intro x; destruct x; reflexivity).
  assert (forall x, m_fmt (set_end (set_children x cs) e) = m_fmt x) as Fm by (intro x; destruct x; reflexivity).
  assert (forall a b, m_name a = m_name b -> config_keys a child = config_keys b child) as CK by (intros a b E; unfold config_keys; now rewrite E).
  apply mtch_ext; rewrite ?configure_id, ?configure_start, ?configure_end, ?configure_name, ?configure_tags, ?configure_marker, ?configure_solver, ?configure_input,
    ?configure_rawstart, ?configure_rawend, ?configure_index, ?configure_pattern, ?configure_parent, ?configure_children.
  1,2,3,5,6,7,10,11,12,13,14,15,16,17: destruct m; unfold configure, process_formatter, process_value, process_private, process_index; cbv zeta; simpl; repeat match goal with |- context [if ?b then _ else _] => destruct b end; reflexivity.
  - rewrite !configure_lit. rewrite !Li, configure_lit. rewrite (CK _ (set_end (set_children m cs) e)) by (rewrite !N, configure_name; reflexivity).
    rewrite (CK m (set_end (set_children m cs) e)) by (now rewrite N). cbv zeta. destruct (truthy _); reflexivity.
  - rewrite !configure_private. rewrite !Pr, !N, !configure_private, !configure_name.
    destruct (m_private m), (truthy_name _ && mem _ _ _)%bool, (po_private_parent p), (po_private_children p), child; reflexivity.
  - rewrite !configure_fmt. rewrite !Fm, configure_fmt. rewrite (CK _ (set_end (set_children m cs) e)) by (rewrite !N, configure_name; reflexivity).
    rewrite (CK m (set_end (set_children m cs) e)) by (now rewrite N). destruct (_ || _)%bool; reflexivity.
Qed.

(** a match accepted by [Chain._process_match] *)
Definition treated_as (p : popts) (i : nat) (child : bool) (m m' : mtch) : Prop :=
  exists cs e, m' = configure p i child (set_end (set_children m cs) e) /\ sublist cs (m_children m) /\ process_validator p m' child = true.
Lemma cut_twice (m : mtch) cs e cs' e' : set_end (set_children (set_end (set_children m cs) e) cs') e' = set_end (set_children m cs') e'.
Proof. destruct m; reflexivity. Qed.
Lemma cut_none (m : mtch) : set_end (set_children m (m_children m)) (m_end m) = m.
Proof. destruct m; reflexivity. Qed.
Lemma shrink_treated p i child : forall groups m m' cs0 e0, sublist cs0 (m_children m) ->
  shrink p i child groups (configure p i child (set_end (set_children m cs0) e0)) = Some m' -> treated_as p i child m m'.
Proof.
  induction groups as [|g r IH]; intros m m' cs0 e0 S H; cbn [shrink] in H; [discriminate|]. cbv zeta in H. rewrite process_match_eq in H.
  rewrite configure_children in H. change (m_children (set_end (set_children m cs0) e0)) with cs0 in H.
  set (cs := fold_left _ g cs0) in H. pose proof (give_up_sub g cs0 : sublist cs cs0) as S1.
  set (e := match rev cs with [] => _ | x :: _ => _ end) in H.
  rewrite configure_again_any, cut_twice in H. pose proof (sublist_trans S1 S) as S2.
  destruct (process_validator _ _ _) eqn:V.
  - injection H as <-. exists cs, e. auto.
  - exact (IH m m' cs e S2 H).
Qed.
Lemma chain_treated p i child m m' : chain_process_match p m i child = (m', true) -> treated_as p i child m m'.
Proof.
  unfold chain_process_match. rewrite process_match_eq. destruct (process_validator _ _ _) eqn:V.
  - intro H. injection H as <-. exists (m_children m), (m_end m). rewrite cut_none. split; [reflexivity|]. split; [apply sublist_refl|exact V].
  - destruct (rev _) as [|last r]; [discriminate|]. destruct (shrink _ _ _ _ _) as [m2|] eqn:E; [|discriminate].
    intro H. injection H as <-. rewrite <- (cut_none m) in E at 2. exact (shrink_treated (sublist_refl _) E).
Qed.
Lemma children_treated p i parent : forall todo done cs, process_children (chain_process_match p) parent i done todo = (cs, true) ->
  forall c, In c cs -> In c done \/ exists o q, In o todo /\ treated_as p i true (set_parent o q) c.
Proof.
  induction todo as [|o r IH]; intros done cs H c Hc; cbn [process_children] in H; [injection H as <-; left; exact Hc|].
  destruct (chain_process_match p (relink (parent :: done) o) i true) as [c' [|]] eqn:E; [|discriminate].
  destruct (IH _ _ H c Hc) as [H1|(o' & q & Ho & T)].
  - apply in_app_iff in H1 as [H1|[<-|[]]]; [left; exact H1|]. right. exists o, (m_parent (relink (parent :: done) o)). split; [left; reflexivity|].
    apply chain_treated in E. replace (set_parent o _) with (relink (parent :: done) o); [exact E|]. destruct o; reflexivity.
  - right. exists o', q. split; [right; exact Ho|exact T].
Qed.
Lemma set_parent_parent m q q' : set_parent (set_parent m q) q' = set_parent m q'.
Proof. destruct m; reflexivity. Qed.
Lemma set_parent_own m : set_parent m (m_parent m) = m.
Proof. destruct m; reflexivity. Qed.
Lemma settings_parent p i child o m q q' : settings p i child (set_parent o q) m -> settings p i child o (set_parent m q').
Proof. intros [A B C D E]. split; assumption. Qed.
Lemma settings_children p i child o m cs cs' : settings p i child (set_children o cs) m -> settings p i child o (set_children m cs').
Proof. intros [A B C D E]. split; assumption. Qed.
Lemma treated_shown p i child o q cs m : treated_as p i child (set_parent o q) m -> forall q', 
  shown p child o (set_parent (set_children m cs) q').
Proof.
  intros (ds & e & -> & _ & _) q'. exists i, e.
  pose proof (configure_settings p i child (set_end (set_children (set_parent o q) ds) e) (m_parent (configure p i child (set_end (set_children (set_parent o q) ds) e)))) as S.
  rewrite set_parent_own in S. destruct S as [A B C D E]. split; assumption.
Qed.
(** what is returned for one chain found *)
Lemma chain_one p m i raw outs : po_pre p = None -> po_post p = None -> m_parent m = None ->
  process_matches p (chain_process_match p) m i = Ok (raw, outs) ->
  outs = [] \/ exists P, outs = dispatch p P /\ m_parent P = None /\ shown p false m P /\ (exists cs, accepted p false (set_children P cs))
    /\ forall c, In c (m_children P) -> exists o, In o (m_children m) /\ shown p true o c /\ exists q, accepted p true (set_parent c q).
Proof.
  intros H1 H2 Hp H. unfold process_matches in H. rewrite H1, H2 in H. cbn [apply_processor] in H. unfold stop_if_falsy in H.
  destruct (mbool m) as [[|]|]; [|injection H as _ <-; auto|discriminate].
  destruct (chain_process_match p m i false) as [m2 ok] eqn:E. destruct ok; cbn [negb] in H; [|injection H as _ <-; auto].
  apply chain_treated in E.
  destruct (process_children (chain_process_match p) m2 i [] (m_children m2)) as [cs ok] eqn:E2. destruct ok; cbn [negb] in H; [|injection H as _ <-; auto].
  pose proof (children_treated E2) as K.
  destruct (mbool (relink_children (set_children m2 cs))) as [[|]|]; [|injection H as _ <-; auto|discriminate].
  injection H as _ <-. right. exists (relink_children (relink_children (set_children m2 cs))). split; [reflexivity|].
  destruct E as (ds & e & -> & Sd & V).
  assert (Q : m_parent (configure p i false (set_end (set_children m ds) e)) = None) by (rewrite configure_parent; exact Hp).
  split; [exact Q|]. split; [|split].
  - exists i, e. pose proof (configure_settings p i false (set_end (set_children m ds) e) (m_parent (configure p i false (set_end (set_children m ds) e)))) as S.
    rewrite set_parent_own in S. destruct S as [A B C D F]. split; assumption.
  - exists (m_children (configure p i false (set_end (set_children m ds) e))). apply validator_accepted.
    set (x := configure _ _ _ _) in *. replace (set_children _ _) with x; [exact V|]. unfold relink_children. destruct x; reflexivity.
  - intros c Hc. unfold relink_children in Hc. cbn [m_children set_children] in Hc. rewrite map_map in Hc. apply in_map_iff in Hc as (c0 & <- & Hc).
    destruct (K c0 Hc) as [[]|(o & q & Ho & T)]. exists o. split.
    + rewrite configure_children in Ho. change (m_children (set_end (set_children m ds) e)) with ds in Ho. eapply sublist_In; eassumption.
    + match goal with |- shown _ _ _ ?x /\ _ => assert (exists q', x = set_parent c0 q') as (q' & ->) end.
      { unfold relink. cbn [m_parent set_parent]. eexists. apply set_parent_parent. }
      split.
      * pose proof (treated_shown (m_children c0) T q') as S. replace (set_children c0 (m_children c0)) with c0 in S by (destruct c0; reflexivity). exact S.
      * exists (m_parent c0). rewrite set_parent_parent, set_parent_own. destruct T as (_ & _ & _ & _ & V'). apply validator_accepted, V'.
Qed.
Lemma chain_all p : po_pre p = None -> po_post p = None -> forall ms i raws outs, Forall (fun m => m_parent m = None) ms ->
  process_all p (chain_process_match p) i ms = Ok (raws, outs) -> forall m, In m outs ->
  exists M P, In M ms /\ In m (dispatch p P) /\ m_parent P = None /\ shown p false M P /\ (exists cs, accepted p false (set_children P cs))
    /\ forall c, In c (m_children P) -> exists o, In o (m_children M) /\ shown p true o c /\ exists q, accepted p true (set_parent c q).
Proof.
  intros H1 H2. induction ms as [|M ms IH]; intros i raws outs F H m Hm; cbn [process_all] in H; [injection H as _ <-; destruct Hm|].
  inversion F as [|? ? F1 F2]; subst.
  destruct (process_matches p (chain_process_match p) M i) as [[raw out]|] eqn:E; [|discriminate].
  destruct (process_all p (chain_process_match p) (S i) ms) as [[rs os]|] eqn:E2; [|discriminate]. injection H as _ <-.
  apply in_app_iff in Hm as [Hm|Hm].
  - destruct (chain_one H1 H2 F1 E) as [->|(P & -> & R)]; [destruct Hm|]. exists M, P. split; [left; reflexivity|]. split; [exact Hm|exact R].
  - destruct (IH _ _ _ F2 E2 m Hm) as (M' & P & HM & R). exists M', P. split; [right; exact HM|exact R].
Qed.
Lemma chain_built fuel p breaker parts n input n' ms M : chain_match fuel p breaker parts n input = Ok (n', ms) -> In M ms ->
  made p false input M /\ m_parent M = None.
Proof.
  intros E HM. assert (suffix input input) as S by (exists []; reflexivity).
  destruct (chain_loop_built S E HM) as [[]|(id & cur & F & B)]. destruct cur as [|m r]; [discriminate|]. cbn [build_chain_match] in B.
  destruct (chain_children _ (m :: r) []) as [cs|e]; [|discriminate]. injection B as <-. repeat split; reflexivity.
Qed.
Lemma shown_content p child y o m : same_but_parent y o -> shown p child o m -> shown p child y m.
Proof.
  intros ((A1 & A2 & A3 & A4 & A5 & A6 & A7 & A8 & A9 & A10 & A11 & A12) & A13 & A14 & A15 & _) (i & e & [(B1 & B2 & B3 & B4 & B5 & B6 & B7 & B8 & B9 & B10 & B11) B B12 B13 B14]).
  exists i, e. unfold raw_start, raw_end, m_span in *. cbn [set_end m_start m_end m_name m_tags m_marker m_solver m_input m_pattern m_rawstart m_rawend m_private m_lit m_fmt] in *.
  rewrite A2, A3, A4, A5, A6, A7, A8, A10, A11, A12, A13, A15 in *.
  split; unfold raw_start, raw_end, m_span; cbn [set_end m_start m_end m_name m_tags m_marker m_solver m_input m_pattern m_rawstart m_rawend m_private m_lit m_fmt]; auto.
  repeat split; assumption.
Qed.

(** *** C134 Every match returned by a chain is a chain, with the options of the chain, its children being what the parts
    found with the options of the chain applied; or, if the chain is asked for them, one of these children *)
Theorem C134_chain_shows : forall fuel p breaker parts n input n' outs raws m,
  no_processor p -> chain_matches fuel p breaker parts n input = Ok (n', (outs, raws)) -> In m outs ->
  ignored p m = false /\
  ((m_parent m = None /\ (po_children p = false \/ po_every p = true \/ po_private_parent p = true)
    /\ (exists o, made p false input o /\ shown p false o m) /\ (exists cs, accepted p false (set_children m cs))
    /\ Forall (from_part p input parts) (m_children m))
   \/ ((po_children p = true \/ po_every p = true \/ po_private_children p = true)
    /\ from_part p input parts m /\ exists q, accepted p true (set_parent m q))).
Proof.
  intros fuel p breaker parts n input n' outs raws m (N1 & N2 & N3) H Hm. unfold chain_matches in H.
  destruct (chain_match fuel p breaker parts n input) as [[k ms]|e] eqn:E; [|discriminate].
  unfold finish_matches in H. cbn [process_patterns] in H.
  destruct (process_all p (chain_process_match p) 0 ms) as [[rs os]|] eqn:Ea; [|discriminate]. rewrite N3 in H. rewrite !app_nil_r in H. injection H as _ <- _.
  assert (F : Forall (fun m => m_parent m = None) ms) by (apply Forall_forall; intros M HM; apply (chain_built E HM)).
  destruct (chain_all N1 N2 F Ea Hm) as (M & P & HM & Hd & Pp & SP & AP & KP).
  destruct (C129_made_of_pieces E HM) as (pieces & FP & _ & _ & _ & C & _).
  assert (K : forall c, In c (m_children P) -> from_part p input parts c /\ exists q, accepted p true (set_parent c q)).
  { intros c Hc. destruct (KP c Hc) as (o & Ho & So & Ac). split; [|exact Ac]. destruct (C o Ho) as (x & y & Hx & Hy & Sy).
    rewrite Forall_forall in FP. exists x, y. split; [exact (FP x Hx)|]. split; [exact Hy|]. exact (shown_content Sy So). }
  rewrite dispatch_chosen in Hd. unfold chosen in Hd. apply in_app_iff in Hd as [Hd|Hd].
  - destruct (_ && _) eqn:Eb in Hd; [|destruct Hd]. destruct Hd as [<-|[]]. apply andb_prop in Eb as [Eb Ei]. apply negb_true_iff in Ei. split; [exact Ei|].
    left. split; [exact Pp|]. split; [apply orb_prop in Eb as [Eb|Eb]; [apply orb_prop in Eb as [Eb|Eb]|]; [apply negb_true_iff in Eb|..]; auto|].
    split; [exists M; split; [exact (proj1 (chain_built E HM))|exact SP]|]. split; [exact AP|]. apply Forall_forall. intros c Hc. apply K, Hc.
  - destruct (_ || _) eqn:Eb in Hd; [|destruct Hd]. apply filter_In in Hd as [Hd Ei]. apply negb_true_iff in Ei. split; [exact Ei|].
    right. split; [apply orb_prop in Eb as [Eb|Eb]; [apply orb_prop in Eb as [Eb|Eb]|]; auto|]. apply K, Hd.
Qed.

(** *** In terms of the options given to [chain()] *)
(** what a piece [y] shows of the options [get] of the chain: [m] is what is returned *)
Record piece_shows (W : callables) (h : heap) (get : pstr -> option bval) (y m : mtch) : Prop := {
  ps_name : m_name m = m_name y;
  ps_tags : m_tags m = m_tags y;
  ps_marker : m_marker m = m_marker y;
  ps_solver : m_solver m = m_solver y;
  ps_start : m_start m = m_start y;
  ps_private : m_private m = true <->
      m_private y = true \/ (exists n, m_name m = Some n /\ n <> [] /\ In n (names_option (get (s "private_names")))) \/ flag h (get (s "private_children")) = true;
  ps_no_value : get (s "value") = None -> m_lit m = m_lit y;
  ps_value : forall v, get (s "value") = Some (BVal v) -> m_lit m = if truthy v then v else m_lit y;
  ps_values : forall a n v, get (s "value") = Some (BDict a) -> m_name m = Some n -> n <> [] -> dfind (h_cell h a) (Some n) = Some v -> truthy v = true -> m_lit m = v;
  ps_formatter : flag h (get (s "format_all")) = false -> flag h (get (s "every")) = false -> flag h (get (s "children")) = false -> m_fmt m = m_fmt y
}.
Definition piece_of (W : callables) (h : heap) (get : pstr -> option bval) (input : pstr) (parts : list cpart) (c : mtch) : Prop :=
  exists x y, piece input parts x /\ In y (x :: m_children x) /\ piece_shows W h get y c.

Lemma piece_shows_ext W h g g' y m : (forall k, k <> k_overrides -> k <> k_formatter -> g k = g' k) -> piece_shows W h g y m -> piece_shows W h g' y m.
Proof.
  intros E [S1 S2 S3 S4 S5 S6 S7 S8 S9 S10].
  assert (G : forall k : pstr, pstr_eqb k k_overrides = false -> pstr_eqb k k_formatter = false -> g k = g' k).
  { intros k A B. apply E; intros ->; rewrite pstr_eqb_refl in *; discriminate. }
  rewrite !G in * by (vm_compute; reflexivity). constructor; assumption.
Qed.
Section ChainOptions.
  Variables (W : callables) (h : heap) (id : nat) (p : bpat).
  Let get k := dfind (bp_opts p) k.
  Let q := assemble W h id p.
  Lemma piece_options y m : shown q true y m -> piece_shows W h get y m.
  Proof.
    intros (i & e & [(A1 & A2 & A3 & A4 & A5 & _) _ C (v & D1 & D2 & D3) [F1 F2]]).
    destruct (q_flags W h id p) as (E1 & E2 & E3 & E4 & E5 & E6 & E7 & E8). fold q in E1, E2, E3, E4, E5, E6, E7, E8.
    repeat match goal with X : context [dfind (bp_opts p) ?k] |- _ => change (dfind (bp_opts p) k) with (get k) in X end.
    pose proof (q_values W h id p) as Q. fold get q in Q.
    change (m_name (set_end y e)) with (m_name y) in *. change (m_lit (set_end y e)) with (m_lit y) in *. change (m_fmt (set_end y e)) with (m_fmt y) in *.
    change (m_private (set_end y e)) with (m_private y) in *.
    constructor.
    - exact A2.
    - exact A3.
    - exact A4.
    - exact A5.
    - unfold m_span in A1. cbn [set_end m_start m_end] in A1. congruence.
    - rewrite C, E4, E5, A2. split.
      + intros [X|[X|[(X & _)|(_ & X)]]]; auto. discriminate.
      + intros [X|[X|X]]; auto.
    - intro X. rewrite X in Q. cbn [dict_option ensure_dict] in Q. apply pair_equal_spec in Q as [Qa Qb]. rewrite Qa, Qb in D1.
      rewrite (resolves_fun D1 (resolves_single _ _ _ _)) in *. apply D3. reflexivity.
    - intros w X. destruct (truthy w) eqn:T.
      + rewrite X, dict_single in Q by exact T. apply pair_equal_spec in Q as [Qa Qb]. rewrite Qa, Qb in D1. pose proof (resolves_fun D1 (resolves_single _ _ _ _)) as Y. subst v. apply D2, T.
      + rewrite X in Q. cbn [dict_option] in Q. rewrite T in Q. cbn [ensure_dict] in Q. apply pair_equal_spec in Q as [Qa Qb]. rewrite Qa, Qb in D1.
        rewrite (resolves_fun D1 (resolves_single _ _ _ _)) in *. apply D3. reflexivity.
    - intros a nm w X Hn Nn Dw Tw. rewrite X in Q. cbn [dict_option] in Q.
      destruct (h_cell h a) as [|e0 c] eqn:Ec; [discriminate|]. rewrite <- Ec in *. cbn [ensure_dict] in Q. apply pair_equal_spec in Q as [Qa Qb]. rewrite Qa, Qb in D1.
      assert (R : resolves (map (fun e : option pstr * pyval => (fst e, snd e)) (h_cell h a)) VNone (m_name y) true w).
      { rewrite <- A2, Hn. apply by_name; [destruct nm as [|ch r]; [contradiction|exists ch, r; reflexivity]|]. pose proof (dfind_conv (fun v => v) (h_cell h a) (Some nm)) as X0. cbv beta in X0. rewrite X0, Dw. reflexivity. }
      rewrite (resolves_fun D1 R) in *. apply D2, Tw.
    - intros X1 X2 X3. apply F2. intros [Y|[Y|Y]]. all: unfold get in *; congruence.
  Qed.
  Lemma chain_options o m input : made q false input o -> shown q false o m -> m_parent m = None -> ignored q m = false ->
    (po_children q = false \/ po_every q = true \/ po_private_parent q = true) -> (exists cs, accepted q false (set_children m cs)) -> shows W h get m.
  Proof.
    intros (M1 & M2 & M3 & M4 & M5 & M6 & M7 & M8 & M9 & M10 & M11) (i & e & [(A1 & A2 & A3 & A4 & A5 & _) _ C (v & D1 & D2 & D3) [F1 F2]]) Hp Hi Hr (cs & Ca).
    destruct (q_flags W h id p) as (E1 & E2 & E3 & E4 & E5 & E6 & E7 & E8). fold q in E1, E2, E3, E4, E5, E6, E7, E8.
    repeat match goal with X : context [dfind (bp_opts p) ?k] |- _ => change (dfind (bp_opts p) k) with (get k) in X end.
    pose proof (q_values W h id p) as Q. fold get q in Q. pose proof (q_kw W h id p) as K. fold get q in K. rewrite K in M2, M3, M4, M6, M11.
    specialize (M11 eq_refl).
    change (m_name (set_end o e)) with (m_name o) in *. change (m_tags (set_end o e)) with (m_tags o) in *. change (m_marker (set_end o e)) with (m_marker o) in *. change (m_solver (set_end o e)) with (m_solver o) in *.
    change (m_private (set_end o e)) with (m_private o) in *.
    assert (VL : m_lit m = v \/ truthy v = false) by (destruct (truthy v); auto).
    constructor.
    - intros _. rewrite A2, M11. unfold match_options. cbn [mo_name]. destruct (get (s "name")); reflexivity.
    - rewrite A3, M2. unfold match_options. cbn [mo_tags]. destruct (get (s "tags")); reflexivity.
    - rewrite A4, M3. unfold match_options. cbn [mo_marker]. destruct (get (s "marker")); reflexivity.
    - rewrite A5, M6. unfold match_options, solver_option. cbn [mo_solver]. destruct (get (s "conflict_solver")) as [[u|a]|]; reflexivity.
    - rewrite C, M4, E3, E5, A2. unfold match_options. cbn [mo_private].
      assert (given (match get (s "private") with Some v0 => Some (btruthy h v0) | None => None end) false = flag h (get (s "private"))) as -> by (destruct (get (s "private")); reflexivity).
      rewrite Hp. split.
      + intros [X|[X|[(_ & X)|(X & _)]]]; auto. discriminate.
      + intros [X|[X|[(_ & X)|(X & _)]]]; auto.
    - intros nm Hn Hin. unfold ignored in Hi. rewrite Hn, E6 in Hi. apply (existsb_pstr nm) in Hin. congruence.
    - rewrite E1, E2, E3 in Hr. destruct Hr as [X|[X|X]]; auto.
    - intros w X T. rewrite X, dict_single in Q by exact T. apply pair_equal_spec in Q as [Qa Qb]. rewrite Qa, Qb in D1.
      pose proof (resolves_fun D1 (resolves_single _ _ _ _)) as Y. subst v. unfold m_value. rewrite D2 by exact T. now rewrite T.
    - intros a nm w X Hn Nn Dw Tw. rewrite X in Q. cbn [dict_option] in Q.
      destruct (h_cell h a) as [|e0 c] eqn:Ec; [discriminate|]. rewrite <- Ec in *. cbn [ensure_dict] in Q. apply pair_equal_spec in Q as [Qa Qb]. rewrite Qa, Qb in D1.
      assert (R : resolves (map (fun e : option pstr * pyval => (fst e, snd e)) (h_cell h a)) VNone (m_name o) false w).
      { rewrite <- A2, Hn. apply by_name; [destruct nm as [|ch r]; [contradiction|exists ch, r; reflexivity]|]. pose proof (dfind_conv (fun v => v) (h_cell h a) (Some nm)) as X0. cbv beta in X0. rewrite X0, Dw. reflexivity. }
      pose proof (resolves_fun D1 R) as Y. subst v. unfold m_value. rewrite D2 by exact Tw. now rewrite Tw.
    - intros w Ev Tv Tr. exists cs. rewrite Hp. pose proof (q_validators W h id p) as V. fold get q in V. rewrite Ev, dict_single in V by exact Tv. apply pair_equal_spec in V as [Qv Qd].
      unfold accepted in Ca. rewrite E8, Qv, Qd in Ca. unfold treated in Tr. rewrite Hp in Tr.
      assert (subject q false (flag h (get (s "validate_all")))) as Sb by (unfold subject; rewrite E1, E2; tauto).
      destruct (Ca Sb) as (f & Rf & Af). rewrite <- (resolves_fun (resolves_single _ _ _ _) Rf) in Af. unfold as_validator in Af. rewrite Tv in Af. exact Af.
  Qed.
End ChainOptions.

(** Every match returned by a chain made by [chain(kw)] after the calls [ops] shows the options in force for chains; its
    children, and the children returned in its place, are what the parts found with these options applied. *)
Theorem C134_options : forall W h ops kw h' f' p id fuel breaker parts n input n' outs raws m,
  Forall proper_op ops -> NoDup (dkeys kw) ->
  add (st_heap (bhistory h ops)) (st_factory (bhistory h ops)) KChain NoKey kw = (h', f', Ok p) ->
  let get := wanted ops KChain NoKey kw in
  unprocessed get -> chain_matches fuel (assemble W h' id p) breaker parts n input = Ok (n', (outs, raws)) -> In m outs ->
  (m_parent m = None /\ shows W h' get m /\ Forall (piece_of W h' get input parts) (m_children m))
  \/ ((flag h' (get (s "children")) = true \/ flag h' (get (s "every")) = true \/ flag h' (get (s "private_children")) = true)
      /\ (forall nm, m_name m = Some nm -> ~ In nm (names_option (get (s "ignore_names"))))
      /\ piece_of W h' get input parts m
      /\ forall v, get (s "validator") = Some (BVal v) -> truthy v = true ->
           (flag h' (get (s "validate_all")) = true \/ flag h' (get (s "every")) = true \/ flag h' (get (s "children")) = true) ->
           exists q, call_validator W v (set_parent m q) = true).
Proof.
  intros W h ops kw h' f' p id fuel breaker parts n input n' outs raws m P N E get U H Hm.
  assert (G : forall k, k <> k_overrides -> k <> k_formatter -> dfind (bp_opts p) k = get k).
  { intros k A B. apply (wanted_built P N E A). intro X. destruct (B X). }
  assert (NP : no_processor (assemble W h' id p)).
  { apply q_plain. intros k Hk x. rewrite G; [apply U, Hk|..]; intros ->; simpl in Hk; intuition discriminate. }
  assert (PO : forall c, from_part (assemble W h' id p) input parts c -> piece_of W h' get input parts c).
  { intros c (x & y & Hx & Hy & S). exists x, y. split; [exact Hx|]. split; [exact Hy|].
    apply (piece_shows_ext (g := fun k => dfind (bp_opts p) k)); [exact G|]. exact (piece_options S). }
  destruct (q_flags W h' id p) as (E1 & E2 & E3 & E4 & E5 & E6 & E7 & E8). rewrite !G in E1, E2, E4, E6, E8 by discriminate.
  destruct (C134_chain_shows NP H Hm) as (Hi & [(Hp & Hr & (o & Mo & So) & Ha & K)|(Hr & K & (q & Ca))]).
  - left. split; [exact Hp|]. split; [|rewrite Forall_forall in *; intros c Hc; apply PO, K, Hc].
    apply (shows_ext (g := fun k => dfind (bp_opts p) k)); [exact G|]. exact (chain_options Mo So Hp Hi Hr Ha).
  - right. rewrite E1, E2, E4 in Hr. split; [exact Hr|]. split; [|split; [apply PO, K|]].
    + intros nm Hn Hin. unfold ignored in Hi. rewrite Hn, E6 in Hi. apply (existsb_pstr nm) in Hin. congruence.
    + intros v Ev Tv Tr. exists q. pose proof (q_validators W h' id p) as V. rewrite G in V by discriminate. rewrite Ev, dict_single in V by exact Tv. apply pair_equal_spec in V as [Qv Qd].
      unfold accepted in Ca. rewrite E8, Qv, Qd in Ca.
      assert (subject (assemble W h' id p) true (flag h' (get (s "validate_all")))) as Sb by (unfold subject; rewrite E1, E2; tauto).
      destruct (Ca Sb) as (f & Rf & Af). rewrite <- (resolves_fun (resolves_single _ _ _ _) Rf) in Af. unfold as_validator in Af. rewrite Tv in Af. exact Af.
Qed.
(** The formatter: a piece returned is formatted by the formatter given to the chain, by the entry for its name, or by the
    converter of the key declared with that name, as the matches of any pattern (C130_formatters) *)
Theorem C134_formatters : forall W h ops kw h' f' p id fuel breaker parts n input n' outs raws m,
  Forall proper_op ops -> NoDup (dkeys kw) ->
  (forall a, In a (all_addrs ops) -> (a < h_next h)%nat) -> (forall a, In a (addrs kw) -> (a < h_next h)%nat) ->
  add (st_heap (bhistory h ops)) (st_factory (bhistory h ops)) KChain NoKey kw = (h', f', Ok p) ->
  let get := wanted ops KChain NoKey kw in
  unprocessed get -> chain_matches fuel (assemble W h' id p) breaker parts n input = Ok (n', (outs, raws)) -> In m outs ->
  flag h' (get (s "format_all")) = true \/ flag h' (get (s "every")) = true
    \/ (m_parent m = None /\ flag h' (get (s "children")) = false) \/ (m_parent m <> None /\ flag h' (get (s "children")) = true) ->
  (m_parent m = None -> flag h' (get (s "private_children")) = false) ->
  (forall v, get (s "formatter") = Some (BVal v) -> truthy v = true -> v <> library_formatter -> m_fmt m = Some (call_formatter W v))
  /\ ((forall v, get (s "formatter") = Some (BVal v) -> truthy v = true -> v = library_formatter) ->
      forall x, m_name m = Some x -> x <> [] ->
      let entry := match get (s "formatter") with Some (BDict a) => dfind (h_cell h' a) (Some x) | _ => None end in
      forall v, match entry with Some v => Some v | None => last_declared ops x end = Some v -> m_fmt m = as_formatter W v).
Proof.
  intros W h ops kw h' f' p id fuel breaker parts n input n' outs raws m P N AL ALk E get U H Hm Tr Pc.
  assert (G : forall k, k <> k_overrides -> dfind (bp_opts p) k = get k).
  { intros k A. apply (wanted_built P N E A). intro X. exact I. }
  assert (NP : no_processor (assemble W h' id p)).
  { apply q_plain. intros k Hk x. rewrite G; [apply U, Hk|]. intros ->; simpl in Hk; intuition discriminate. }
  destruct (q_flags W h' id p) as (E1 & E2 & E3 & E4 & E5 & E6 & E7 & E8). rewrite !G in E1, E2, E4, E7 by discriminate.
  destruct (C134_chain_shows NP H Hm) as (Hi & [(Hp & Hr & (o & Mo & (i & e & S)) & _)|(Hr & (x & y & _ & _ & (i & e & S)) & _)]).
  - destruct S as [(_ & A2 & _) _ _ _ [F _]]. rewrite <- A2 in F.
    apply (@formatters_shown W h ops KChain NoKey kw h' f' p id false m P N I AL ALk E). apply F. unfold subject. rewrite E1, E2, E7.
    destruct Tr as [X|[X|[(_ & X)|(X & _)]]]; auto.
  - destruct S as [(_ & A2 & _) _ _ _ [F _]]. rewrite <- A2 in F.
    apply (@formatters_shown W h ops KChain NoKey kw h' f' p id true m P N I AL ALk E). apply F. unfold subject. rewrite E1, E2, E7. rewrite E1, E2, E4 in Hr.
    destruct Tr as [X|[X|[(Y & X)|(_ & X)]]]; auto. rewrite X, (Pc Y) in Hr. intuition discriminate.
Qed.

(** ** C133 A formatter given to a part formats what the part found *)
(** A piece keeps the formatter of its part as long as the chain is not asked for its children nor to format everything;
    and the value it was given, as long as the options of the chain give none for it *)
Theorem C133_parts_format_partial : forall fuel p breaker parts n input n' outs raws m c,
  no_processor p -> po_children p = false -> po_every p = false -> po_format_all p = false -> po_private_children p = false ->
  chain_matches fuel p breaker parts n input = Ok (n', (outs, raws)) -> In m outs -> In c (m_children m) ->
  exists x y, piece input parts x /\ In y (x :: m_children x) /\ m_name c = m_name y /\ m_fmt c = m_fmt y
    /\ forall v, resolves (po_values p) (po_value p) (m_name y) true v -> truthy v = false -> m_lit c = m_lit y.
Proof.
  intros fuel p breaker parts n input n' outs raws m c N F1 F2 F3 F4 H Hm Hc.
  destruct (C134_chain_shows N H Hm) as (_ & [(_ & _ & _ & _ & K)|([X|[X|X]] & _)]); try congruence.
  rewrite Forall_forall in K. destruct (K c Hc) as (x & y & Hx & Hy & (i & e & [(_ & A2 & _) _ _ (w & D1 & D2 & D3) [_ F]])).
  exists x, y. split; [exact Hx|]. split; [exact Hy|]. split; [exact A2|]. split.
  - apply F. unfold subject. rewrite F1, F2, F3. intuition discriminate.
  - intros v Rv Tv. rewrite (resolves_fun D1 Rv) in D3. apply D3, Tv.
Qed.
(** [chain(children=True).regex("[0-9]", name="n", formatter=f)] on "a7": [f] (here: the length of the text) is not applied,
    although the pattern alone applies it; without [children] the child of the chain is formatted by [f] *)
Definition the_length : pyval -> pyval := fun v => match v with VStr t => VInt (zlen t) | _ => v end.
Definition digit_opts : popts := new_pattern 1 (MOpts None (Some (Some (s "n"))) None None None None None) (DSingle (Some the_length)) DNone DNone false false false false [] [] false false None None None.
Definition digit_src : psource := SRegex false [char_rx (s "0123456789")].
Definition digit_chain (children : bool) : popts := new_pattern 2 no_opts DNone DNone DNone children false false false [] [] false false None None None.
Definition values_of (r : res (nat * (list mtch * list mtch))) : option (list pyval) := match r with Ok (_, (outs, _)) => Some (map m_value outs) | Err _ => None end.
Definition child_values (r : res (nat * (list mtch * list mtch))) : option (list pyval) := match r with Ok (_, (outs, _)) => Some (map m_value (flat_map m_children outs)) | Err _ => None end.
Theorem C133_parts_format_refuted :
  let parts := [CPart (pattern_matches digit_opts digit_src) 1 (Some 1) false] in
  values_of (pattern_matches digit_opts digit_src 0%nat (s "a7")) = Some [VInt 1]
  /\ values_of (chain_matches 3 (digit_chain true) None parts 0%nat (s "a7")) = Some [VStr (s "7")]
  /\ child_values (chain_matches 3 (digit_chain false) None parts 0%nat (s "a7")) = Some [VInt 1].
Proof. vm_compute. auto. Qed.
(** the last chain meets the hypotheses of the partial theorem *)
Example C133_case : no_processor (digit_chain false) /\ po_children (digit_chain false) = false /\ po_every (digit_chain false) = false
  /\ po_format_all (digit_chain false) = false /\ po_private_children (digit_chain false) = false.
Proof. repeat split. Qed.

(** ** C134, a case: [chain_defaults(tags=["c"])], then [chain(name="all", every=True, private_names=["n"], validator=5)]; the part
    is [string("ab", name="n", tags=["t"], value="v")].  Validator 5 refuses what starts at 0. *)
Definition ct_ops : list bop := [ODefaults (GKind KChain) [(s "tags", BVal (VList [VStr (s "c")]))]].
Definition ct_kw : opts := [(s "name", BVal (VStr (s "all"))); (s "every", BVal (VInt 1)); (s "private_names", BVal (VList [VStr (s "n")])); (s "validator", BVal (VObj 5))].
Definition ct_callables : callables := Callables (fun f v => v) (fun v m => match v with VObj 5 => 0 <? m_start m | _ => true end) (fun _ m => (m, Keep)) (fun _ l => l) (fun _ => 0%nat).
Definition ct_part : popts := new_pattern 1 (MOpts None (Some (Some (s "n"))) (Some [s "t"]) None None None None) DNone (DSingle (VStr (s "v"))) DNone false false false false [] [] false false None None None.
Example C134_case :
  let h := Heap 0 (fun _ => []) in
  exists h' f' p n' outs raws, Forall proper_op ct_ops /\ NoDup (dkeys ct_kw)
  /\ add (st_heap (bhistory h ct_ops)) (st_factory (bhistory h ct_ops)) KChain NoKey ct_kw = (h', f', Ok p)
  /\ unprocessed (wanted ct_ops KChain NoKey ct_kw)
  /\ chain_matches 9 (assemble ct_callables h' 2 p) None [CPart (pattern_matches ct_part (SString (fun x => x) (StringOpts None None false) [s "ab"])) 1 (Some 1) false] 0%nat (s "abxab") = Ok (n', (outs, raws))
  /\ map (fun m => (m_span m, m_name m, m_tags m, m_private m, m_value m)) outs
     = [(3, 5, Some (s "all"), [s "c"], false, VStr (s "ab")); (3, 5, Some (s "n"), [s "t"], true, VStr (s "v"))]
  /\ all_addrs ct_ops = [] /\ addrs ct_kw = [] /\ flag h' (wanted ct_ops KChain NoKey ct_kw (s "every")) = true
  /\ flag h' (wanted ct_ops KChain NoKey ct_kw (s "private_children")) = false.
Proof.
  intros h. do 6 eexists. split; [|split; [|split; [|split; [|split; [|split; [|split; [|split; [|split]]]]]]]].
  3: vm_compute; reflexivity. 4: vm_compute; reflexivity.
  - repeat constructor; cbn; try (intros []); try discriminate.
  - repeat constructor; cbn; intuition discriminate.
  - intros k Hk x. destruct Hk as [<-|[<-|[<-|[]]]]; vm_compute; discriminate.
  - vm_compute. reflexivity.
  - reflexivity.
  - reflexivity.
  - vm_compute. reflexivity.
  - vm_compute. reflexivity.
Qed.
Print Assumptions C134_chain_shows.
Print Assumptions C134_options.
Print Assumptions C134_formatters.
Print Assumptions C133_parts_format_partial.
Print Assumptions C133_parts_format_refuted.
