(** * When chains raise: C141 *)
From Coq Require Import Permutation ZifyBool.
From Coq Require String. Export Coq.Strings.String.StringSyntax.
From Verif Require Import Base BaseFacts Match Spec CollHist Processors PropsProc Coll Loose MatchFacts RulesFacts Pattern PatternFacts PropsLoose PropsPattern Chain SpecChain ChainFacts ChainSem PropsChain SpecNest PropsNest Topo Rules PropsRules PropsEngine Rebulk RebulkFacts PropsRebulk Pipeline PropsPipeline OnceFacts PropsOnce PropsInside PropsTotal.
Set Implicit Arguments.
Unset Strict Implicit.
Open Scope string_scope.
Open Scope list_scope.
Open Scope Z_scope.

(** ** Specification *)
(** what the tree finds are not markers: neither the option nor, for functions, a result says so *)
Definition item_marker (x : fitem) : option bool :=
  match x with FTuple _ _ _ (Some o) => mo_marker o | FTuple _ _ _ None => None | FDict _ _ o => mo_marker o end.
Definition not_markers (c : ctree) : Prop :=
  match c with
  | CPattern p src => mo_marker (po_kw p) <> Some true
      /\ match src with SFunctional fs => forall f t x, In f fs -> In x (results (f t)) -> item_marker x <> Some true | _ => True end
  | CChain p _ _ => mo_marker (po_kw p) <> Some true
  end.
(** a marker is never to be put among the children of a match: expressions that are markers capture nothing, and
    the parts of chains that are not hidden find no markers *)
Inductive peaceful : ctree -> Prop :=
| peaceful_pattern p src : (match src with SRegex repeated rxs => mo_marker (po_kw p) = Some true -> forall rx t, In rx rxs -> ~ captures_text repeated rx t | _ => True end) ->
    peaceful (CPattern p src)
| peaceful_chain p breaker parts : (forall c a b hidden, In (c, (a, b, hidden)) parts -> peaceful c /\ (hidden = false -> not_markers c)) ->
    peaceful (CChain p breaker parts).

(** ** Matches without markers below them *)
Inductive calm (m : mtch) : Prop :=
| Calm : (forall c, In c (m_children m) -> m_marker c = false) -> (forall c, In c (m_children m) -> calm c) -> calm m.
Lemma calm_iff m : calm m <-> forall c, In c (m_children m) -> m_marker c = false /\ calm c.
Proof.
  split.
  - intros [A B] c Hc. split; [exact (A c Hc)|exact (B c Hc)].
  - intro H. constructor; intros c Hc; destruct (H c Hc) as [A B]; assumption.
Qed.
Lemma calm_same m m' : m_children m' = m_children m -> calm m -> calm m'.
Proof. intros E. rewrite !calm_iff, E. auto. Qed.
Lemma calm_children m cs : (forall c, In c cs -> m_marker c = false /\ calm c) -> calm (set_children m cs).
Proof. intro H. apply calm_iff. exact H. Qed.
Lemma calm_relink objs m : calm m -> calm (relink objs m).
Proof. apply calm_same. reflexivity. Qed.
Lemma calm_relink_children m : calm m -> calm (relink_children m).
Proof.
  rewrite calm_iff. intro H. apply calm_children. intros c Hc. apply in_map_iff in Hc as (c0 & <- & Hc). destruct (H c0 Hc). split; [assumption|now apply calm_relink].
Qed.
Lemma calm_sub m m' : (forall c, In c (m_children m') -> In c (m_children m)) -> calm m -> calm m'.
Proof. intros E. rewrite !calm_iff. auto. Qed.

Definition keeps_calm (pm : mtch -> nat -> bool -> mtch * bool) : Prop := forall m i child m' ok,
  calm m -> pm m i child = (m', ok) -> calm m' /\ m_marker m' = m_marker m.
Lemma configure_calm p i child m : m_children (configure p i child m) = m_children m /\ m_marker (configure p i child m) = m_marker m.
Proof.
  unfold configure, process_formatter, process_value, process_private.
  repeat match goal with |- context [if ?b then _ else _] => destruct b end; split; reflexivity.
Qed.
Lemma pattern_calm p : keeps_calm (process_match p).
Proof.
  intros m i child m' ok C H. rewrite process_match_eq in H. injection H as <- _. destruct (configure_calm p i child m) as [A B].
  split; [revert C; now apply calm_same|exact B].
Qed.
Lemma shrink_calm p i child : forall groups m m', calm m -> shrink p i child groups m = Some m' -> calm m' /\ m_marker m' = m_marker m.
Proof.
  induction groups as [|g r IH]; intros m m' C H; cbn [shrink] in H; [discriminate|]. cbv zeta in H.
  match type of H with context [process_match p ?x i child] => set (m1 := x) in H end.
  assert (calm m1 /\ m_marker m1 = m_marker m) as [C1 M1].
  { split; [|reflexivity]. revert C. apply calm_sub. cbn [m_children set_end set_children m1]. intros c Hc. eapply removed_sub, Hc. }
  clearbody m1. destruct (process_match p m1 i child) as [m2 ok] eqn:E. destruct (pattern_calm C1 E) as [C2 M2].
  destruct ok; [injection H as <-; split; congruence|]. destruct (IH _ _ C2 H). split; congruence.
Qed.
Lemma chain_calm p : keeps_calm (chain_process_match p).
Proof.
  intros m i child m' ok C H. unfold chain_process_match in H. destruct (process_match p m i child) as [m1 ok1] eqn:E.
  destruct (pattern_calm C E) as [C1 M1]. destruct ok1; [injection H as <- _; auto|].
  destruct (rev (m_children m1)); [injection H as <- _; auto|]. destruct (shrink _ _ _ _ _) as [m2|] eqn:S; injection H as <- _; [|auto].
  destruct (shrink_calm C1 S). split; congruence.
Qed.
Lemma process_children_calm pm parent i : keeps_calm pm -> forall todo done cs ok,
  (forall c, In c todo -> m_marker c = false /\ calm c) -> (forall c, In c done -> m_marker c = false /\ calm c) ->
  process_children pm parent i done todo = (cs, ok) -> forall c, In c cs -> m_marker c = false /\ calm c.
Proof.
  intros K. induction todo as [|c0 r IH]; intros done cs ok T D H; cbn [process_children] in H.
  - injection H as <- _. exact D.
  - destruct (pm (relink (parent :: done) c0) i true) as [c' ok'] eqn:E.
    destruct (T c0 (or_introl eq_refl)) as [T1 T2]. destruct (K _ _ _ _ _ (@calm_relink (parent :: done) c0 T2) E) as [K1 K2].
    assert (m_marker c' = false /\ calm c') as C'. { split; [|exact K1]. rewrite K2. exact T1. }
    destruct ok'.
    + refine (IH _ _ _ _ _ H); intros c Hc; [apply T; now right|]. apply in_app_iff in Hc as [Hc|[<-|[]]]; auto.
    + injection H as <- _. intros c Hc. apply in_app_iff in Hc as [Hc|[<-|Hc]]; auto. apply T. now right.
Qed.
Lemma process_matches_calm p pm m i raw outs : keeps_calm pm -> po_pre p = None -> po_post p = None -> calm m ->
  process_matches p pm m i = Ok (raw, outs) -> Forall (fun x => calm x /\ (m_marker m = false -> m_marker x = false)) outs.
Proof.
  intros K N1 N2 S H. unfold process_matches in H. rewrite N1, N2 in H. cbn [apply_processor] in H. unfold stop_if_falsy at 1 in H.
  destruct (mbool m) as [[|]|]; [|injection H as <- <-; constructor|discriminate].
  destruct (pm m i false) as [m2 ok] eqn:E. destruct (K _ _ _ _ _ S E) as [K1 K2].
  destruct (negb ok). { injection H as <- <-. constructor. }
  destruct (process_children pm m2 i [] (m_children m2)) as [cs ok'] eqn:E1.
  assert (forall c, In c cs -> m_marker c = false /\ calm c) as Cs.
  { refine (@process_children_calm pm m2 i K _ _ _ _ _ _ E1); [|intros ? []]. now apply calm_iff. }
  cbv zeta in H. destruct (negb ok'). { injection H as <- <-. constructor. }
  assert (calm (relink_children (set_children m2 cs))) as S3 by (apply calm_relink_children, calm_children, Cs).
  unfold stop_if_falsy in H. set (M := relink_children (set_children m2 cs)) in *.
  assert (m_marker M = m_marker m) as MM by exact K2.
  destruct (mbool M) as [[|]|]; [|injection H as <- <-; constructor|discriminate].
  injection H as <- <-.
  pose proof (calm_relink_children S3) as S4.
  apply Forall_forall. intros x Hx. unfold dispatch in Hx. apply in_app_iff in Hx as [Hx|Hx].
  - destruct (_ && _)%bool; [|contradiction]. destruct Hx as [<-|[]]. split; [exact S4|]. intro Q. rewrite <- Q, <- MM. reflexivity.
  - destruct (_ || _)%bool; [|contradiction]. apply filter_In in Hx as [Hx _]. rewrite calm_iff in S4. destruct (S4 x Hx). auto.
Qed.
Lemma finish_calm p pm occ outs raws : keeps_calm pm -> no_processor p -> Forall (Forall calm) occ ->
  finish_matches p pm occ = Ok (outs, raws) -> Forall calm outs /\ (Forall (Forall (fun m => m_marker m = false)) occ -> Forall (fun m => m_marker m = false) outs).
Proof.
  intros K (N1 & N2 & N3) SO H. unfold finish_matches in H. rewrite N3 in H.
  destruct (process_patterns p pm occ) as [[rs os]|] eqn:E; [|discriminate]. injection H as <- <-.
  assert (forall l i rs os, Forall calm l -> process_all p pm i l = Ok (rs, os) -> Forall calm os /\ (Forall (fun m => m_marker m = false) l -> Forall (fun m => m_marker m = false) os)) as A.
  { induction l as [|m l IH]; intros i rs1 os1 F Q; cbn [process_all] in Q. { injection Q as <- <-. split; constructor. }
    inversion F as [|? ? F1 F2]; subst.
    destruct (process_matches p pm m i) as [[raw out]|] eqn:E1; [|discriminate]. destruct (process_all p pm (S i) l) as [[rs2 os2]|] eqn:E2; [|discriminate].
    injection Q as <- <-. pose proof (process_matches_calm K N1 N2 F1 E1) as G. destruct (IH _ _ _ F2 E2) as [G3 G4]. rewrite Forall_forall in G. split.
    - apply Forall_app. split; [|exact G3]. apply Forall_forall. intros x Hx. exact (proj1 (G x Hx)).
    - intro X. inversion X; subst. apply Forall_app. split; [|auto]. apply Forall_forall. intros x Hx. apply G; auto. }
  revert rs os E. induction SO as [|o occ F SO IH]; intros rs os E; cbn [process_patterns] in E. { injection E as <- <-. split; constructor. }
  destruct (process_all p pm 0 o) as [[rs1 os1]|] eqn:E1; [|discriminate]. destruct (process_patterns p pm occ) as [[rs2 os2]|] eqn:E2; [|discriminate].
  injection E as <- <-. destruct (A _ _ _ _ F E1). destruct (IH _ _ eq_refl). split; [apply Forall_app; auto|]. intro X. inversion X; subst. apply Forall_app. auto.
Qed.
(** found by [settled] searches, the matches are processed without error *)
Lemma mbool_settled t m : settled t m -> exists b, mbool m = Ok b.
Proof. intros [(_ & _ & A) _ _]. unfold mbool, mlen. destruct (Z.ltb_spec (m_end m - m_start m) 0); [lia|eauto]. Qed.
Lemma process_matches_total t p pm m i : keeps t pm -> po_pre p = None -> po_post p = None -> settled t m -> exists r, process_matches p pm m i = Ok r.
Proof.
  intros K N1 N2 S. unfold process_matches. rewrite N1, N2. cbn [apply_processor]. unfold stop_if_falsy at 1.
  destruct (mbool_settled S) as ([|] & ->); [|eauto].
  destruct (pm m i false) as [m2 ok] eqn:E. destruct (K _ _ _ _ _ S E) as [K1 K2].
  destruct (negb ok); [eauto|].
  destruct (process_children pm m2 i [] (m_children m2)) as [cs ok'] eqn:E1.
  assert (settled t (relink_children (set_children m2 cs))) as S3.
  { apply settled_relink_children. apply settled_children; [exact K1|]. intros c Hc.
    refine (and_comm_l (@process_children_settled t pm m2 i K _ _ _ _ _ _ E1 c Hc)); [|intros ? []].
    intros c0 Hc0. destruct K1 as [_ B C]. auto. }
  cbv zeta. destruct (negb ok'); [eauto|]. unfold stop_if_falsy. destruct (mbool_settled S3) as ([|] & ->); eauto.
Qed.
Lemma finish_total t p pm occ : keeps t pm -> no_processor p -> Forall (Forall (settled t)) occ -> exists r, finish_matches p pm occ = Ok r.
Proof.
  intros K (N1 & N2 & N3) SO. unfold finish_matches. rewrite N3.
  assert (exists r, process_patterns p pm occ = Ok r) as ([rs os] & ->); [|eauto].
  assert (forall l i, Forall (settled t) l -> exists r, process_all p pm i l = Ok r) as A.
  { induction l as [|m l IH]; intros i F; cbn [process_all]; [eauto|]. inversion F as [|? ? F1 F2]; subst.
    destruct (@process_matches_total t p pm m i K N1 N2 F1) as ([raw out] & ->). destruct (IH (S i) F2) as ([rs2 os2] & ->). eauto. }
  induction SO as [|o occ F SO IH]; cbn [process_patterns]; [eauto|]. destruct (A o 0%nat F) as ([rs1 os1] & ->). destruct IH as ([rs2 os2] & ->). eauto.
Qed.

(** ** One attempt *)
Lemma shift_calm input off m : calm m -> calm (shift input off m).
Proof.
  intro C. induction C as [m H C IH]. destruct (shift_fields input off m) as (F1 & _). constructor; rewrite F1;
    intros c Hc; apply in_map_iff in Hc as (c0 & <- & Hc); [|auto]. rewrite <- (H c0 Hc). destruct c0; reflexivity.
Qed.
Lemma shift_mark input off m : m_marker (shift input off m) = m_marker m.
Proof. destruct m; reflexivity. Qed.

Definition unm (m : mtch) : Prop := m_marker m = false.
Section Attempt.
  Variable Bad : Prop.
  Variable input : pstr.
  Variable breaker : option (list mtch -> bool).
  Definition tranquil (cp : cpart) : Prop := forall n t,
    (forall e, cp_match cp n t = Err e -> e = AssertionError /\ Bad)
    /\ (forall n' ms raws, cp_match cp n t = Ok (n', (ms, raws)) -> Forall calm ms /\ (cp_hidden cp = false -> Bad \/ Forall unm ms)).
  Definition serene (st : cstate) : Prop := Forall calm (cs_current st) /\ (Bad \/ Forall unm (cs_current st)).

  Lemma next_groups_calm hidden visible : (forall i g, dfind visible i = Some g -> Forall calm g /\ (hidden = false -> Bad \/ Forall unm g)) ->
    forall groups st, serene st ->
    (forall e, next_groups breaker hidden input visible groups st = Err e -> e = AssertionError /\ Bad)
    /\ (forall st', next_groups breaker hidden input visible groups st = Ok st' -> serene st').
  Proof.
    intros V. induction groups as [|[i g] r IH]; intros st [S1 S2]; cbn [next_groups]. { split; [discriminate|]. intros st' [= <-]. split; auto. }
    destruct hidden. { apply IH. split; auto. }
    set (gm := match dfind visible i with Some l => l | None => [] end).
    assert (Forall calm gm /\ (Bad \/ Forall unm gm)) as [G1 G2].
    { unfold gm. destruct (dfind visible i) eqn:E; [|split; [constructor|right; constructor]]. destruct (V _ _ E). auto. }
    assert (Bad \/ Forall unm (cs_current st ++ gm)) as U. { destruct S2 as [|S2]; [auto|]. destruct G2 as [|G2]; [auto|]. right. apply Forall_app. auto. }
    destruct (breaker_allows breaker (cs_current st ++ gm)) as [b|e] eqn:B.
    - apply IH. split; cbn [cs_current]; destruct b; auto. apply Forall_app. auto.
    - split; [|discriminate]. intros e' [= <-]. unfold breaker_allows in B. destruct breaker as [bk|]; [|discriminate]. destruct (existsb _ _) eqn:X; [|discriminate].
      injection B as <-. split; [reflexivity|]. destruct U as [|U]; [assumption|]. exfalso. apply existsb_exists in X as (x & Hx & X).
      rewrite Forall_forall in U. specialize (U x Hx). unfold unm in U. congruence.
  Qed.
  Lemma run_parts_calm : forall parts first st, Forall tranquil parts -> serene st ->
    (forall e, run_parts breaker input first parts st = Err e -> e = AssertionError /\ Bad)
    /\ (forall st' valid, run_parts breaker input first parts st = Ok (st', valid) -> serene st').
  Proof.
    induction parts as [|cp r IH]; intros first st P G; cbn [run_parts]. { split; [discriminate|]. intros st' v [= <- _]. exact G. }
    inversion P as [|? ? P1 P2]; subst. destruct (P1 (cs_next st) (cs_text st)) as [Q1 Q2].
    destruct (part_matches first cp (cs_next st) (cs_text st)) as [[n' [ms raws]]|e] eqn:E.
    - apply part_matches_ok in E as (ms0 & raws0 & E & -> & -> & _). destruct (Q2 _ _ _ E) as [R1 R2]. clear Q1 Q2.
      unfold to_next_part.
      match goal with |- context [next_groups breaker ?h input ?v ?g ?s] => destruct (@next_groups_calm h v) with (groups := g) (st := s) as [X1 X2] end.
      + intros i g D. apply dfind_In in D. apply group_by_index_In in D as [_ D].
        assert (forall x, In x g -> exists y, In y ms0 /\ x = shift input (cs_offset st) y) as Y.
        { intros x Hx. apply D in Hx as [Hx _]. apply in_map_iff in Hx as (y & <- & Hy). apply truncate_In in Hy. eauto. }
        rewrite Forall_forall in R1. split.
        * apply Forall_forall. intros x Hx. destruct (Y x Hx) as (y & Hy & ->). apply shift_calm. auto.
        * intro Hh. destruct (R2 Hh) as [R3|R3]; [now left|]. right. rewrite Forall_forall in R3. apply Forall_forall. intros x Hx.
          destruct (Y x Hx) as (y & Hy & ->). unfold unm. rewrite shift_mark. apply R3, Hy.
      + exact G.
      + destruct (next_groups _ _ _ _ _ _) as [st1|e1].
        * apply IH; auto.
        * split; [|discriminate]. intros e' [= <-]. auto.
    - assert (serene (match cs_current st with m :: _ => CState (cs_next st) (cs_found st) (cs_text st) (raw_end m) (cs_current st) | [] => st end)) as G1.
      { destruct (cs_current st) eqn:Ec; [exact G|]. unfold serene in *. rewrite Ec in G. exact G. }
      assert (e = InvalidChain \/ e = AssertionError /\ Bad) as Ee.
      { unfold part_matches in E. destruct (cp_match cp _ _) as [[n1 [ms raws]]|e1]; [|right; injection E as <-; auto]. cbv zeta in E. destruct (validate_repeater _ _); [discriminate|]. left. congruence. }
      destruct Ee as [->|[-> B]]; (split; [|discriminate || (intros st' v [= <- _]; exact G1)]); [discriminate|]. intros e [= <-]. auto.
  Qed.

  Lemma append_all_total : forall add cs, (Bad \/ Forall unm add) ->
    (forall e, append_all cs add = Err e -> e = AssertionError /\ Bad).
  Proof.
    induction add as [|c r IH]; intros cs U e H; cbn [append_all] in H; [discriminate|]. unfold append_child in H. destruct (m_marker c) eqn:M.
    - injection H as <-. split; [reflexivity|]. destruct U as [|U]; [assumption|]. inversion U; subst. unfold unm in *. congruence.
    - eapply IH, H. destruct U as [|U]; [auto|]. inversion U; auto.
  Qed.
  Lemma append_all_calm : forall add cs cs', append_all cs add = Ok cs' -> Forall (fun c => unm c /\ calm c) cs -> Forall calm add -> Forall (fun c => unm c /\ calm c) cs'.
  Proof.
    induction add as [|c r IH]; intros cs cs' H D A; cbn [append_all] in H; [injection H as <-; exact D|]. unfold append_child in H.
    destruct (m_marker c) eqn:M; [discriminate|]. inversion A; subst. eapply IH; [exact H| |assumption]. apply Forall_app. split; [exact D|]. constructor; [split; [exact M|assumption]|constructor].
  Qed.
  Lemma chain_children_calm main : forall cur cs, Forall calm cur -> (Bad \/ Forall unm cur) -> Forall (fun c => unm c /\ calm c) cs ->
    (forall e, chain_children main cur cs = Err e -> e = AssertionError /\ Bad)
    /\ (forall cs', chain_children main cur cs = Ok cs' -> Forall (fun c => unm c /\ calm c) cs').
  Proof.
    induction cur as [|m r IH]; intros cs C U D; cbn [chain_children]. { split; [discriminate|]. intros cs' [= <-]. exact D. }
    inversion C as [|? ? C1 C2]; subst. pose proof (proj1 (calm_iff m) C1) as C3.
    assert (Bad \/ Forall unm r) as U'. { destruct U as [|U]; [auto|]. inversion U; auto. }
    destruct (append_all cs (m_children m)) as [cs1|e1] eqn:E.
    - assert (Forall (fun c => unm c /\ calm c) cs1) as D1.
      { eapply append_all_calm; [exact E|exact D|]. apply Forall_forall. intros c Hc. exact (proj2 (C3 c Hc)). }
      destruct (mem meq m cs1); [apply IH; auto|]. unfold append_child. change (m_marker (set_parent m (Some (shell main)))) with (m_marker m).
      destruct (m_marker m) eqn:M.
      + split; [|discriminate]. intros e [= <-]. split; [reflexivity|]. destruct U as [|U]; [assumption|]. inversion U; subst. unfold unm in *. congruence.
      + apply IH; auto. apply Forall_app. split; [exact D1|]. constructor; [|constructor]. split; [exact M|]. revert C1. apply calm_same. reflexivity.
    - split; [|discriminate]. intros e [= <-]. eapply append_all_total; [|exact E]. right. apply Forall_forall. intros c Hc. exact (proj1 (C3 c Hc)).
  Qed.
  Lemma build_calm p id cur : cur <> [] -> Forall calm cur -> (Bad \/ Forall unm cur) ->
    (forall e, build_chain_match p id cur input = Err e -> e = AssertionError /\ Bad)
    /\ (forall m, build_chain_match p id cur input = Ok m -> calm m /\ m_marker m = given (mo_marker (po_kw p)) false).
  Proof.
    intros N C U. unfold build_chain_match. destruct cur as [|x r]; [congruence|]. cbv zeta. set (main := new_match id _ _ _ _ _).
    destruct (@chain_children_calm main (x :: r) [] C U (Forall_nil _)) as [X1 X2]. destruct (chain_children main (x :: r) []) as [cs|e].
    - split; [discriminate|]. intros m [= <-]. split; [|reflexivity]. apply calm_relink_children, calm_children. specialize (X2 cs eq_refl). rewrite Forall_forall in X2. exact X2.
    - split; [|discriminate]. intros e' [= <-]. auto.
  Qed.
  Lemma chain_loop_calm p parts : Forall tranquil parts -> forall fuel n text offset acc,
    Forall (fun m => calm m /\ m_marker m = given (mo_marker (po_kw p)) false) acc ->
    (forall e, chain_loop fuel p breaker parts input n text offset acc = Err e -> e = Diverges \/ e = AssertionError /\ Bad)
    /\ (forall n' ms, chain_loop fuel p breaker parts input n text offset acc = Ok (n', ms) -> Forall (fun m => calm m /\ m_marker m = given (mo_marker (po_kw p)) false) ms).
  Proof.
    intros P. induction fuel as [|f IH]; intros n text offset acc A; cbn [chain_loop].
    - destruct (offset <? zlen input); (split; [|intros n' ms [= _ <-]; exact A || discriminate]); [|discriminate]. intros e [= <-]. auto.
    - destruct (offset <? zlen input); [|split; [discriminate|intros n' ms [= _ <-]; exact A]].
      destruct (@run_parts_calm parts true (CState n false text offset []) P) as [X1 X2]. { split; [constructor|right; constructor]. }
      destruct (run_parts _ _ _ _ _) as [[st valid]|e]; [|split; [|discriminate]; intros e' [= <-]; right; auto].
      destruct (X2 st valid eq_refl) as [S1 S2]. destruct (negb (cs_found st)); [split; [discriminate|intros n' ms [= _ <-]; exact A]|].
      destruct (cs_current st) as [|m r] eqn:C; [apply IH, A|]. destruct valid; [|apply IH, A].
      destruct (@build_calm p (cs_next st) (m :: r)) as [B1 B2]; [discriminate|exact S1|exact S2|].
      destruct (build_chain_match _ _ _ _) as [M|e]; [|split; [|discriminate]; intros e' [= <-]; right; auto].
      apply IH. apply Forall_app. split; [exact A|]. constructor; [apply (B2 M eq_refl)|constructor].
  Qed.
End Attempt.

(** ** Patterns *)
Lemma string_calm lower p o t input ms : string_match lower p o t input = Ok ms -> Forall (fun m => m_children m = [] /\ m_marker m = given (mo_marker (po_kw p)) false) ms.
Proof.
  intro H. unfold string_match in H. destruct (find_all_n _ _ _ _ _ _ _) as [l|]; [|discriminate]. apply keep_truthy_inv in H as [_ ->].
  apply Forall_forall. intros m Hm. apply filter_In in Hm as [Hm _]. apply in_map_iff in Hm as (i & <- & _). split; reflexivity.
Qed.
Lemma re_calm p repeated rx t ms : re_match p repeated rx t = Ok ms -> Forall (fun m => calm m /\ m_marker m = given (mo_marker (po_kw p)) false) ms.
Proof.
  intro E. unfold re_match in E. destruct (sequence _ _) as [l|] eqn:Q; [|discriminate].
  apply keep_truthy_inv in E as [_ ->]. apply Forall_forall. intros m Hm. apply filter_In in Hm as [Hm _].
  pose proof (@sequence_forall _ _ (re_one p repeated (rx_groups rx) t) (fun m => calm m /\ m_marker m = given (mo_marker (po_kw p)) false)) as X.
  assert (forall x y, re_one p repeated (rx_groups rx) t x = Ok y -> calm y /\ m_marker y = given (mo_marker (po_kw p)) false) as Y.
  { clear. intros o m H. unfold re_one in H. pose proof (append_children_parent H) as (_ & _ & _ & B4 & _ & B6 & B7). split; [|rewrite B7; reflexivity].
    apply calm_iff. intros c Hc. rewrite B4 in Hc. cbn [m_children new_match app] in Hc. apply filter_In in Hc as [Hc Tc].
    rewrite Forall_forall in B6. split; [auto|]. apply in_flat_map in Hc as (g & _ & Hc). unfold re_child in Hc. apply in_map_iff in Hc as (sp & <- & _).
    apply calm_iff. intros ? []. }
  specialize (X Y _ _ Q). rewrite Forall_forall in X. auto.
Qed.
Lemma functional_calm p f t ms : functional_match p f t = Ok ms -> Forall calm ms
  /\ (mo_marker (po_kw p) <> Some true -> (forall x, In x (results (f t)) -> item_marker x <> Some true) -> Forall unm ms).
Proof.
  intro E. split.
  - apply functional_match_raw in E. eapply Forall_impl; [|exact E]. intros m (_ & C & _). apply calm_iff. rewrite C. intros ? [].
  - intros Np Ni. unfold functional_match in E. change (match f t with FFalsy => [] | FOne x => [x] | FMany l => l end) with (results (f t)) in E.
    destruct (sequence _ _) as [l|] eqn:Q; [|discriminate]. apply keep_truthy_inv in E as [_ ->]. apply Forall_forall. intros m Hm. apply filter_In in Hm as [Hm _].
    apply sequence_ok in Q. assert (exists x, In x (results (f t)) /\ functional_one p t x = Ok m) as (x & Hx & E).
    { clear - Q Hm. induction Q; [contradiction|]. destruct Hm as [->|Hm]; [exists x; split; [left; auto|auto]|]. destruct (IHQ Hm) as (z & ? & ?). exists z. split; [right; auto|auto]. }
    specialize (Ni x Hx). unfold functional_one in E. destruct x as [st en v o|st en o]; cbn [item_marker] in Ni; cbv zeta in E.
    + destruct o as [o|]; destruct v as [v|]; try (destruct (mo_value _); [discriminate|]); injection E as <-; unfold unm; cbn;
        (destruct (mo_marker o) as [[|]|]; try congruence; try reflexivity || idtac) || idtac; destruct (mo_marker (po_kw p)) as [[|]|]; congruence || reflexivity.
    + injection E as <-; unfold unm; cbn. destruct (mo_marker o) as [[|]|]; try congruence; try reflexivity. destruct (mo_marker (po_kw p)) as [[|]|]; congruence || reflexivity.
Qed.
Lemma given_unm o : o <> Some true -> given o false = false.
Proof. destruct o as [[|]|]; congruence || reflexivity. Qed.
Lemma found_calm p src t found : finds p t src found -> Forall (Forall calm) found /\ (not_markers (CPattern p src) -> Forall (Forall unm) found).
Proof.
  intro F.
  assert (forall ms, In ms found -> Forall calm ms /\ (not_markers (CPattern p src) -> Forall unm ms)) as A.
  { destruct src as [lower o subs|rep rxs|fs]; cbn [finds not_markers] in *; intros ms Hms.
    - assert (exists sub, string_match lower p o sub t = Ok ms) as (sub & E).
      { clear - F Hms. induction F; [contradiction|]. destruct Hms as [->|Hms]; [exists x; auto|auto]. }
      apply string_calm in E. split; [|intros [N _]]; (eapply Forall_impl; [|exact E]); intros m [C M]; [apply calm_iff; rewrite C; intros ? []|].
      unfold unm. rewrite M. now apply given_unm.
    - assert (exists rx, re_match p rep rx t = Ok ms) as (rx & E).
      { clear - F Hms. induction F; [contradiction|]. destruct Hms as [->|Hms]; [exists x; auto|auto]. }
      apply re_calm in E. split; [|intros [N _]]; (eapply Forall_impl; [|exact E]); intros m [C M]; [exact C|].
      unfold unm. rewrite M. now apply given_unm.
    - assert (exists f, In f fs /\ functional_match p f t = Ok ms) as (f & Hf & E).
      { clear - F Hms. induction F; [contradiction|]. destruct Hms as [->|Hms]; [exists x; split; [left; auto|auto]|]. destruct (IHF Hms) as (z & ? & ?). exists z. split; [right; auto|auto]. }
      apply functional_calm in E as [E1 E2]. split; [exact E1|]. intros [N1 N2]. apply E2; [exact N1|]. intros x Hx. eapply N2; eauto. }
  split; [|intro N]; apply Forall_forall; intros ms Hms; apply A; auto.
Qed.
Lemma number_calm : forall l n, (Forall (Forall calm) l -> Forall (Forall calm) (snd (number_lists n l))) /\ (Forall (Forall unm) l -> Forall (Forall unm) (snd (number_lists n l))).
Proof.
  assert (forall n m, calm m -> calm (number_one n m)) as A.
  { intros n m S. unfold number_one. apply calm_children. rewrite calm_iff in S. cbn [m_children set_id].
    assert (forall q cs k c, In c (number_children q k cs) -> exists c0, In c0 cs /\ m_marker c = m_marker c0 /\ m_children c = m_children c0) as B.
    { intro q. induction cs as [|c0 r IH]; intros k c Hc; cbn [number_children] in Hc; [contradiction|]. destruct Hc as [<-|Hc].
      - exists c0. split; [now left|]. split; reflexivity.
      - destruct (IH _ _ Hc) as (c1 & ? & ?). exists c1. split; [now right|auto]. }
    intros c Hc. destruct (B _ _ _ _ Hc) as (c0 & B1 & B2 & B3). destruct (S c0 B1) as [S1 S2]. rewrite B2. split; [exact S1|]. revert S2. now apply calm_same. }
  assert (forall ms n, (Forall calm ms -> Forall calm (snd (number_all n ms))) /\ (Forall unm ms -> Forall unm (snd (number_all n ms)))) as B.
  { induction ms as [|m r IH]; intros n; cbn [number_all]; [split; constructor|].
    specialize (IH (S n + length (m_children m))%nat). destruct (number_all _ r) as [k r']. destruct IH as [I1 I2]. split; intro F; inversion F; subst; constructor; auto. }
  induction l as [|o r IH]; intros n; cbn [number_lists]; [split; constructor|].
  specialize (B o n). destruct (number_all n o) as [k o']. specialize (IH k). destruct (number_lists k r) as [k' r']. destruct B, IH. split; intro F; inversion F; subst; constructor; auto.
Qed.
Lemma fine_sound p src t : sound_source src -> peaceful (CPattern p src) -> fine p src t.
Proof.
  intros S P. inversion P as [? ? P'|]; subst. destruct src as [lower o subs|rep rxs|fs]; cbn [sound_source fine] in *.
  - destruct S as [I S]. eapply Forall_impl; [|exact S]. intros sub N. left. cbv beta zeta. rewrite I. exact N.
  - intro M. apply Forall_forall. intros rx Hx. now apply P'.
  - apply Forall_forall. intros f Hf. apply Forall_forall. intros x Hx. destruct (S f t x Hf Hx) as [O L].
    destruct x as [st en v o|st en o]; cbn [good_item item_span fst snd one_value] in *; [split; [lia|]|lia]. revert O. clear. unfold one_value. destruct v as [v|], o as [o|]; auto. all: intros; tauto || congruence.
Qed.

(** ** Trees *)
Lemma sound_engine_of src t : sound_source src -> sound_engine src t.
Proof. destruct src; cbn; auto. intro S. apply Forall_forall. intros rx H. auto. Qed.
Lemma tree_calm Bad c : well_made c -> (Bad \/ peaceful c) -> forall n t,
  (forall e, tree_matches c n t = Err e -> e = AssertionError /\ Bad)
  /\ (forall n' ms raws, tree_matches c n t = Ok (n', (ms, raws)) -> Forall calm ms /\ (not_markers c -> Forall unm ms)).
Proof.
  intros W. induction W as [p src N S I|p breaker parts N V W IH]; intros P n t.
  - cbn [tree_matches]. split.
    + destruct (@C139_pattern p src n t (proj1 N) (proj1 (proj2 N)) (sound_engine_of t S)) as [X1 X2]. intros e E.
      assert (~ fine p src t) as NF. { intro F. apply X1 in F as (r & F). congruence. }
      split; [|destruct P as [|P]; [assumption|]; exfalso; apply NF; now apply fine_sound].
      specialize (X2 e E). destruct src as [lower o subs|rep rxs|fs]; cbn [failure] in X2; [|exact X2|];
        exfalso; apply NF, fine_sound; auto; constructor; exact Logic.I.
    + intros n' ms raws H.
      assert (exists found, finds p t src found /\ finish_matches p (process_match p) (snd (number_lists n found)) = Ok (ms, raws)) as (found & F & H').
      { assert (forall A (subs : list A) mt, run_pattern p subs mt n t = Ok (n', (ms, raws)) -> exists found, Forall2 (fun sub ms => mt sub t = Ok ms) subs found
          /\ finish_matches p (process_match p) (snd (number_lists n found)) = Ok (ms, raws)) as R.
        { intros A subs mt X. unfold run_pattern in X. destruct (sequence _ _) as [occ|] eqn:E; [|discriminate]. apply sequence_ok in E.
          exists occ. split; [exact E|]. destruct (number_lists n occ) as [k occ']. cbn [snd].
          destruct (finish_matches _ _ _) as [[o r]|]; [|discriminate]. now injection X as _ -> ->. }
        destruct src; cbn [pattern_matches finds] in *; now apply R in H. }
      destruct (found_calm F) as [F1 F2]. destruct (number_calm found n) as [G1 G2].
      destruct (finish_calm (@pattern_calm p) N (G1 F1) H') as [K1 K2]. split; [exact K1|]. intro M. apply K2, G2, F2, M.
  - set (ps := map tree_part parts).
    assert (Forall (tranquil Bad) ps) as Tq.
    { apply Forall_forall. intros cp H. apply in_map_iff in H as ([c [[a' b'] h']] & <- & H). intros n1 t1. cbn [tree_part cp_match cp_hidden].
      assert (Bad \/ peaceful c /\ (h' = false -> not_markers c)) as P'. { destruct P as [|P]; [auto|]. right. inversion P as [|? ? ? P']; subst. eauto. }
      destruct (IH _ H (match P' with or_introl b => or_introl b | or_intror (conj x _) => or_intror x end) n1 t1) as [J1 J2]. cbn [fst] in J1, J2.
      split; [exact J1|]. intros n' ms raws E. destruct (J2 _ _ _ E) as [J3 J4]. split; [exact J3|]. intro Hh. destruct P' as [|[_ P']]; [auto|]. right. auto. }
    assert (Forall sound ps) as Sd.
    { apply Forall_forall. intros cp H. apply in_map_iff in H as ([c [[a b] h]] & <- & H). exact (tree_sound (W _ H) a b h). }
    change (tree_matches (CChain p breaker parts)) with (fun n t => chain_matches (S (length t)) p breaker ps n t). cbv beta.
    unfold chain_matches. destruct (@chain_loop_calm Bad t breaker p ps Tq (S (length t)) n t 0 []) as [L1 L2]; [constructor|].
    pose proof (@chain_loop_settled breaker t p ps Sd (S (length t)) n t 0 []) as L3.
    assert (chain_match (S (length t)) p breaker ps n t <> Err Diverges) as Nd.
    { destruct (@C43_chain_terminates_partial p breaker ps n t) as (r & R1 & R2); [..|rewrite R2 by lia; exact R1];
        eapply Forall_impl; try exact Sd; intros cp H; now apply sound_proper. }
    unfold chain_match in *. destruct (chain_loop _ p breaker ps t n t 0 []) as [[k l]|e].
    + specialize (L2 _ _ eq_refl). specialize (L3 k l ltac:(lia) (Forall_nil _) eq_refl).
      destruct (@finish_total t p (chain_process_match p) [l] (chain_keeps V) N) as ([os rs] & Ef). { constructor; [exact L3|constructor]. }
      rewrite Ef. split; [discriminate|]. intros n' ms raws [= <- <- <-].
      destruct (@finish_calm p _ [l] os rs (@chain_calm p) N) as [K1 K2]; [|exact Ef|].
      { constructor; [|constructor]. eapply Forall_impl; [|exact L2]. intros m [X _]. exact X. }
      split; [exact K1|]. cbn [not_markers]. intro M. apply K2. constructor; [|constructor]. eapply Forall_impl; [|exact L2]. intros m [_ X]. rewrite X. now apply given_unm.
    + split; [|discriminate]. intros e' [= <-]. destruct (L1 e eq_refl) as [->|X]; [congruence|exact X].
Qed.

(** ** C141 *)
(** The search of a pattern, or of chains nested to any depth, of non-empty texts, sound expressions and functions
    whose results make matches, without processors: it returns, or raises AssertionError and nothing else (in
    particular the exception chains use internally for a part found too few times never leaves them); and it returns
    whenever no marker would have to be put among the children of a match. *)
Theorem C141_errors : forall c n input e, well_made c -> tree_matches c n input = Err e -> e = AssertionError.
Proof. intros c n input e W E. destruct (@tree_calm True c W (or_introl Logic.I) n input) as [X _]. apply (X e E). Qed.
Theorem C141_returns : forall c n input, well_made c -> peaceful c -> exists r, tree_matches c n input = Ok r.
Proof.
  intros c n input W P. destruct (@tree_calm False c W (or_intror P) n input) as [X _]. destruct (tree_matches c n input) as [r|e]; [eauto|].
  exfalso. apply (X e eq_refl).
Qed.
(** and no match found has a marker below it *)
Theorem C141_no_marker_below : forall c n input n' ms raws, well_made c -> tree_matches c n input = Ok (n', (ms, raws)) ->
  forall m d k, In m ms -> below m d -> In k (m_children d) -> m_marker k = false.
Proof.
  intros c n input n' ms raws W E m d k Hm B Hk. destruct (@tree_calm True c W (or_introl Logic.I) n input) as [_ X]. destruct (X _ _ _ E) as [C _].
  rewrite Forall_forall in C. specialize (C m Hm). clear - C B Hk. induction B as [m|m c0 d Hc B IH]; rewrite calm_iff in C.
  - exact (proj1 (C k Hk)).
  - apply IH; [exact Hk|]. exact (proj2 (C c0 Hc)).
Qed.

(** [matches] of a Rebulk object whose patterns are such, with the default rules and rules that raise nothing *)
Lemma trees_yield Ctx (ctx : Ctx) input ps n outs n' : (forall pt, In pt ps -> exists c, well_made c /\ pattern_is pt c) ->
  yields ctx input ps n outs n' -> Forall nonempty (concat outs).
Proof.
  intros F Y. induction Y as [n|pt ps n outs n' D Y IH|pt ps n n1 out raws outs n' D E Y IH]; cbn [concat]; [constructor|apply IH; intros; apply F; now right|].
  apply Forall_app. split; [|apply IH; intros; apply F; now right]. destruct (F pt (or_introl eq_refl)) as (c & W & I). rewrite I in E.
  apply Forall_forall. intros m Hm. destruct (@C118_nested_matches_located c n input n1 out raws W E m m) as (_ & _ & X); [apply in_or_app; now left|constructor|exact X].
Qed.
Lemma trees_run Ctx (ctx : Ctx) input : forall ps (f : found), c_kind (fd_matches f) = KMatches -> c_kind (fd_markers f) = KMarkers ->
  (forall pt, In pt ps -> pt_disabled pt ctx = false -> exists c, well_made c /\ peaceful c /\ pattern_is pt c) -> exists f', run_patterns ctx input ps f = Ok f'.
Proof.
  induction ps as [|pt ps IH]; intros f K1 K2 F; cbn [run_patterns]; [eauto|]. destruct (pt_disabled pt ctx) eqn:D; [apply IH; auto; intros; apply F; auto; now right|].
  destruct (F pt (or_introl eq_refl) D) as (c & W & P & I). destruct (@C141_returns c (fd_next f) input W P) as ([n1 [ms raws]] & E). rewrite I, E.
  destruct (@put_spec ms (with_next f n1) K1 K2) as (P1 & P2 & P3). cbn [with_next fd_matches fd_markers fd_next fd_keys] in P1, P2, P3. rewrite P1.
  apply IH; auto. intros; apply F; auto; now right.
Qed.
Theorem C141_matches : forall Ctx R (ctx : Ctx) (r : rb Ctx) env perm solvers order (user : Ctx -> behav found R) isinst input others ord,
  iteration_order perm -> class_prio env -> instances_local env (effective_rules env ctx r) -> an_order order -> loyal solvers ->
  r_prio env 0 = 2048 -> r_prio env 1 = -2048 -> Forall (fun u => -2048 < r_prio env u < 2048) others ->
  Permutation (effective_rules env ctx r) (0 :: 1 :: others)%nat ->
  execute_all_rules env perm recorder (effective_rules env ctx r) [] = (ord, Ok []) ->
  rb_disabled r ctx = false ->
  (forall u, In u others -> gentle input (user ctx) u) ->
  (forall pt, In pt (effective_patterns ctx r) -> exists c, well_made c /\ pattern_is pt c) ->
  let answer := rb_matches env perm (fun c => with_defaults solvers order (user c)) isinst false r ctx input in
  (forall e, answer = Err e -> e = AssertionError)
  /\ ((forall pt, In pt (effective_patterns ctx r) -> pt_disabled pt ctx = false -> exists c, well_made c /\ peaceful c /\ pattern_is pt c) -> exists f, answer = Ok f).
Proof.
  intros Ctx R ctx r env perm solvers order user isinst input others ord Hp Hc Hl Ho Ly P0 P1 Hm Hr Er D Hu Hs answer.
  assert (answer = match run_patterns ctx input (effective_patterns ctx r) (fresh input (effective_keys ctx r)) with Err e => Err e
                   | Ok f1 => match execute_all_rules env perm (with_defaults solvers order (user ctx)) (effective_rules env ctx r) f1 with (f', Ok _) => Ok f' | (_, Err e) => Err e end end) as Ea.
  { unfold answer, rb_matches, matches_patterns, execute_rules. rewrite D. reflexivity. }
  rewrite Ea. clear answer Ea.
  destruct (run_patterns ctx input (effective_patterns ctx r) (fresh input (effective_keys ctx r))) as [f1|e] eqn:E1.
  - destruct (@rules_total Ctx R ctx r env perm solvers order user input others ord f1 Hp Hc Hl Ho Ly P0 P1 Hm Hr Er Hu E1) as (f & ret' & Ex).
    { intros outs n n' Y. exact (trees_yield Hs Y). }
    rewrite Ex. split; [discriminate|eauto].
  - split.
    + intros e' [= <-]. apply run_patterns_error in E1 as (pt & n & Hpt & E); [|reflexivity|reflexivity]. destruct (Hs pt Hpt) as (c & W & I). rewrite I in E. eapply C141_errors; eauto.
    + intro Q. destruct (@trees_run Ctx ctx input (effective_patterns ctx r) (fresh input (effective_keys ctx r)) eq_refl eq_refl Q) as (f & Ef). congruence.
Qed.

(** A case: "a", a marker, "b"; with the marker hidden the chain is found, otherwise AssertionError *)
Definition mark_opts (id : nat) : popts :=
  new_pattern id (MOpts None None None (Some true) None None None) DNone DNone DNone false false false false [] [] false false None None None.
Definition word (p : popts) (w : pstr) : ctree := CPattern p (SString (fun x => x) (StringOpts None None false) [w]).
Definition around (hidden : bool) : ctree :=
  CChain (plain 1) None [(word (plain 2) (s "a"), (1, Some 1, false)); (word (mark_opts 3) (s "-"), (1, Some 1, hidden)); (word (plain 4) (s "b"), (1, Some 1, false))].
Lemma word_made p w : no_processor p -> w <> [] -> well_made (word p w).
Proof. intros N W. apply made_pattern; [exact N| |exact Logic.I]. split; [reflexivity|]. constructor; [exact W|constructor]. Qed.
Example C141_case : (forall hidden, well_made (around hidden)) /\ peaceful (around true)
  /\ match tree_matches (around true) 0%nat (s "xa-b") with Ok (_, (ms, _)) => map (fun m => (m_span m, map m_span (m_children m))) ms = [((1, 4), [(1, 2); (3, 4)])] | Err _ => False end
  /\ tree_matches (around false) 0%nat (s "xa-b") = Err AssertionError
  /\ (exists r, tree_matches (around false) 0%nat (s "xa+b") = Ok r).
Proof.
  split; [|split; [|split; [|split]]].
  - intro hidden. apply made_chain; [repeat split| |].
    + intro child. left. intro m. apply validator_accepted. destruct child; [reflexivity|].
      unfold process_validator. cbn. unfold config_keys. destruct (m_name m) as [[|ch r]|]; reflexivity.
    + intros x [<-|[<-|[<-|[]]]]; apply word_made; try discriminate; repeat split.
  - apply peaceful_chain. intros c a b hidden [H|[H|[H|[]]]]; injection H as <- <- <- <-; (split; [constructor; exact Logic.I|]); try discriminate; intros _; (split; [discriminate|exact Logic.I]).
  - vm_compute. reflexivity.
  - vm_compute. reflexivity.
  - eexists. vm_compute. reflexivity.
Qed.
Print Assumptions C141_matches. Print Assumptions C141_no_marker_below.
