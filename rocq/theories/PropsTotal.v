(** * Property C139: when [matches] returns and when it raises *)
From Coq Require Import Permutation ZifyBool.
From Verif Require Import Typed Base BaseFacts Match Spec MatchFacts Coll CollFacts CollQuery CollSem CollSem2 SpecColl CollHist CollUniv Loose Conseq ConseqFacts Processors ProcFacts PropsProc PropsRemoved PropsConflict
  Pattern PatternFacts PropsLoose PropsPattern Topo Rules RulesFacts PropsRules PropsEngine PropsTyped Chain SpecChain PropsChain Builder BuilderFacts PropsBuilder PropsKeys Rules Rebulk RebulkFacts PropsRebulk Pipeline PropsPipeline OnceFacts PropsOnce PropsInside Assemble PropsAssemble PropsTypedKeys.
From Coq Require String.
Export Coq.Strings.String.StringSyntax.
Open Scope string_scope.
Open Scope list_scope.
Set Implicit Arguments.
Unset Strict Implicit.
Open Scope Z_scope.

(** ** Specification *)
(** the search for a text ends (C106): something is searched for, or the range is turned round *)
Definition search_ends (lower : pstr -> pstr) (o : string_opts) (input text : pstr) : Prop :=
  let where_ := if so_ignore_case o then lower input else input in
  let first := match so_start o with None => 0 | Some i => if i <? 0 then Z.max 0 (zlen where_ + i) else i end in
  let last := match so_end o with None => zlen where_ | Some j => Z.min (zlen where_) (if j <? 0 then Z.max 0 (zlen where_ + j) else j) end in
  (if so_ignore_case o then lower text else text) <> [] \/ last < first.
(** a result of a function makes a match: its end is not before its start, and a value given by position is not given again *)
Definition good_item (x : fitem) : Prop :=
  match x with
  | FTuple st en v o => st <= en /\ (v <> None -> match o with Some o => mo_value o = None | None => True end)
  | FDict st en o => st <= en
  end.
Definition item_len (x : fitem) : Z := match x with FTuple st en _ _ => en - st | FDict st en _ => en - st end.
(** nothing goes wrong in a search *)
Definition fine (p : popts) (src : psource) (input : pstr) : Prop :=
  match src with
  | SString lower o texts => Forall (search_ends lower o input) texts
  | SRegex repeated rxs => mo_marker (po_kw p) = Some true -> Forall (fun rx => ~ captures_text repeated rx input) rxs
  | SFunctional fs => Forall (fun f => Forall good_item (match f input with FFalsy => [] | FOne x => [x] | FMany l => l end)) fs
  end.
(** the engine of regular expressions is sound *)
Definition sound_engine (src : psource) (input : pstr) : Prop :=
  match src with SRegex _ rxs => Forall (fun rx => engine_ok rx input) rxs | _ => True end.
(** what goes wrong otherwise *)
Definition failure (src : psource) (e : exn) : Prop :=
  match src with
  | SString _ _ _ => e = Diverges
  | SRegex _ _ => e = AssertionError
  | SFunctional _ => e = TypeError \/ e = ValueError
  end.

(** ** One pattern *)
Definition solid (m : mtch) : Prop := m_parent m = None /\ mtrue m = true /\ Forall (fun c => mtrue c = true) (m_children m).
Lemma mtrue_nonempty m : mtrue m = true -> 0 <= mlen m -> nonempty m.
Proof. unfold mtrue, mlen, nonempty. intros H L. destruct (Z.eqb_spec (m_end m - m_start m) 0); [discriminate|lia]. Qed.

Lemma string_total lower p o input t :
  (search_ends lower o input t -> exists ms, string_match lower p o t input = Ok ms)
  /\ (~ search_ends lower o input t -> string_match lower p o t input = Err Diverges).
Proof.
  pose proof (C106_terminates_iff lower (so_ignore_case o) input t (so_start o) (so_end o)) as C. cbv zeta in C.
  unfold string_match, search_ends in *.
  assert (E : forall fuel, find_all_n fuel lower (so_ignore_case o) input t (so_start o) (so_end o)
     = find_all_loop fuel (if so_ignore_case o then lower input else input) (if so_ignore_case o then lower t else t) (so_start o) (so_end o)).
  { intro fuel. unfold find_all_n. destruct (so_ignore_case o); reflexivity. }
  unfold char in *.
  set (where_ := if so_ignore_case o then lower input else input) in *.
  set (sr := if so_ignore_case o then lower t else t) in *. cbv zeta.
  split.
  - intro H. assert (exists l, find_all_n (S (length where_)) lower (so_ignore_case o) input t (so_start o) (so_end o) = Some l) as (l & L).
    { rewrite E. destruct sr as [|x r] eqn:Es.
      - destruct H as [H|H]; [contradiction|]. 
        exists []. cbn [find_all_loop].
        assert (py_find where_ [] (so_start o) (so_end o) = -1) as ->; [|reflexivity].
        { unfold py_find. change (zlen (@nil N)) with 0. rewrite zrange_nil; [reflexivity|].
          unfold find_start, find_end, py_clip. pose proof (zlen_nonneg where_). destruct (so_start o) as [i|], (so_end o) as [j|];
          repeat (match goal with |- context [?a <? 0] => destruct (Z.ltb_spec a 0) | H : context [?a <? 0] |- _ => destruct (Z.ltb_spec a 0) end); lia. }
      - assert (x :: r <> []) as Hne by discriminate. destruct (@find_all_greedy where_ (x :: r) (so_end o) Hne (S (length where_)) (so_start o)) as (l & L1 & _); [|exists l; apply L1; lia].
        destruct (so_start o) as [a|]; unfold py_clip, zlen; [destruct (a <? 0) eqn:?|]; lia. }
    match goal with |- context [find_all_n ?f _ _ _ _ _ _] => change f with (S (length where_)) end. rewrite L. eexists. rewrite keep_truthy_ok; [reflexivity|]. apply Forall_forall. intros m Hm. apply in_map_iff in Hm as (i & <- & _). unfold mlen; simpl. pose proof (zlen_nonneg t). lia.
  - intro H. destruct (find_all_n _ _ _ _ _ _ _) as [l|] eqn:F; [|reflexivity]. exfalso. apply H. apply C. eauto.
Qed.

Lemma re_one_marker p repeated input : mo_marker (po_kw p) = Some true -> forall rx, engine_ok rx input -> forall o, In o (rx_finditer rx input) ->
    re_one p repeated (rx_groups rx) input o = if existsb (fun g => nonempty_span (snd g)) (captures repeated rx o) then Err AssertionError
      else Ok (new_match 0 (fst (oc_span o)) (snd (oc_span o)) (filter_match_kwargs (po_kw p) false) (po_id p) input).
Proof.
  intro HM. intros rx E o Ho. unfold engine_ok in E. rewrite Forall_forall in E. destruct (E o Ho) as (O1 & O2 & O3). unfold re_one.
    set (main := new_match 0 (fst (oc_span o)) (snd (oc_span o)) (filter_match_kwargs (po_kw p) false) (po_id p) input).
    set (child := fun g : option pstr * (Z * Z) => set_parent (set_name (new_match 0 (fst (snd g)) (snd (snd g)) (filter_match_kwargs (po_kw p) true) (po_id p) input)
                                      (match fst g with Some nm => Some nm | None => m_name main end)) (Some (shell main))).
    assert (flat_map (fun g => re_child p input main g repeated) (combine (rx_groups rx) (oc_groups o)) = map child (captures repeated rx o)) as EC.
    { unfold captures. rewrite <- flat_map_map_out. apply flat_map_ext_in'. intros [nm caps] Hin. apply in_combine_r in Hin.
      rewrite Forall_forall in O3. unfold re_child. simpl. rewrite (@group_spans_taken input); auto. rewrite map_map. reflexivity. }
    assert (Forall (fun g => span_ok input (snd g)) (captures repeated rx o)) as OK.
    { apply Forall_forall. intros g Hg. unfold captures in Hg. apply in_flat_map in Hg as ([nm caps] & Hc & Hg). apply in_combine_r in Hc.
      rewrite Forall_forall in O3. specialize (O3 caps Hc). rewrite Forall_forall in O3. apply in_map_iff in Hg as (sp & <- & Hsp). simpl in *.
      apply O3. destruct repeated; auto. destruct (rev caps) eqn:Er; [contradiction|]. destruct Hsp as [<-|[]]. apply in_rev. rewrite Er. now left. }
    rewrite EC. rewrite append_children_marker.
    - rewrite Forall_forall in OK. assert (existsb mtrue (map child (captures repeated rx o)) = existsb (fun g => nonempty_span (snd g)) (captures repeated rx o)) as ->; [|reflexivity].
      clear EC. induction (captures repeated rx o) as [|g l IH]; simpl; [reflexivity|]. rewrite IH by (intros; apply OK; right; assumption). f_equal.
      unfold mtrue, mlen, nonempty_span, child. simpl. destruct (Z.eqb_spec (snd (snd g) - fst (snd g)) 0), (Z.eqb_spec (fst (snd g)) (snd (snd g))); simpl; auto; lia.
    - rewrite Forall_forall in *. intros c Hc. apply in_map_iff in Hc as (g & <- & Hg). destruct (OK g Hg). unfold mlen, child. simpl. lia.
    - apply Forall_forall. intros c Hc. apply in_map_iff in Hc as (g & <- & Hg). unfold child. simpl. now rewrite HM.
Qed.
Lemma re_total p repeated rx input : engine_ok rx input -> (mo_marker (po_kw p) = Some true -> ~ captures_text repeated rx input) ->
  exists ms, re_match p repeated rx input = Ok ms.
Proof.
  intros E N. destruct (mo_marker (po_kw p)) as [[|]|] eqn:HM.
  - specialize (N eq_refl). pose proof (re_one_marker repeated HM E) as One. unfold re_match.
    assert (exists ms, sequence (re_one p repeated (rx_groups rx) input) (rx_finditer rx input) = Ok ms /\ Forall (fun m => 0 <= mlen m) ms) as (ms & -> & L).
    + assert (forall o, In o (rx_finditer rx input) -> existsb (fun g => nonempty_span (snd g)) (captures repeated rx o) = false) as Nn.
      { intros o Ho. apply not_true_iff_false. intro X. apply existsb_exists in X as (g & Hg & Xg). apply N. exists o, g. auto. }
      unfold engine_ok in E. clear N. induction (rx_finditer rx input) as [|o l IH]; cbn [sequence]; [exists []; split; constructor|].
      inversion E; subst. rewrite One, Nn by (left; reflexivity).
      destruct IH as (ms & -> & L); [assumption|intros; apply One; right; assumption|intros; apply Nn; right; assumption|].
      eexists. split; [reflexivity|]. constructor; [|exact L]. unfold mlen. simpl. destruct H1 as [[? ?] _]. lia.
    + rewrite keep_truthy_ok by exact L. eauto.
  - destruct (@C59_regex_occurrences p repeated rx input) as (ms & E1 & _); [now rewrite HM|exact E|eauto].
  - destruct (@C59_regex_occurrences p repeated rx input) as (ms & E1 & _); [now rewrite HM|exact E|eauto].
Qed.

Lemma keep_truthy_err ms : (exists m, In m ms /\ mlen m < 0) -> keep_truthy ms = Err ValueError.
Proof.
  induction ms as [|m r IH]; intros (x & Hx & L); [contradiction|]. cbn [keep_truthy]. unfold mbool. destruct (Z.ltb_spec (mlen m) 0); [reflexivity|].
  destruct Hx as [->|Hx]; [lia|]. rewrite IH; eauto.
Qed.
Lemma functional_one_total p input x :
  match functional_one p input x with
  | Ok m => mlen m = item_len x /\ (0 <= item_len x <-> good_item x)
  | Err e => e = TypeError /\ ~ good_item x
  end.
Proof.
  destruct x as [st en v o|st en o]; cbn [functional_one good_item item_len].
  - destruct v as [v|].
    + destruct o as [o|]; [|cbn; split; [reflexivity|lia || (split; [intro; split; [lia|auto]|intros []; lia])]].
      cbn [mo_update mo_value filter_match_kwargs or_else]. destruct (mo_value o) as [w|] eqn:W; cbn [or_else].
      * split; [reflexivity|]. intros [_ H]. specialize (H ltac:(discriminate)). congruence.
      * unfold mlen; cbn. split; [reflexivity|]. split; [intro; split; [lia|auto]|intros []; lia].
    + unfold mlen; cbn. split; [reflexivity|]. split; [intro; split; [lia|congruence]|intros []; lia].
  - unfold mlen; cbn. split; [reflexivity|]. lia.
Qed.
Lemma functional_total p f input :
  (Forall good_item (match f input with FFalsy => [] | FOne x => [x] | FMany l => l end) -> exists ms, functional_match p f input = Ok ms)
  /\ (~ Forall good_item (match f input with FFalsy => [] | FOne x => [x] | FMany l => l end) -> exists e, functional_match p f input = Err e /\ (e = TypeError \/ e = ValueError)).
Proof.
  unfold functional_match. set (items := match f input with FFalsy => [] | FOne x => [x] | FMany l => l end). clearbody items.
  assert (match sequence (functional_one p input) items with
          | Ok ms => Forall2 (fun x m => mlen m = item_len x /\ (0 <= item_len x <-> good_item x)) items ms
          | Err e => e = TypeError /\ ~ Forall good_item items
          end) as S.
  { induction items as [|x r IH]; cbn [sequence]; [constructor|]. pose proof (functional_one_total p input x) as X. destruct (functional_one p input x) as [m|e].
    - destruct (sequence _ r) as [ms|e]; [constructor; auto|]. destruct IH as [-> N]. split; [reflexivity|]. intro F. inversion F; auto.
    - destruct X as [-> N]. split; [reflexivity|]. intro F. inversion F; auto. }
  destruct (sequence _ items) as [ms|e].
  - split; intro H.
    + rewrite keep_truthy_ok; [eauto|]. induction S as [|x m xs ms [S1 S2] S IH]; constructor; inversion H; subst; [|auto]. rewrite S1. now apply S2.
    + exists ValueError. split; [|auto]. rewrite keep_truthy_err; [reflexivity|].
      induction S as [|x m xs ms [S1 S2] S IH]; [exfalso; apply H; constructor|].
      destruct (Z.ltb_spec (item_len x) 0) as [L|L]; [exists m; split; [left; reflexivity|lia]|].
      destruct IH as (y & Hy & Ly); [intro F; apply H; constructor; [now apply S2|exact F]|]. exists y. split; [right; exact Hy|exact Ly].
  - destruct S as [-> N]. split; [intro; contradiction|]. intros _. exists TypeError. auto.
Qed.
Lemma sequence_total {A B} (f : A -> res B) (P : A -> Prop) (Q : exn -> Prop) : forall l,
  (forall x, In x l -> (P x <-> exists y, f x = Ok y) /\ forall e, f x = Err e -> Q e) ->
  (Forall P l <-> exists ys, sequence f l = Ok ys) /\ forall e, sequence f l = Err e -> Q e.
Proof.
  induction l as [|x r IH]; intro H; cbn [sequence].
  - split; [split; eauto|discriminate].
  - destruct (H x (or_introl eq_refl)) as [H1 H2]. destruct IH as [I1 I2]; [intros; apply H; right; assumption|].
    destruct (f x) as [y|e] eqn:F.
    + destruct (sequence f r) as [ys|e].
      * split; [|discriminate]. split; [eauto|]. intros _. constructor; [apply H1|apply I1]; eauto.
      * split; [|intros e' [= <-]; auto]. split; [|intros (ys & [=])]. intro F'. inversion F'; subst. destruct (proj1 I1 H5) as (ys & [=]).
    + split; [|intros e' [= <-]; auto]. split; [|intros (ys & [=])]. intro F'. inversion F'; subst. destruct (proj1 H1 H4) as (ys & [=]).
Qed.
Lemma run_pattern_total p {A} (subs : list A) match_ n input :
  po_pre p = None -> po_post p = None ->
  (forall sub ms, In sub subs -> match_ sub input = Ok ms -> Forall (fun m => m_parent m = None /\ 0 <= mlen m) ms) ->
  (forall e, sequence (fun sub => match_ sub input) subs = Err e <-> run_pattern p subs match_ n input = Err e)
  /\ ((exists f, sequence (fun sub => match_ sub input) subs = Ok f) <-> exists r, run_pattern p subs match_ n input = Ok r).
Proof.
  intros H1 H2 H.
  assert (forall f, sequence (fun sub => match_ sub input) subs = Ok f -> exists r, run_pattern p subs match_ n input = Ok r) as X.
  { intros f E. apply run_pattern_ok; auto. intros sub Hs.
    assert (exists ms, match_ sub input = Ok ms) as (ms & Em).
    { clear - E Hs. revert f E. induction subs as [|x r IH]; intros f E; [contradiction|]. cbn [sequence] in E. destruct (match_ x input) as [ms|] eqn:Em; [|discriminate].
      destruct Hs as [->|Hs]; [eauto|]. destruct (sequence _ r) as [g|] eqn:Eg; [|discriminate]. eapply IH; eauto. }
    exists ms. split; [exact Em|]. eapply H; eauto. }
  assert (forall e, sequence (fun sub => match_ sub input) subs = Err e -> run_pattern p subs match_ n input = Err e) as Y.
  { intros e E. unfold run_pattern. now rewrite E. }
  destruct (sequence (fun sub => match_ sub input) subs) as [f|e] eqn:E.
  - destruct (X f eq_refl) as (r & Er). split; [intro e; split; [discriminate|congruence]|split; eauto].
  - specialize (Y e eq_refl). split; [intro e'; split; [intros [= <-]; auto|rewrite Y; congruence]|]. split; [intros (f & [=])|intros (r & Er); congruence].
Qed.

Lemma string_shape lower p o t input ms : string_match lower p o t input = Ok ms -> Forall (fun m => m_parent m = None /\ 0 <= mlen m) ms.
Proof.
  unfold string_match. destruct (find_all_n _ _ _ _ _ _ _) as [l|]; [|discriminate]. intro E.
  assert (Forall (fun m => m_parent m = None /\ 0 <= mlen m) (map (fun i => new_match 0 i (i + zlen t) (filter_match_kwargs (po_kw p) false) (po_id p) input) l)) as F.
  { apply Forall_forall. intros m Hm. apply in_map_iff in Hm as (i & <- & _). unfold mlen; simpl. pose proof (zlen_nonneg t). split; [reflexivity|lia]. }
  rewrite keep_truthy_ok in E; [injection E as <-|eapply Forall_impl; [|exact F]; cbv beta; tauto].
  apply Forall_forall. intros m Hm. apply filter_In in Hm as [Hm _]. rewrite Forall_forall in F. auto.
Qed.
Lemma keep_truthy_shape : forall ms ms', keep_truthy ms = Ok ms' -> Forall (fun m => 0 <= mlen m) ms /\ ms' = filter mtrue ms.
Proof.
  induction ms as [|m r IH]; intros ms' E; cbn [keep_truthy] in E; [injection E as <-; auto|].
  unfold mbool in E. destruct (Z.ltb_spec (mlen m) 0); [discriminate|]. destruct (keep_truthy r) as [r'|]; [|discriminate].
  destruct (IH r' eq_refl) as [I1 ->]. injection E as <-. cbn [filter]. fold (mtrue m). split; [constructor; [lia|auto]|]. destruct (mtrue m); reflexivity.
Qed.
Lemma sequence_forall {A B} (f : A -> res B) (P : B -> Prop) : (forall x y, f x = Ok y -> P y) -> forall l ys, sequence f l = Ok ys -> Forall P ys.
Proof.
  intros H. induction l as [|x r IH]; intros ys E; cbn [sequence] in E; [injection E as <-; constructor|].
  destruct (f x) as [y|] eqn:F; [|discriminate]. destruct (sequence f r) as [zs|]; [|discriminate]. injection E as <-. constructor; eauto.
Qed.
Lemma kept_shape ms ms' : Forall (fun m => m_parent m = None) ms -> keep_truthy ms = Ok ms' -> Forall (fun m => m_parent m = None /\ 0 <= mlen m) ms'.
Proof.
  intros F K. apply keep_truthy_shape in K as [L ->]. rewrite Forall_forall in *. intros m Hm. apply filter_In in Hm as [Hm _]. auto.
Qed.
Lemma re_shape p repeated rx input ms : re_match p repeated rx input = Ok ms -> Forall (fun m => m_parent m = None /\ 0 <= mlen m) ms.
Proof.
  unfold re_match. destruct (sequence _ _) as [l|] eqn:S; [|discriminate]. apply kept_shape.
  eapply sequence_forall; [|exact S]. intros o m E. unfold re_one in E. apply append_children_parent in E as [-> _]. reflexivity.
Qed.
Lemma functional_shape p f input ms : functional_match p f input = Ok ms -> Forall (fun m => m_parent m = None /\ 0 <= mlen m) ms.
Proof.
  unfold functional_match. destruct (sequence _ _) as [l|] eqn:S; [|discriminate]. apply kept_shape.
  eapply sequence_forall; [|exact S]. intros [st en v o|st en o] m E; cbn [functional_one] in E; [|injection E as <-; reflexivity].
  destruct v; [destruct (mo_value _); [discriminate|]|]; injection E as <-; reflexivity.
Qed.
Lemma good_item_dec x : {good_item x} + {~ good_item x}.
Proof.
  destruct x as [st en v o|st en o]; cbn [good_item]; [|destruct (Z_le_gt_dec st en); [left|right]; lia].
  destruct (Z_le_gt_dec st en) as [L|L]; [|right; lia]. destruct v as [v|]; [|left; split; [auto|congruence]].
  destruct o as [o|]; [|left; auto]. destruct (mo_value o) eqn:W; [right; intros [_ H]; discriminate H; discriminate|left; auto].
Qed.

(** A pattern without processors: it returns exactly when nothing goes wrong, and raises nothing else *)
Theorem C139_pattern : forall p src n input,
  po_pre p = None -> po_post p = None -> sound_engine src input ->
  (fine p src input <-> exists r, pattern_matches p src n input = Ok r)
  /\ (forall e, pattern_matches p src n input = Err e -> failure src e).
Proof.
  intros p src n input H1 H2 SE. destruct src as [lower o texts|repeated rxs|fs]; cbn [pattern_matches fine failure sound_engine] in *.
  - unfold string_matches. destruct (@run_pattern_total p pstr texts (string_match lower p o) n input H1 H2) as [E1 E2]; [intros; eapply string_shape; eauto|].
    rewrite <- E2. destruct (@sequence_total _ _ (fun t => string_match lower p o t input) (search_ends lower o input) (fun e => e = Diverges) texts) as [T1 T2].
    { intros t _. destruct (string_total lower p o input t) as [S1 S2]. split.
      - split; [exact S1|]. intros (ms & E). unfold search_ends in *. pose proof (C106_terminates_iff lower (so_ignore_case o) input t (so_start o) (so_end o)) as C. cbv zeta in *. apply C.
        unfold string_match in E. destruct (find_all_n _ _ _ _ _ _ _) as [l|] eqn:F; [eauto|discriminate].
      - intros e E. unfold string_match in E. destruct (find_all_n _ _ _ _ _ _ _) as [l|] eqn:F; [|congruence].
        rewrite keep_truthy_ok in E; [discriminate|]. apply Forall_forall. intros m Hm. apply in_map_iff in Hm as (i & <- & _). unfold mlen; simpl. pose proof (zlen_nonneg t). lia. }
    split; [exact T1|]. intros e E. apply E1 in E. auto.
  - unfold re_matches. destruct (@run_pattern_total p regex rxs (re_match p repeated) n input H1 H2) as [E1 E2]; [intros; eapply re_shape; eauto|].
    rewrite <- E2. rewrite Forall_forall in SE.
    destruct (@sequence_total _ _ (fun rx => re_match p repeated rx input) (fun rx => mo_marker (po_kw p) = Some true -> ~ captures_text repeated rx input) (fun e => e = AssertionError) rxs) as [T1 T2].
    { intros rx Hrx. pose proof (SE rx Hrx) as EO. split; [split|].
      - apply re_total; auto.
      - intros (ms & E) HM CT. assert (pattern_matches p (SRegex repeated [rx]) n input = Err AssertionError) as X by (apply C87_regex_groups_refused; auto).
        cbn [pattern_matches] in X. destruct (@run_pattern_total p regex [rx] (re_match p repeated) n input H1 H2) as [Q1 _]; [intros; eapply re_shape; eauto|].
        apply Q1 in X. cbn [sequence] in X. rewrite E in X. discriminate.
      - intros e E. destruct (mo_marker (po_kw p)) as [[|]|] eqn:HM.
        + unfold re_match in E. clear E1 E2. destruct (sequence (re_one p repeated (rx_groups rx) input) (rx_finditer rx input)) as [ms|e'] eqn:S.
          * exfalso. assert (Forall (fun m => 0 <= mlen m) ms) as L; [|rewrite keep_truthy_ok in E by exact L; discriminate].
            pose proof (re_one_marker repeated HM EO) as One. clear E. revert ms S. unfold engine_ok in EO. induction (rx_finditer rx input) as [|oc l IH]; intros ms S; cbn [sequence] in S; [injection S as <-; constructor|].
            rewrite One in S by (left; reflexivity). destruct (existsb _ _); [discriminate|]. destruct (sequence _ l) as [ms'|] eqn:S'; [|discriminate]. injection S as <-.
            inversion EO; subst. constructor; [unfold mlen; cbn; destruct H3 as [[? ?] _]; lia|]. apply IH; [assumption|intros; apply One; right; assumption|reflexivity].
          * injection E as <-. pose proof (re_one_marker repeated HM EO) as One. revert S. clear EO. induction (rx_finditer rx input) as [|oc l IH]; cbn [sequence]; [discriminate|].
            rewrite One by (left; reflexivity). destruct (existsb _ _); [intros [= <-]; reflexivity|]. destruct (sequence _ l); [discriminate|]. intros [= ->]. apply IH; [intros; apply One; right; assumption|reflexivity].
        + destruct (@C59_regex_occurrences p repeated rx input) as (ms & E3 & _); [now rewrite HM|exact EO|congruence].
        + destruct (@C59_regex_occurrences p repeated rx input) as (ms & E3 & _); [now rewrite HM|exact EO|congruence]. }
    split; [|intros e E; apply E1 in E; auto]. rewrite <- T1. split.
    + intro X. apply Forall_forall. intros rx Hrx HM. specialize (X HM). rewrite Forall_forall in X. auto.
    + intros X HM. rewrite Forall_forall in *. intros rx Hrx. auto.
  - unfold functional_matches. destruct (@run_pattern_total p (pstr -> fresult) fs (functional_match p) n input H1 H2) as [E1 E2]; [intros; eapply functional_shape; eauto|].
    rewrite <- E2.
    destruct (@sequence_total _ _ (fun f => functional_match p f input) (fun f => Forall good_item (match f input with FFalsy => [] | FOne x => [x] | FMany l => l end)) (fun e => e = TypeError \/ e = ValueError) fs) as [T1 T2].
    { intros f _. destruct (functional_total p f input) as [F1 F2]. split; [split; [exact F1|]|].
      - intros (ms & E). destruct (Forall_dec good_item good_item_dec (match f input with FFalsy => [] | FOne x => [x] | FMany l => l end)) as [D|D]; [exact D|].
        destruct (F2 D) as (e & Ee & _). congruence.
      - intros e E. destruct (Forall_dec good_item good_item_dec (match f input with FFalsy => [] | FOne x => [x] | FMany l => l end)) as [D|D].
        + destruct (F1 D). congruence.
        + destruct (F2 D) as (e' & Ee & Q). congruence. }
    split; [exact T1|]. intros e E. apply E1 in E. auto.
Qed.

(** ** What a pattern returns is never empty *)
Definition filled (m : mtch) : Prop := nonempty m /\ Forall nonempty (m_children m).
Lemma kept_filled ms ms' : Forall (fun m => Forall nonempty (m_children m)) ms -> keep_truthy ms = Ok ms' -> Forall filled ms'.
Proof.
  intros F K. apply keep_truthy_shape in K as [L ->]. rewrite Forall_forall in *. intros m Hm. apply filter_In in Hm as [Hm T]. split; [apply mtrue_nonempty; auto|auto].
Qed.
Lemma append_children_filled : forall cs main m, append_children main cs = Ok m -> Forall nonempty (m_children main) -> Forall nonempty (m_children m).
Proof.
  induction cs as [|c r IH]; intros main m E F; cbn [append_children] in E; [injection E as <-; exact F|].
  unfold mbool in E. destruct (Z.ltb_spec (mlen c) 0) as [L|L]; [discriminate|]. fold (mtrue c) in E. destruct (mtrue c) eqn:T; [|eapply IH; eauto].
  destruct (m_marker c); [discriminate|]. eapply IH; [exact E|]. cbn [set_children m_children]. apply Forall_app. split; [exact F|].
  constructor; [apply mtrue_nonempty; auto|constructor].
Qed.
Lemma finds_filled p input src fnd : finds p input src fnd -> Forall filled (concat fnd).
Proof.
  assert (forall (A : Type) (f : A -> res (list mtch)) subs, (forall x ms, f x = Ok ms -> Forall filled ms) -> Forall2 (fun x ms => f x = Ok ms) subs fnd -> Forall filled (concat fnd)) as W.
  { intros A f subs H F. induction F; cbn [concat]; [constructor|]. apply Forall_app. split; [eauto|exact IHF]. }
  destruct src as [lower o subs|repeated subs|subs]; cbn [finds]; apply W.
  - intros t ms E. unfold string_match in E. destruct (find_all_n _ _ _ _ _ _ _) as [l|]; [|discriminate]. eapply kept_filled; [|exact E].
    apply Forall_forall. intros m Hm. apply in_map_iff in Hm as (i & <- & _). constructor.
  - intros rx ms E. unfold re_match in E. destruct (sequence _ _) as [l|] eqn:S; [|discriminate]. eapply kept_filled; [|exact E].
    eapply sequence_forall; [|exact S]. intros o m X. unfold re_one in X. eapply append_children_filled; [exact X|constructor].
  - intros f ms E. unfold functional_match in E. destruct (sequence _ _) as [l|] eqn:S; [|discriminate]. eapply kept_filled; [|exact E].
    eapply sequence_forall; [|exact S]. intros [st en v o|st en o] m X; cbn [functional_one] in X; [|injection X as <-; constructor].
    destruct v; [destruct (mo_value _); [discriminate|]|]; injection X as <-; constructor.
Qed.
Lemma returned_nonempty p src n input n' outs raws : no_processor p -> pattern_matches p src n input = Ok (n', (outs, raws)) -> Forall nonempty outs.
Proof.
  intros N H. destruct (returned N H) as (fnd & F & R). apply finds_filled in F. rewrite Forall_forall in F. apply Forall_forall. intros m Hm.
  assert (forall a b, m_span a = m_span b -> nonempty b -> nonempty a) as Sp by (unfold m_span, nonempty; intros a b [= -> ->]; auto).
  destruct (R m Hm) as (o & i & Ho & [(_ & S & _)|(c & P & _ & Hc & S & _)]); destruct (F o Ho) as [F1 F2].
  - eapply Sp; [apply (st_same S)|exact F1].
  - eapply Sp; [apply (st_same S)|]. rewrite Forall_forall in F2. auto.
Qed.

(** ** The default rules *)
(** a conflict solver that answers with a match answers with one of the two it is given *)
Definition loyal (solvers : nat -> mtch -> mtch -> verdict) : Prop := forall f a b x, solvers f a b = VMatch x -> x = a \/ x = b.
Lemma settled_loyal solvers m c x : loyal solvers -> settled solvers m c = VMatch x -> x = m \/ x = c.
Proof.
  intros L. unfold settled, own_answer, longer_stays.
  assert (forall f, m_solver c = Some f -> solvers f c m = VMatch x -> x = m \/ x = c) as L1 by (intros f _ E; apply L in E; tauto).
  assert (forall f, m_solver m = Some f -> solvers f m c = VMatch x -> x = m \/ x = c) as L2 by (intros f _ E; apply L in E; tauto).
  assert (match mlen (initiator m) ?= mlen (initiator c) with Eq => VNothing | Lt => VMatch m | Gt => VMatch c end = VMatch x -> x = m \/ x = c) as L3.
  { destruct (_ ?= _); intros [=]; auto. }
  destruct (m_solver c) as [f|].
  - destruct (solvers f c m) eqn:E; [|discriminate|intros [= ->]; eauto]. destruct (m_solver m) as [g|]; [|exact L3]. destruct (solvers g m c) eqn:E2; [exact L3|discriminate|intros [= ->]; eauto].
  - destruct (m_solver m) as [g|]; [|exact L3]. destruct (solvers g m c) eqn:E2; [exact L3|discriminate|intros [= ->]; eauto].
Qed.
Lemma condemned_total solvers : loyal solvers -> forall ps gone, Forall (fun q => nonempty (fst q) /\ nonempty (snd q)) ps -> condemned solvers gone ps <> None.
Proof.
  intros L. induction ps as [|[m c] r IH]; intros gone F; cbn [condemned]; [discriminate|]. inversion F as [|? ? [N1 N2] F']; subst. cbn [fst snd] in *.
  destruct (settled solvers m c) as [| |x] eqn:E; [apply IH; auto..|]. apply settled_loyal in E; [|exact L].
  unfold nonempty in *. assert (m_start x < m_end x) by (destruct E as [->| ->]; auto).
  destruct (Z.ltb_spec (m_end x) (m_start x)); [lia|]. destruct (_ || _)%bool; [apply IH; auto|].
  destruct (meq x m) eqn:Q1; [apply IH; auto|]. destruct (meq x c) eqn:Q2; [apply IH; auto|].
  destruct E as [->| ->]; rewrite meq_refl in *; discriminate.
Qed.
(** a collection made by calls *)
Definition by_calls (input : pstr) (c : coll) : Prop :=
  exists ops, c = run (empty_coll KMatches (Some input)) ops /\ acceptable KMatches false [] ops.
Lemma meq_nonempty a b : meq a b = true -> nonempty a -> nonempty b.
Proof. rewrite meq_unfold, !andb_true_iff. unfold nonempty. lia. Qed.
Lemma conflict_total solvers perm input ops : loyal solvers -> acceptable KMatches false [] ops -> no_assignment ops ->
  (forall m, In m (list_run [] ops) -> m_private m = false -> nonempty m) ->
  exists c, conflict_rule solvers perm (run (empty_coll KMatches (Some input)) ops) = (c, Ok tt) /\ by_calls input c.
Proof.
  intros L A NA NE. destruct (@reached_ok KMatches (Some input) ops A NA) as (HI & Hd & _). unfold reached in *.
  set (c := run (empty_coll KMatches (Some input)) ops) in *.
  set (confl := fun m => match conf c m with Some r => by_length r | None => [] end).
  assert (forall m, In m (by_length (list_run [] ops)) -> exists r, conf c m = Some r /\ nonempty m /\ forall y, In y r -> nonempty y) as Hc.
  { intros m Hm. apply in_by_length in Hm as [Hm Hp]. pose proof (NE m Hm Hp) as Nm. rewrite <- Hd in Hm.
    pose proof (conflicting_sem HI m) as S. fold (conf c m) in S. destruct (conf c m) as [r|].
    - exists r. split; [reflexivity|]. split; [exact Nm|]. destruct S as (_ & _ & _ & S1 & S2). intros y Hy. destruct (S2 y Hy) as (x & Hx & Q).
      assert (Spec.found x r) as Fx by (exists y; auto). apply (S1 x Hx) in Fx as [(i & Ci & _) _]. eapply meq_nonempty; [exact Q|]. unfold nonempty. unfold covers in Ci. lia.
    - exfalso. exact (S m Hm (meq_refl m) Nm). }
  pose proof (@C115_conflict_rule solvers perm KMatches (Some input) ops (by_length (list_run [] ops)) confl A) as X. cbv zeta in X. fold c in X.
  specialize (X (psf_by_length _)).
  assert (forall m, In m (by_length (list_run [] ops)) -> exists r, snd (step c (OConflicting m)) = RList r /\ public_shortest_first r (confl m)) as Hq.
  { intros m Hm. destruct (Hc m Hm) as (r & Er & _). exists r. rewrite conf_answer, Er. split; [reflexivity|]. unfold confl. rewrite Er. apply psf_by_length. }
  specialize (X Hq). clear Hq.
  destruct (condemned _ _ _) as [gone|] eqn:G.
  - destruct X as (X1 & X2 & _). eexists. split; [exact X1|]. eexists. split; [reflexivity|exact X2].
  - exfalso. revert G. apply condemned_total; [exact L|]. apply Forall_forall. intros [m y] Hi. apply in_flat_map in Hi as (m' & Hm & Hi).
    apply in_map_iff in Hi as (y' & [= -> ->] & Hy). destruct (Hc m Hm) as (r & Er & Nm & Hr). unfold confl in Hy. rewrite Er in Hy. apply in_by_length in Hy as [Hy _]. cbn. auto.
Qed.

(** ** [matches] *)
(** a rule that raises nothing on a collection made by calls and changes it by calls *)
Definition gentle {R} (input : pstr) (bh : behav found R) (u : nat) : Prop :=
  forall f, by_calls input (fd_matches f) -> exists f1 resp, b_when bh u f = (f1, Ok resp) /\ by_calls input (fd_matches f1)
    /\ (b_truthy bh resp = true -> exists f2, b_then bh u f1 resp = (f2, Ok tt) /\ by_calls input (fd_matches f2)).
(** the pattern looks for [src] with the options [p], without processors, and the engine is sound *)
Definition searches {Ctx} (input : pstr) (pt : pat Ctx) (p : popts) (src : psource) : Prop :=
  (forall ctx n, pt_match pt ctx n input = pattern_matches p src n input) /\ no_processor p /\ sound_engine src input.
Lemma patterns_total Ctx (ctx : Ctx) input : forall ps (f : found), c_kind (fd_matches f) = KMatches -> c_kind (fd_markers f) = KMarkers ->
  Forall (fun pt => exists p src, searches input pt p src) ps ->
  (exists f', run_patterns ctx input ps f = Ok f' /\ forall pt p src, In pt ps -> pt_disabled pt ctx = false -> searches input pt p src -> fine p src input)
  \/ (exists e pt, run_patterns ctx input ps f = Err e /\ In pt ps /\ pt_disabled pt ctx = false /\ forall p src, searches input pt p src -> ~ fine p src input /\ failure src e).
Proof.
  induction ps as [|pt ps IH]; intros f K1 K2 F; cbn [run_patterns].
  - left. exists f. split; [reflexivity|]. intros ? ? ? [].
  - inversion F as [|? ? (p & src & S) F']; subst. destruct (pt_disabled pt ctx) eqn:D.
    + destruct (IH f K1 K2 F') as [(f' & E & A)|(e & pt' & E & Hi & X)].
      * left. exists f'. split; [exact E|]. intros pt' p' src' [E0|Hi] D' S'; [congruence|eauto].
      * right. exists e, pt'. split; [exact E|]. split; [right; exact Hi|exact X].
    + assert (forall p src, searches input pt p src -> fine p src input <-> exists r, pt_match pt ctx (fd_next f) input = Ok r) as Fi.
      { intros p' src' (Q1 & (Q2 & Q3 & _) & Q4). rewrite Q1. apply C139_pattern; auto. }
      destruct (pt_match pt ctx (fd_next f) input) as [[n1 [ms raws]]|e] eqn:E.
      * destruct (@put_spec ms (with_next f n1) K1 K2) as (P1 & P2 & P3). cbn [with_next fd_matches fd_markers fd_next fd_keys] in P1, P2, P3. rewrite P1.
        match type of P1 with _ = Ok ?g => destruct (IH g P2 P3 F') as [(f' & E' & A)|(e & pt' & E' & Hi & X)] end.
        -- left. exists f'. split; [exact E'|]. intros pt' p' src' [E0|Hi] D' S'; [subst pt'; apply Fi; eauto|eauto].
        -- right. exists e, pt'. split; [exact E'|]. split; [right; exact Hi|exact X].
      * right. exists e, pt. split; [reflexivity|]. split; [left; reflexivity|]. split; [exact D|]. clear p src S. intros p src S. split.
        -- intro X. apply (Fi p src S) in X as (r & [=]).
        -- destruct S as (Q1 & (Q2 & Q3 & _) & Q4). rewrite Q1 in E. eapply C139_pattern; eauto.
Qed.
Lemma yields_nonempty Ctx (ctx : Ctx) input ps n outs n' : Forall (fun pt => exists p src, searches input pt p src) ps ->
  yields ctx input ps n outs n' -> Forall nonempty (concat outs).
Proof.
  intros F Y. induction Y as [n|pt ps n outs n' D Y IH|pt ps n n1 out raws outs n' D E Y IH]; cbn [concat]; [constructor|inversion F; auto|].
  inversion F as [|? ? (p & src & Q1 & Q2 & Q3) F']; subst. apply Forall_app. split; [|auto]. rewrite Q1 in E. eapply returned_nonempty; eauto.
Qed.

Lemma private_step_total {R} solvers order (user : behav found R) input f : by_calls input (fd_matches f) ->
  exists f' o, execute_rule (with_defaults solvers order user) 1 f = (f', Ok o) /\ by_calls input (fd_matches f').
Proof.
  intros (ops & E & A). destruct (@C102_private_removed KMatches (Some input) ops A) as (X1 & X2 & _). rewrite <- E in X1. unfold private_rule in X1.
  unfold execute_rule. cbn [with_defaults default_behav b_enabled b_when b_then b_truthy].
  destruct (filter m_private (c_del (fd_matches f))) as [|x r] eqn:Ef.
  - exists f, None. split; [reflexivity|]. exists ops. auto.
  - cbn [fd_matches]. rewrite X1. eexists _, _. split; [reflexivity|]. cbn [with_matches fd_matches]. eexists. split; [reflexivity|exact X2].
Qed.
Lemma user_step_total {R} solvers order (user : behav found R) input u f : u <> 0%nat -> u <> 1%nat -> gentle input user u -> by_calls input (fd_matches f) ->
  exists f' o, execute_rule (with_defaults solvers order user) u f = (f', Ok o) /\ by_calls input (fd_matches f').
Proof.
  intros N0 N1 G B. destruct u as [|[|u]]; [congruence..|]. unfold execute_rule. cbn [with_defaults b_enabled b_when b_then b_truthy].
  destruct (b_enabled user (S (S u))); [|eauto]. destruct (G f B) as (f1 & resp & W & B1 & T). rewrite W.
  destruct (b_truthy user resp) eqn:Tr; [|eauto]. destruct (T eq_refl) as (f2 & T2 & B2). rewrite T2. eauto.
Qed.
Lemma users_total {R} solvers order (user : behav found R) input : forall l f, Forall (fun u => u <> 0%nat /\ u <> 1%nat /\ gentle input user u) l -> by_calls input (fd_matches f) ->
  exists f' ret, exec (with_defaults solvers order user) l f = (f', Ok ret) /\ by_calls input (fd_matches f').
Proof.
  induction l as [|u l IH]; intros f F B; cbn [exec]; [eauto|]. inversion F as [|? ? (N0 & N1 & G) F']; subst.
  destruct (@user_step_total R solvers order user input u f N0 N1 G B) as (f1 & o & E1 & B1). rewrite E1. destruct (IH f1 F' B1) as (f2 & ret & E2 & B2). rewrite E2. eauto.
Qed.

Lemma rules_total Ctx R (ctx : Ctx) (r : rb Ctx) env perm solvers order (user : Ctx -> behav found R) input others ord f1 :
  iteration_order perm -> class_prio env -> instances_local env (effective_rules env ctx r) -> an_order order -> loyal solvers ->
  r_prio env 0 = 2048 -> r_prio env 1 = -2048 -> Forall (fun u => -2048 < r_prio env u < 2048) others ->
  Permutation (effective_rules env ctx r) (0 :: 1 :: others)%nat ->
  execute_all_rules env perm recorder (effective_rules env ctx r) [] = (ord, Ok []) ->
  (forall u, In u others -> gentle input (user ctx) u) ->
  run_patterns ctx input (effective_patterns ctx r) (fresh input (effective_keys ctx r)) = Ok f1 ->
  (forall outs n n', yields ctx input (effective_patterns ctx r) n outs n' -> Forall nonempty (concat outs)) ->
  exists f ret, execute_all_rules env perm (with_defaults solvers order (user ctx)) (effective_rules env ctx r) f1 = (f, Ok ret).
Proof.
  intros Hp Hc Hl Ho Ly P0 P1 Hm Hr Er Hu E1 Hy.
  destruct (C67_default_rules_frame Hp Hc Hl Hr P0 P1 Hm Er) as (middle & -> & Pm). apply recorder_schedule in Er as [Er _].
  destruct (@run_patterns_spec Ctx ctx input (effective_patterns ctx r) (fresh input (effective_keys ctx r)) eq_refl eq_refl) as [Q _].
  destruct (Q f1 E1) as (outs & n' & Y & Ef1). cbn [fd_next fresh] in Y. pose proof (Hy _ _ _ Y) as NE. rewrite Forall_forall in NE.
  set (ops := map OAppend (filter not_marker (concat outs))).
  assert (fd_matches f1 = run (empty_coll KMatches (Some input)) ops) as Em by (rewrite Ef1; reflexivity).
  assert (acceptable KMatches false [] ops) as Ac.
  { apply appends_acceptable. apply Forall_forall. intros m Hi. apply filter_In in Hi. tauto. }
  destruct (@conflict_total solvers order input ops Ly Ac (appends_no_assignment _)) as (c & Ec & Bc).
  { unfold ops. rewrite appends_list. intros m Hi _. apply filter_In in Hi as [Hi _]. auto. }
  rewrite <- Em in Ec.
  assert (exists f2 o, execute_rule (with_defaults solvers order (user ctx)) 0 f1 = (f2, Ok o) /\ by_calls input (fd_matches f2)) as (f2 & o & E2 & B2).
  { unfold conflict_rule in Ec. unfold execute_rule. cbn [with_defaults default_behav b_enabled b_when b_then b_truthy].
    destruct (conflict_when solvers (fd_matches f1)) as [c1 [rm|e]] eqn:Ew; [|discriminate]. destruct rm as [|x rm].
    - assert (order [] = []) as O0 by (apply Permutation_nil, Ho). rewrite O0 in Ec. cbn in Ec. injection Ec as ->. eexists _, _. split; [reflexivity|exact Bc].
    - cbn [fd_matches with_matches]. rewrite Ec. eexists _, _. split; [reflexivity|exact Bc]. }
  assert (exists f3 ret, exec (with_defaults solvers order (user ctx)) middle f2 = (f3, Ok ret) /\ by_calls input (fd_matches f3)) as (f3 & ret & E3 & B3).
  { apply users_total; [|exact B2]. apply Forall_forall. intros u Hi. apply (Permutation_in _ Pm) in Hi. rewrite Forall_forall in Hm. specialize (Hm u Hi).
    split; [intros ->; lia|]. split; [intros ->; lia|auto]. }
  destruct (@private_step_total R solvers order (user ctx) input f3 B3) as (f4 & o4 & E4 & B4).
  unfold execute_all_rules. rewrite Er. cbn [exec]. rewrite E2, exec_app, E3. cbn [exec]. rewrite E4. eauto.
Qed.
Theorem C139_matches : forall Ctx R (ctx : Ctx) (r : rb Ctx) env perm solvers order (user : Ctx -> behav found R) isinst input others ord,
  iteration_order perm -> class_prio env -> instances_local env (effective_rules env ctx r) -> an_order order -> loyal solvers ->
  r_prio env 0 = 2048 -> r_prio env 1 = -2048 -> Forall (fun u => -2048 < r_prio env u < 2048) others ->
  Permutation (effective_rules env ctx r) (0 :: 1 :: others)%nat ->
  execute_all_rules env perm recorder (effective_rules env ctx r) [] = (ord, Ok []) ->
  rb_disabled r ctx = false ->
  (forall u, In u others -> gentle input (user ctx) u) ->
  Forall (fun pt => exists p src, searches input pt p src) (effective_patterns ctx r) ->
  let answer := rb_matches env perm (fun c => with_defaults solvers order (user c)) isinst false r ctx input in
  ((exists f, answer = Ok f)
   <-> forall pt p src, In pt (effective_patterns ctx r) -> pt_disabled pt ctx = false -> searches input pt p src -> fine p src input)
  /\ (forall e, answer = Err e ->
        exists pt, In pt (effective_patterns ctx r) /\ pt_disabled pt ctx = false /\ forall p src, searches input pt p src -> ~ fine p src input /\ failure src e).
Proof.
  intros Ctx R ctx r env perm solvers order user isinst input others ord Hp Hc Hl Ho Ly P0 P1 Hm Hr Er D Hu Hs answer.
  assert (answer = match run_patterns ctx input (effective_patterns ctx r) (fresh input (effective_keys ctx r)) with Err e => Err e
                   | Ok f1 => match execute_all_rules env perm (with_defaults solvers order (user ctx)) (effective_rules env ctx r) f1 with (f', Ok _) => Ok f' | (_, Err e) => Err e end end) as Ea.
  { unfold answer, rb_matches, matches_patterns, execute_rules. rewrite D. reflexivity. }
  rewrite Ea. clear answer Ea.
  destruct (@patterns_total Ctx ctx input (effective_patterns ctx r) (fresh input (effective_keys ctx r)) eq_refl eq_refl Hs) as [(f1 & E1 & A)|(e & pt & E1 & I1 & D1 & N1)].
  2:{ rewrite E1. split; [|intros e' [= <-]; exists pt; auto]. split; [intros (f & [=])|]. intro A. exfalso.
      rewrite Forall_forall in Hs. destruct (Hs pt I1) as (p & src & S1). destruct (N1 p src S1) as [N2 _]. apply N2. eapply A; eauto. }
  rewrite E1.
  destruct (@rules_total Ctx R ctx r env perm solvers order user input others ord f1 Hp Hc Hl Ho Ly P0 P1 Hm Hr Er Hu E1) as (f & ret' & Ex).
  { intros outs n n' Y. exact (yields_nonempty Hs Y). }
  rewrite Ex. split; [|discriminate]. split; [intros _; exact A|eauto].
Qed.

(** ** A Rebulk object built by calls, with the default rules *)
(** the call built a pattern (the options it was given could be read) *)
Definition builds (h : heap) (before : list bcall) (key : keyarg) (kw : opts) (what : searched) : Prop :=
  exists h' f' p, add (heap_after h before) (st_factory (bhistory h (map call_op before))) (kind_searched what) key kw = (h', f', Ok p).
(** nothing goes wrong with what was asked for by a call; [get]: the options in force *)
Definition fine_call (lower : pstr -> pstr) (repeated : bool) (h : heap) (get : pstr -> option bval) (what : searched) (input : pstr) : Prop :=
  match what with
  | GString texts => Forall (search_ends lower (StringOpts (int_option (get (s "start"))) (int_option (get (s "end"))) (flag h (get (s "ignore_case")))) input) texts
  | GRegex rxs => flag h (get (s "marker")) = true ->
                  Forall (fun rx => ~ captures_text (match get (s "repeated_captures") with Some v => btruthy h v | None => repeated end) rx input) rxs
  | GFunctional _ => False
  end.
Lemma patterns_from_built W lower captures h : forall mid pre id key kw what after h' f' p,
  add (st_heap (bhistory h (map call_op (pre ++ mid)))) (st_factory (bhistory h (map call_op (pre ++ mid)))) (kind_searched what) key kw = (h', f', Ok p) ->
  exists i, In (assemble W h' i p, source lower captures h' p what) (patterns_from W lower captures (bhistory h (map call_op pre)) id (mid ++ CPattern key kw what :: after)).
Proof.
  induction mid as [|c mid IH]; intros pre id key kw what after h' f' p E; cbn [app patterns_from].
  - rewrite app_nil_r in E. exists id. apply in_or_app. left. cbn [built]. rewrite E. left. reflexivity.
  - assert (X : bstep (bhistory h (map call_op pre)) (call_op c) = bhistory h (map call_op (pre ++ [c]))).
    { rewrite map_app. unfold bhistory. rewrite fold_left_app. reflexivity. }
    rewrite X. destruct (IH (pre ++ [c]) (id + length (built W lower captures (bhistory h (map call_op pre)) id c))%nat key kw what after h' f' p) as (i & Hi); [rewrite <- app_assoc; exact E|].
    exists i. apply in_or_app. right. exact Hi.
Qed.
Lemma default_frame perm : iteration_order perm -> class_prio default_env /\ instances_local default_env default_rules
  /\ execute_all_rules default_env perm recorder default_rules [] = ([0; 1]%nat, Ok []).
Proof.
  intro Hp. split; [|split].
  - unfold class_prio. intros a b. cbn. intros ->. reflexivity.
  - unfold instances_local. cbn. intuition.
  - apply recorder_schedule. rewrite default_schedule by exact Hp. auto.
Qed.
Lemma plain_before cs before c after : plain_calls cs -> cs = before ++ c :: after -> Forall proper_op (map call_op before).
Proof.
  intros Hc E1. assert (forall pre post, before = pre ++ post -> Forall (fun c => proper_op (call_op c)) post) as X.
  { intros pre post. revert pre. induction post as [|d post IH]; intros pre Em; constructor.
    - apply (Hc pre d (post ++ c :: after)). rewrite E1, Em, <- app_assoc. reflexivity.
    - apply (IH (pre ++ [d])). rewrite <- app_assoc. exact Em. }
  rewrite Forall_map. apply (X [] before eq_refl).
Qed.
Lemma call_of_pattern W lower captures h cs before key kw what after h' f' p i input :
  plain_calls cs -> cs = before ++ CPattern key kw what :: after ->
  (forall rxs, what = GRegex rxs -> Forall (fun rx => engine_ok rx input) rxs) ->
  add (heap_after h before) (st_factory (bhistory h (map call_op before))) (kind_searched what) key kw = (h', f', Ok p) ->
  no_processor (assemble W h' i p) /\ sound_engine (source lower captures h' p what) input
  /\ (fine (assemble W h' i p) (source lower captures h' p what) input <-> fine_call lower captures h' (in_force before key kw what) what input)
  /\ (forall e, failure (source lower captures h' p what) e -> e = Diverges \/ e = AssertionError).
Proof.
  intros Hc E1 HE E. destruct (Hc before _ after E1) as [P1 [P2 P3]].
  assert (G : forall k, k <> k_overrides -> k <> k_formatter -> dfind (bp_opts p) k = in_force before key kw what k).
  { intros k A B. apply (wanted_built (plain_before Hc E1) P1 E A). intro X. contradiction. }
  split; [|split; [|split]].
  - apply q_plain. intros k Hk x. rewrite G; [apply P3, Hk|..]; intros ->; cbn in Hk; intuition discriminate.
  - destruct what; cbn [source sound_engine]; auto.
  - destruct what as [texts|rxs|fs]; [| |contradiction (P2 eq_refl)].
    + cbn [source fine fine_call]. rewrite !G by discriminate. reflexivity.
    + cbn [source fine fine_call]. rewrite !G by discriminate.
      assert (mo_marker (po_kw (assemble W h' i p)) = Some true <-> flag h' (in_force before key kw (GRegex rxs) (s "marker")) = true) as Q.
      { assert (mo_marker (po_kw (assemble W h' i p)) = match dfind (bp_opts p) (s "marker") with Some v => Some (btruthy h' v) | None => None end) as -> by (unfold assemble, new_pattern; destruct (ensure_dict _ _), (ensure_dict _ _), (ensure_dict _ _); reflexivity).
        rewrite G by discriminate. unfold flag. destruct (in_force _ _ _ _ _) as [v|]; [|split; discriminate]. split; [intros [= ->]|intros ->]; reflexivity. }
      rewrite Q. reflexivity.
  - destruct what as [texts|rxs|fs]; cbn [source failure]; [auto|auto|contradiction (P2 eq_refl)].
Qed.
Theorem C139_built : forall W lower captures Ctx R (ctx : Ctx) info h cs keys perm solvers order (user : Ctx -> behav found R) isinst input,
  plain_calls cs -> iteration_order perm -> an_order order -> loyal solvers ->
  (forall key kw rxs, In (CPattern key kw (GRegex rxs)) cs -> Forall (fun rx => engine_ok rx input) rxs) ->
  let answer := rb_matches default_env perm (fun c => with_defaults solvers order (user c)) isinst false (rebulk_of W lower captures info h cs default_rules keys) ctx input in
  ((exists f, answer = Ok f)
   <-> forall before key kw what after, cs = before ++ CPattern key kw what :: after -> builds h before key kw what ->
       fine_call lower captures (heap_after h (before ++ [CPattern key kw what])) (in_force before key kw what) what input)
  /\ forall e, answer = Err e -> e = Diverges \/ e = AssertionError.
Proof.
  intros W lower captures Ctx R ctx info h cs keys perm solvers order user isinst input Hc Hp Ho Ly HE answer.
  set (r := rebulk_of W lower captures info h cs default_rules keys : rb Ctx) in *.
  destruct (default_frame Hp) as (D1 & D2 & D3).
  assert (Ho' : forall before key kw what after h' f' p, cs = before ++ CPattern key kw what :: after ->
    add (heap_after h before) (st_factory (bhistory h (map call_op before))) (kind_searched what) key kw = (h', f', Ok p) -> h' = heap_after h (before ++ [CPattern key kw what])).
  { intros before key kw what after h' f' p _ E. unfold heap_after. rewrite map_app. unfold bhistory. rewrite fold_left_app. cbn [map fold_left call_op bstep]. unfold heap_after, bhistory in E. rewrite E. reflexivity. }
  assert (Hpats : forall pt, In pt (effective_patterns ctx r) -> pt_disabled pt ctx = false /\ exists before key kw what after h' f' p i,
     cs = before ++ CPattern key kw what :: after /\ add (heap_after h before) (st_factory (bhistory h (map call_op before))) (kind_searched what) key kw = (h', f', Ok p)
     /\ searches input pt (assemble W h' i p) (source lower captures h' p what)).
  { intros pt Hpt. unfold effective_patterns, r, rebulk_of in Hpt. cbn [rb_patterns rb_children fold_left] in Hpt. apply in_map_iff in Hpt as (q & <- & Hq). split; [reflexivity|].
    unfold patterns_of in Hq. destruct (@patterns_from_call W lower captures h cs [] 0 q Hq) as (mid & key & kw & what & after & h' & f' & bp & i & E1 & E2 & E3 & ->).
    cbn [app] in E2, E3. exists mid, key, kw, what, after, h', f', bp, i. split; [exact E1|]. split; [exact E2|]. split; [reflexivity|].
    destruct (@call_of_pattern W lower captures h cs mid key kw what after h' f' bp i input Hc E1) as (N & S & _); [|exact E2|auto].
    intros rxs Ew. subst what. apply (HE key kw). rewrite E1. apply in_or_app. right. left. reflexivity. }
  assert (HE' : forall before key kw what after, cs = before ++ CPattern key kw what :: after -> forall rxs, what = GRegex rxs -> Forall (fun rx => engine_ok rx input) rxs).
  { intros before key kw what after E1 rxs Ew. subst what. apply (HE key kw). rewrite E1. apply in_or_app. right. left. reflexivity. }
  destruct (@C139_matches Ctx R ctx r default_env perm solvers order user isinst input [] [0; 1]%nat Hp D1 D2 Ho Ly eq_refl eq_refl (Forall_nil _)) as [M1 M2].
  - change (effective_rules default_env ctx r) with default_rules. reflexivity.
  - change (effective_rules default_env ctx r) with default_rules. exact D3.
  - reflexivity.
  - intros u [].
  - apply Forall_forall. intros pt Hpt. destruct (Hpats pt Hpt) as (_ & before & key & kw & what & after & h' & f' & p & i & _ & _ & S). eauto.
  - fold answer in M1, M2. split.
    + rewrite M1. split; intro A.
      * intros before key kw what after E1 (h' & f' & p & E). rewrite <- (Ho' before key kw what after h' f' p E1 E).
        destruct (@patterns_from_built W lower captures h before [] 0 key kw what after h' f' p E) as (i & Hi).
        destruct (@call_of_pattern W lower captures h cs before key kw what after h' f' p i input Hc E1 (HE' _ _ _ _ _ E1) E) as (N & S & Q & _). apply Q.
        eapply (A (Pat (po_id (assemble W h' i p)) (fun _ => false) (fun _ => pattern_matches (assemble W h' i p) (source lower captures h' p what)) info)); [|reflexivity|split; [reflexivity|auto]].
        unfold effective_patterns, r, rebulk_of. cbn [rb_patterns rb_children fold_left]. apply in_map_iff.
        exists (assemble W h' i p, source lower captures h' p what). split; [reflexivity|]. unfold patterns_of. rewrite E1. exact Hi.
      * intros pt p0 src0 Hpt D S0. destruct (Hpats pt Hpt) as (_ & before & key & kw & what & after & h' & f' & p & i & E1 & E & S).
        destruct (@call_of_pattern W lower captures h cs before key kw what after h' f' p i input Hc E1 (HE' _ _ _ _ _ E1) E) as (N & SE & Q & _).
        assert (fine (assemble W h' i p) (source lower captures h' p what) input) as X.
        { apply Q. rewrite (Ho' before key kw what after h' f' p E1 E). eapply A; [exact E1|]. exists h', f', p. exact E. }
        destruct S0 as (T1 & (T2 & T3 & _) & T4). apply (proj1 (@C139_pattern p0 src0 0%nat input T2 T3 T4)). rewrite <- (T1 ctx).
        destruct S as (U1 & (U2 & U3 & _) & U4). rewrite U1. apply C139_pattern; auto.
    + intros e Ee. destruct (M2 e Ee) as (pt & Hpt & _ & X). destruct (Hpats pt Hpt) as (_ & before & key & kw & what & after & h' & f' & p & i & E1 & E & S).
      destruct (X _ _ S) as [_ F0]. eapply call_of_pattern; eauto.
Qed.

(** ** Cases *)
(** string("ab") and regex("(abc)") as an ordinary pattern return; as a marker the expression raises; so does string("") *)
Definition grouped : regex := Regex [None] (fun input => if pstr_eqb input (s "[abc]") then [Occurrence (0, 5) [[(1, 4)]]] else []).
Definition total_calls (marker : bool) (text : pstr) : list bcall :=
  [CPattern NoKey [(s "name", BVal (VStr (s "t")))] (GString [text]); CPattern NoKey [(s "marker", BVal (VBool marker))] (GRegex [grouped])].
Definition total_answer (marker : bool) (text : pstr) : res found :=
  rb_matches default_env (fun l => l) (fun _ : unit => with_defaults (fun _ _ _ => VDefault) (fun l => l) idle) (fun _ _ => true) false
    (rebulk_of some_callables (fun x => x) false no_info (Heap 0 (fun _ => [])) (total_calls marker text) default_rules []) tt (s "[abc]").
Example C139_case :
  (forall marker text, plain_calls (total_calls marker text) /\ forall key kw rxs, In (CPattern key kw (GRegex rxs)) (total_calls marker text) -> Forall (fun rx => engine_ok rx (s "[abc]")) rxs)
  /\ loyal (fun _ _ _ => VDefault) /\ loyal (fun _ a b => if m_start a <? m_start b then VMatch a else VMatch b)
  /\ (forall input, gentle input idle 2)
  /\ match total_answer false (s "b") with Ok f => map m_span (c_del (fd_matches f)) = [(0, 5)] | Err _ => False end
  /\ total_answer true (s "b") = Err AssertionError /\ total_answer false [] = Err Diverges.
Proof.
  split; [|split; [|split; [|split; [|split; [|split]]]]].
  - intros marker text. split.
    + intros before c after E. destruct before as [|c1 [|c2 before]]; try (destruct before; discriminate); injection E; intros; subst.
      * split; [repeat constructor; intros []|]. split; [discriminate|]. intros k Hk x. destruct Hk as [<-|[<-|[<-|[]]]]; vm_compute; discriminate.
      * split; [repeat constructor; intros []|]. split; [discriminate|]. intros k Hk x. destruct Hk as [<-|[<-|[<-|[]]]]; vm_compute; discriminate.
    + intros key kw rxs [H|[H|[]]]; [discriminate|]. injection H as <- <- <-. constructor; [|constructor]. unfold engine_ok. cbn. repeat constructor; cbn; lia.
  - intros f a b x [=].
  - intros f a b x. destruct (m_start a <? m_start b); intros [= ->]; auto.
  - intros input f B. exists f, tt. split; [reflexivity|]. split; [exact B|]. intros _. exists f. auto.
  - vm_compute. reflexivity.
  - vm_compute. reflexivity.
  - vm_compute. reflexivity.
Qed.
Print Assumptions C139_pattern. Print Assumptions C139_matches. Print Assumptions C139_built.
(** The name of a group's match is given once: the options passed beside it have no name (two would be a TypeError) *)
Theorem C139_group_names_given_once : forall kw, mo_name (filter_match_kwargs kw true) = None.
Proof. reflexivity. Qed.
