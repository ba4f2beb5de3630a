(** * Property C146: what rules that move, rename and tag matches leave as it was found *)
From Verif Require Import Typed PropsTyped Base BaseFacts Match MatchFacts Spec Coll CollFacts CollQuery SpecColl CollHist CollUniv Loose Conseq ConseqFacts Processors ProcFacts Pattern PatternFacts PropsLoose PropsPattern Topo Rules RulesFacts PropsRules Chain SpecChain PropsChain Builder BuilderFacts PropsBuilder PropsKeys Rebulk RebulkFacts PropsRebulk Pipeline SpecMix PropsMix PropsPipeline SpecNest SpecOnce OnceFacts PropsOnce PropsNest SpecInside PropsInside Assemble PropsAssemble PropsTypedKeys PropsFunction SpecMoved PropsMoved PropsParts Fluent PropsFluent Built PropsBuilt Site PropsSite PropsSiteSub PropsTypedSite.
From Coq Require String.
Export Coq.Strings.String.StringSyntax.
Open Scope string_scope.
Open Scope list_scope.
Set Implicit Arguments.
Unset Strict Implicit.
Open Scope Z_scope.

(** ** Specification *)
(** a match with the names and the tags forgotten: its own, those of the matches it is a child of, those of its children *)
Fixpoint unlabelled (m : mtch) : mtch :=
  Mtch (m_id m) (m_start m) (m_end m) (m_lit m) None [] (m_marker m) (m_private m) (m_fmt m) (m_solver m) (m_input m) (m_rawstart m) (m_rawend m) (m_index m) (m_pattern m)
       (match m_parent m with Some p => Some (unlabelled p) | None => None end) (map unlabelled (m_children m)).
(** the same match up to names and tags *)
Definition relabelled (m m' : mtch) : Prop := unlabelled m = unlabelled m'.
(** the matches an event (a call on the collection, or RemoveMatch, AppendMatch, RenameMatch, AppendTags, RemoveTags) is given *)
Definition event_given (e : SpecMix.event) : list mtch := match e with Call o => SpecColl.handed o | Then _ r => responded r end.
(** [f2] is obtained from [f1] by any events on the matches and on the markers, with matches and markers of [f] *)
Definition by_events (f f1 f2 : found) : Prop :=
  exists es es', fd_matches f2 = happened (fd_matches f1) es /\ fd_markers f2 = happened (fd_markers f1) es'
    /\ incl (flat_map event_given es ++ flat_map event_given es') (all_found f).
(** a rule whose [when] and [then] do nothing else; [then] may use what was there when [when] was called, or is there when [then] is called *)
Definition only_moves {R} (bh : behav found R) (u : nat) : Prop :=
  forall f f1 x, b_when bh u f = (f1, x) -> by_events f f f1
    /\ forall resp, x = Ok resp -> b_truthy bh resp = true -> by_events f f1 (fst (b_then bh u f1 resp)) \/ by_events f1 f1 (fst (b_then bh u f1 resp)).
(** the object without its rules and those of its sub-Rebulks *)
Definition without_rules {Ctx} (r : rb Ctx) : rb Ctx :=
  let bare subs r := Rb (rb_disabled r) (rb_patterns r) [] (rb_keys r) subs in
  bare (map (fun sub => bare (rb_children sub) sub) (rb_children r)) r.

(** ** Proofs *)
Lemma unlabelled_name m n : unlabelled (set_name m n) = unlabelled m.
Proof. destruct m; reflexivity. Qed.
Lemma unlabelled_tags m l : unlabelled (set_tags m l) = unlabelled m.
Proof. destruct m; reflexivity. Qed.
Lemma unlabelled_upd id f : (forall m, unlabelled (f m) = unlabelled m) -> forall m, unlabelled (upd id f m) = unlabelled m.
Proof.
  intro Hf. fix IH 1. intros [i st en lit nm tg mk pr fm so inp rs re ix pa [p|] ch].
  - cbn [upd m_parent m_id]. assert (A : unlabelled (set_parent (Mtch i st en lit nm tg mk pr fm so inp rs re ix pa (Some p) ch) (Some (upd id f p)))
      = unlabelled (Mtch i st en lit nm tg mk pr fm so inp rs re ix pa (Some p) ch)).
    { cbn [set_parent unlabelled m_id m_start m_end m_lit m_name m_tags m_marker m_private m_fmt m_solver m_input m_rawstart m_rawend m_index m_pattern m_parent m_children]. rewrite IH. reflexivity. }
    destruct (Nat.eqb _ id); [rewrite Hf|]; exact A.
  - cbn [upd m_parent m_id]. destruct (Nat.eqb i id); [apply Hf|reflexivity].
Qed.
Section Universe.
  Variable U : mtch -> Prop.
  Hypothesis closed : forall m m', unlabelled m = unlabelled m' -> U m -> U m'.
  Definition mild (f : mtch -> mtch) : Prop := forall m, unlabelled (f m) = unlabelled m.
  Lemma closed_upd id f m : mild f -> U m -> U (upd id f m).
  Proof. intros Hf H. apply (closed (m := m)); [symmetry; apply unlabelled_upd, Hf|exact H]. Qed.
  Lemma dget_map {K} `{Eqb K} (u : mtch -> mtch) (d : mdict K) k : dget (map (fun kv => (fst kv, map u (snd kv))) d) k = map u (dget d k).
  Proof. unfold dget. induction d as [|[k' l] d IH]; [reflexivity|]. cbn [map fst snd dfind]. destruct (eqb k k') eqn:E; [reflexivity|exact IH]. Qed.
  Lemma odall_upd {K} `{Eqb K} id f (d : option (mdict K)) : mild f -> odall U d -> odall U (upd_dict (upd id f) d).
  Proof.
    intros Hf. destruct d as [d|]; [|trivial]. cbn [upd_dict odall]. intros A k x. rewrite dget_map. intro Hx. apply in_map_iff in Hx as (y & <- & Hy). apply closed_upd; [exact Hf|exact (A k y Hy)].
  Qed.
  Lemma Uok_assign id f c : mild f -> Uok U c -> Uok U (assign id f c).
  Proof.
    intros Hf (H0 & H1 & H2 & H3 & H4 & H5). unfold assign, Uok. cbn [c_del c_named c_tagged c_starting c_ending c_indexed].
    split; [|repeat split; apply odall_upd; assumption]. rewrite Forall_map. eapply Forall_impl; [|exact H0]. intros a Ha. apply closed_upd; assumption.
  Qed.
  Lemma Uok_remove c m : Uok U c -> Uok U (fst (remove c m)).
  Proof. intro H. apply (Uok_step (o := ORemove m)) in H; [exact H|constructor]. Qed.
  Lemma Uok_append c m : U m -> Uok U c -> Uok U (fst (append c m)).
  Proof. intros Hm H. apply (Uok_step (o := OAppend m)) in H; [exact H|constructor; [exact Hm|constructor]]. Qed.
  Lemma Uok_remove_many ms : forall c, Forall U ms -> Uok U c -> Uok U (fst (remove_many c ms)) /\ forall l, snd (remove_many c ms) = Ok l -> Forall U l.
  Proof.
    induction ms as [|m ms IH]; intros c F H; cbn [remove_many]; [split; [exact H|intros l [= <-]; constructor]|]. inversion F as [|? ? F1 F2]; subst.
    destruct (contains c m); [|apply IH; assumption]. pose proof (@Uok_remove c m H) as H1. destruct (remove c m) as [c1 [[]|e]]; cbn [fst] in H1; [|split; [exact H1|discriminate]].
    destruct (IH c1 F2 H1) as [I1 I2]. destruct (remove_many c1 ms) as [c2 [l|e]]; cbn [fst snd] in *; (split; [exact I1|]); [|discriminate]. intros l' [= <-]. constructor; [exact F1|exact (I2 l eq_refl)].
  Qed.
  Lemma Uok_remove_one c m : U m -> Uok U c -> Uok U (fst (remove_one c m)) /\ forall x, snd (remove_one c m) = Ok (Some x) -> x = m.
  Proof.
    intros Hm H. unfold remove_one. destruct (contains c m); [|split; [exact H|discriminate]]. pose proof (@Uok_remove c m H) as H1. destruct (remove c m) as [c1 [[]|e]]; cbn [fst] in H1; (split; [exact H1|]); [|discriminate].
    intros x [= <-]. reflexivity.
  Qed.
  Lemma Uok_remove_then c r : Forall U (responded r) -> Uok U c -> Uok U (fst (remove_then c r)) /\ forall r', snd (remove_then c r) = Ok (Some r') -> Forall U (responded r').
  Proof.
    intros F H. destruct r as [m|ms]; cbn [remove_then responded] in *.
    - inversion F as [|? ? Hm _]; subst. destruct (@Uok_remove_one c m Hm H) as [A B]. destruct (remove_one c m) as [c1 [[x|]|e]]; cbn [fst snd option_map] in *; (split; [exact A|]); try discriminate.
      intros r' [= <-]. rewrite (B x eq_refl). constructor; [exact Hm|constructor].
    - destruct (@Uok_remove_many ms c F H) as [A B]. destruct (remove_many c ms) as [c1 [l|e]]; cbn [fst snd] in *; (split; [exact A|]); [|discriminate]. intros r' [= <-]. exact (B l eq_refl).
  Qed.
  Lemma mild_name n : mild (fun x => set_name x n).
  Proof. intro m. apply unlabelled_name. Qed.
  Lemma closed_upds f ids m : mild f -> U m -> U (fold_left (fun m id => upd id f m) ids m).
  Proof. intro Hf. revert m. induction ids as [|i ids IH]; intros m Hm; cbn [fold_left]; [exact Hm|]. apply IH, closed_upd; assumption. Qed.
  Lemma Uok_append_many n ms : forall ids c, Forall U ms -> Uok U c -> Uok U (fst (append_many n ids c ms)).
  Proof.
    induction ms as [|m0 ms IH]; intros ids c F H; cbn [append_many]; [exact H|]. inversion F as [|? ? F1 F2]; subst.
    set (m := fold_left _ ids m0). assert (Hm : U m) by (apply closed_upds; [apply mild_name|exact F1]). clearbody m.
    destruct (contains c m); [apply IH; assumption|]. destruct (renames n) as [n'|].
    - assert (H1 : Uok U (assign (m_id m) (fun x => set_name x (Some n')) c)) by (apply Uok_assign; [apply mild_name|exact H]).
      assert (M1 : U (upd (m_id m) (fun x => set_name x (Some n')) m)) by (apply closed_upd; [apply mild_name|exact Hm]).
      pose proof (@Uok_append _ _ M1 H1) as H2. destruct (append _ _) as [c2 [[]|e]]; cbn [fst] in H2; [|exact H2].
      specialize (IH (ids ++ [m_id m]) c2 F2 H2). destruct (append_many n _ c2 ms) as [c3 [l|e]]; exact IH.
    - pose proof (@Uok_append _ _ Hm H) as H2. destruct (append c m) as [c2 [[]|e]]; cbn [fst] in H2; [|exact H2].
      specialize (IH ids c2 F2 H2). destruct (append_many n _ c2 ms) as [c3 [l|e]]; exact IH.
  Qed.
  Lemma Uok_append_one n c m : U m -> Uok U c -> Uok U (fst (append_one n c m)).
  Proof.
    intros Hm H. unfold append_one. destruct (renames n) as [n'|].
    - assert (H1 : Uok U (assign (m_id m) (fun x => set_name x (Some n')) c)) by (apply Uok_assign; [apply mild_name|exact H]).
      assert (M1 : U (upd (m_id m) (fun x => set_name x (Some n')) m)) by (apply closed_upd; [apply mild_name|exact Hm]).
      destruct (contains _ _); [exact H1|]. pose proof (@Uok_append _ _ M1 H1) as H2. destruct (append _ _) as [c2 [[]|e]]; exact H2.
    - destruct (contains _ _); [exact H|]. pose proof (@Uok_append _ _ Hm H) as H2. destruct (append _ _) as [c2 [[]|e]]; exact H2.
  Qed.
  Lemma Uok_append_then n c r : Forall U (responded r) -> Uok U c -> Uok U (fst (append_then n c r)).
  Proof.
    intros F H. destruct r as [m|ms]; cbn [append_then responded drop_ret fst] in *; [inversion F; subst; now apply Uok_append_one|now apply Uok_append_many].
  Qed.
  Lemma Uok_assign_each f ms c : mild f -> Forall U ms -> Uok U c -> Uok U (fst (assign_each f c ms)) /\ Forall U (snd (assign_each f c ms)).
  Proof.
    intro Hf. unfold assign_each. generalize (map m_id ms) as ids. intro ids. revert c ms. induction ids as [|i ids IH]; intros c ms F H; cbn [fold_left fst snd]; [split; assumption|].
    apply IH; [|apply Uok_assign; assumption]. rewrite Forall_map. eapply Forall_impl; [|exact F]. intros a Ha. apply closed_upd; assumption.
  Qed.
  Lemma Uok_modify_then f c r : mild f -> Forall U (responded r) -> Uok U c -> Uok U (fst (modify_then f c r)).
  Proof.
    intros Hf F H. unfold modify_then. destruct (@Uok_remove_then c r F H) as [A B]. destruct (remove_then c r) as [c1 [[r'|]|e]]; cbn [fst snd] in *; try exact A.
    specialize (B r' eq_refl). destruct r' as [m|[|m l]]; [| exact A |].
    - cbn [responded] in B. inversion B as [|? ? Hm _]; subst. destruct (mbool m) as [[]|e]; try exact A. apply Uok_append_then; [cbn [responded]; constructor; [apply closed_upd; assumption|constructor]|apply Uok_assign; assumption].
    - destruct (@Uok_assign_each f (m :: l) c1 Hf B A) as [A2 B2]. destruct (assign_each f c1 (m :: l)) as [c2 l2]. cbn [fst snd] in *. apply Uok_append_then; assumption.
  Qed.
  Lemma Uok_happen c e : Forall U (event_given e) -> Uok U c -> Uok U (fst (happen c e)).
  Proof.
    intros F H. destruct e as [o|a r]; cbn [happen event_given] in *; [apply Uok_step; assumption|]. unfold unit_out. cbn [fst]. destruct a as [|n|n|ts|ts]; cbn [consequence].
    - unfold drop_ret. cbn [fst]. exact (proj1 (@Uok_remove_then c r F H)).
    - apply Uok_append_then; assumption.
    - apply Uok_modify_then; [apply mild_name|assumption|assumption].
    - apply Uok_modify_then; [intro; apply unlabelled_tags|assumption|assumption].
    - apply Uok_modify_then; [intro; apply unlabelled_tags|assumption|assumption].
  Qed.
  Lemma Uok_happened es : forall c, Forall U (flat_map event_given es) -> Uok U c -> Uok U (happened c es).
  Proof.
    induction es as [|e es IH]; intros c F H; [exact H|]. cbn [flat_map] in F. apply Forall_app in F as [F1 F2]. apply (IH (fst (happen c e))); [exact F2|]. apply Uok_happen; assumption.
  Qed.
  Definition Fok (f : found) : Prop := Uok U (fd_matches f) /\ Uok U (fd_markers f).
  Lemma Fok_all f : Fok f -> Forall U (all_found f).
  Proof. intros [(A & _) (B & _)]. unfold all_found. apply Forall_app. split; assumption. Qed.
  Lemma Fok_events f f1 f2 : Fok f -> Fok f1 -> by_events f f1 f2 -> Fok f2.
  Proof.
    intros H H1 (es & es' & E1 & E2 & I). apply Fok_all in H. rewrite Forall_forall in H. destruct H1 as [A B]. unfold Fok. rewrite E1, E2.
    split; (apply Uok_happened; [|assumption]); apply Forall_forall; intros m Hm; apply H, I, in_or_app; [left|right]; exact Hm.
  Qed.
  Lemma Uok_conflict_when solvers c : Uok U c -> Uok U (fst (conflict_when solvers c)).
  Proof.
    intro H. unfold conflict_when. destruct (@loop_ops solvers (by_length (c_del c)) c []) as (ops & ->). apply Uok_run; [|exact H].
    assert (all_handed (map OConflicting ops) = []) as -> by (unfold all_handed; clear; induction ops; cbn; auto). constructor.
  Qed.
  Lemma Uok_drop c ms : Uok U c -> Uok U (fst (drop_ret (remove_then c (Conseq.Many ms)))).
  Proof.
    intro H. unfold drop_ret. cbn [fst remove_then]. assert (forall c, Uok U c -> Uok U (fst (remove_many c ms))) as X.
    { clear. induction ms as [|m ms IH]; intros c H; cbn [remove_many]; [exact H|]. destruct (contains c m); [|apply IH; exact H]. pose proof (@Uok_remove c m H) as H1.
      destruct (remove c m) as [c1 [[]|e]]; cbn [fst] in H1; [|exact H1]. specialize (IH c1 H1). destruct (remove_many c1 ms) as [c2 [l|e]]; exact IH. }
    specialize (X c H). destruct (remove_many c ms) as [c1 [l|e]]; exact X.
  Qed.
  Lemma Fok_considered R solvers order (user : behav found R) u f f' o : (forall u, only_moves user u) -> Fok f ->
    consider (with_defaults solvers order user) u f f' o -> Fok f'.
  Proof.
    intros Hu HF H. destruct u as [|[|u]].
    - destruct H as [H|f1 resp _ Ew Et|f1 resp f2 _ Ew Et En]; [exact HF|..]; cbn [with_defaults default_behav b_when b_then] in *;
        destruct HF as [A B]; pose proof (Uok_conflict_when solvers A) as A1; destruct (conflict_when solvers (fd_matches f)) as [c1 [rm|e]]; try discriminate; injection Ew as <- <-; cbn [fst] in A1;
        [split; assumption|]. cbn [fd_matches with_matches] in En. pose proof (Uok_drop (order rm) A1) as S. destruct (drop_ret (remove_then c1 (Conseq.Many (order rm)))) as [c x]. injection En as <- _. split; assumption.
    - destruct H as [H|f1 resp _ Ew Et|f1 resp f2 _ Ew Et En]; [exact HF|..]; cbn [with_defaults default_behav b_when b_then] in *; injection Ew as <- <-; [exact HF|]. destruct HF as [A B].
      pose proof (Uok_drop (filter m_private (c_del (fd_matches f))) A) as S. destruct (drop_ret (remove_then (fd_matches f) _)) as [c x]. injection En as <- _. split; assumption.
    - destruct H as [H|f1 resp _ Ew Et|f1 resp f2 _ Ew Et En]; [exact HF|..]; cbn [with_defaults b_when b_then] in *;
        destruct (b_when user (S (S u)) f) as [f1' [x|e]] eqn:E; try discriminate; injection Ew as <- <-; destruct (Hu _ _ _ _ E) as [W T]; pose proof (Fok_events HF HF W) as HF1; [exact HF1|].
      specialize (T x eq_refl Et). rewrite En in T. cbn [fst] in T. destruct T as [T|T]; [exact (Fok_events HF HF1 T)|exact (Fok_events HF1 HF1 T)].
  Qed.
End Universe.

Lemma relabelled_same m m' : relabelled m m' ->
  m_id m = m_id m' /\ m_span m = m_span m' /\ m_lit m = m_lit m' /\ m_marker m = m_marker m' /\ m_private m = m_private m' /\ m_fmt m = m_fmt m'
  /\ m_solver m = m_solver m' /\ m_raw m = m_raw m' /\ m_value m = m_value m' /\ m_index m = m_index m' /\ m_pattern m = m_pattern m' /\ m_input m = m_input m'
  /\ match m_parent m, m_parent m' with None, None => True | Some p, Some p' => relabelled p p' | _, _ => False end
  /\ Forall2 relabelled (m_children m) (m_children m').
Proof.
  destruct m as [i st en lit nm tg mk pr fm so inp rs re ix pa p ch]. destruct m' as [i' st' en' lit' nm' tg' mk' pr' fm' so' inp' rs' re' ix' pa' p' ch'].
  intro H. unfold relabelled in H. cbn [unlabelled m_id m_start m_end m_lit m_name m_tags m_marker m_private m_fmt m_solver m_input m_rawstart m_rawend m_index m_pattern m_parent m_children] in H.
  injection H as <- <- <- <- <- <- <- <- <- <- <- <- <- Ep Ec. unfold m_span, m_raw, m_value. cbn [m_id m_start m_end m_lit m_name m_tags m_marker m_private m_fmt m_solver m_input m_rawstart m_rawend m_index m_pattern m_parent m_children].
  repeat (split; [reflexivity|]). split.
  - destruct p as [p|], p' as [p'|]; try discriminate; [injection Ep as Ep; exact Ep|exact Logic.I].
  - revert ch' Ec. induction ch as [|a ch IH]; intros [|b ch'] Ec; try discriminate; constructor; [cbn in Ec; injection Ec as E _; exact E|]. apply IH. cbn in Ec. injection Ec as _ E. exact E.
Qed.
Lemma bare_patterns Ctx (ctx : Ctx) (r : rb Ctx) : effective_patterns ctx (without_rules r) = effective_patterns ctx r.
Proof.
  unfold effective_patterns, without_rules. cbn [rb_patterns rb_children]. generalize (rb_patterns r) as ps. induction (rb_children r) as [|c cs IH]; intro ps; [reflexivity|]. cbn [map fold_left rb_disabled rb_patterns]. apply IH.
Qed.
Lemma bare_keys Ctx (ctx : Ctx) (r : rb Ctx) : effective_keys ctx (without_rules r) = effective_keys ctx r.
Proof.
  unfold effective_keys, without_rules. cbn [rb_keys rb_children]. generalize (rb_keys r) as ps. induction (rb_children r) as [|c cs IH]; intro ps; [reflexivity|]. cbn [map fold_left rb_disabled rb_keys]. apply IH.
Qed.
Lemma bare_rules Ctx (ctx : Ctx) (r : rb Ctx) env : effective_rules env ctx (without_rules r) = [].
Proof.
  unfold effective_rules, without_rules. cbn [rb_rules rb_children]. induction (rb_children r) as [|c cs IH]; [reflexivity|]. cbn [map fold_left rb_disabled rb_rules]. destruct (rb_disabled c ctx); exact IH.
Qed.
Lemma bare_matches Ctx R (ctx : Ctx) (r : rb Ctx) env perm (bh : Ctx -> behav found R) isinst check input :
  rb_matches env perm bh isinst check (without_rules r) ctx input =
  if rb_disabled r ctx then (if check then match check_declared_keys isinst [] (empty_coll KMatches (Some input)) with Err e => Err e | Ok _ => Ok (fresh input []) end else Ok (fresh input []))
  else match run_patterns ctx input (effective_patterns ctx r) (fresh input (effective_keys ctx r)) with
       | Err e => Err e
       | Ok f1 => if check then match check_declared_keys isinst (fd_keys f1) (fd_matches f1) with Err e => Err e | Ok _ => Ok f1 end else Ok f1
       end.
Proof.
  unfold rb_matches, matches_patterns, execute_rules. change (rb_disabled (without_rules r) ctx) with (rb_disabled r ctx). rewrite bare_patterns, bare_keys. destruct (rb_disabled r ctx) eqn:D.
  { unfold fresh. cbn [fd_keys fd_matches]. destruct check; [|reflexivity]. destruct (check_declared_keys _ _ _); reflexivity. }
  change {| fd_next := 0; fd_matches := empty_coll KMatches (Some input); fd_markers := empty_coll KMarkers (Some input); fd_keys := effective_keys ctx r |}
    with (fresh input (effective_keys ctx r)).
  destruct (run_patterns ctx input (effective_patterns ctx r) (fresh input (effective_keys ctx r))) as [f1|e]; [|reflexivity].
  destruct check; [destruct (check_declared_keys _ _ _); [|reflexivity]|]; rewrite bare_rules; unfold execute_all_rules, schedule, sorted_rules; cbn; reflexivity.
Qed.

(** ** Theorems *)
(** Every match and marker returned is one which the same object without rules returns, but for its name and tags (and those of the matches above it) *)
Theorem C146_as_found : forall Ctx R (ctx : Ctx) (r : rb Ctx) env perm solvers order (user : Ctx -> behav found R) isinst check input f m,
  (forall u, only_moves (user ctx) u) ->
  rb_matches env perm (fun c => with_defaults solvers order (user c)) isinst check r ctx input = Ok f -> In m (all_found f) ->
  exists f0 m0, (forall R' env' perm' (bh : Ctx -> behav found R'), rb_matches env' perm' bh isinst check (without_rules r) ctx input = Ok f0)
    /\ In m0 (all_found f0) /\ relabelled m0 m.
Proof.
  intros Ctx R ctx r env perm solvers order user isinst check input f m Hu E Hm.
  unfold rb_matches, matches_patterns, execute_rules in E. destruct (rb_disabled r ctx) eqn:D.
  { destruct (if check then _ else _); [|discriminate]. injection E as <-. destruct Hm. }
  change {| fd_next := 0; fd_matches := empty_coll KMatches (Some input); fd_markers := empty_coll KMarkers (Some input); fd_keys := effective_keys ctx r |}
    with (fresh input (effective_keys ctx r)) in E.
  pose proof (fun R' env' perm' (bh : Ctx -> behav found R') => bare_matches ctx r env' perm' bh isinst check input) as B. rewrite D in B.
  destruct (@run_patterns_spec Ctx ctx input (effective_patterns ctx r) (fresh input (effective_keys ctx r)) eq_refl eq_refl) as [A _].
  destruct (run_patterns ctx input (effective_patterns ctx r) (fresh input (effective_keys ctx r))) as [f1|e]; [|discriminate].
  destruct (A f1 eq_refl) as (outs & n' & Y & Ef1).
  assert (B' : forall R' env' perm' (bh : Ctx -> behav found R'), rb_matches env' perm' bh isinst check (without_rules r) ctx input = Ok f1).
  { intros R' env' perm' bh. rewrite (B R' env' perm' bh). destruct check; [|reflexivity]. destruct (check_declared_keys isinst (fd_keys f1) (fd_matches f1)); [reflexivity|discriminate]. }
  clear B. destruct (if check then check_declared_keys isinst (fd_keys f1) (fd_matches f1) else Ok tt); [|discriminate].
  destruct (execute_all_rules env perm (with_defaults solvers order (user ctx)) (effective_rules env ctx r) f1) as [f' [ret|e]] eqn:Ex; [|discriminate]. injection E as ->.
  destruct (execute_all_rules env perm recorder (effective_rules env ctx r) []) as [ord fin] eqn:Er. pose proof (C30_execution Er Ex) as (-> & H).
  exists f1. set (U := fun m => exists m0, In m0 (all_found f1) /\ relabelled m0 m).
  assert (closed : forall a b, unlabelled a = unlabelled b -> U a -> U b). { intros x y Q (m0 & I0 & R0). exists m0. split; [exact I0|]. unfold relabelled in *. congruence. }
  assert (H0 : Fok U f1).
  { assert (X : forall m, In m (all_found f1) -> U m) by (intros x Hx; exists x; split; [exact Hx|reflexivity]).
    destruct (stage_del input (effective_keys ctx r) outs n') as (S1 & S2 & _). cbn [fd_next fresh] in Ef1. rewrite <- Ef1 in S1, S2. unfold all_found in X. rewrite S1, S2 in X.
    unfold Fok. rewrite Ef1. unfold stage_result, fresh. cbn [fd_matches fd_markers]. split; (apply Uok_run; [|apply Uok_empty]); apply Forall_forall; intros x Hx; apply X, in_or_app.
    - left. unfold all_handed in Hx. apply in_flat_map in Hx as (o & Ho & Hx). apply in_map_iff in Ho as (y & <- & Hy). destruct Hx as [<-|[]]. exact Hy.
    - right. unfold all_handed in Hx. apply in_flat_map in Hx as (o & Ho & Hx). apply in_map_iff in Ho as (y & <- & Hy). destruct Hx as [<-|[]]. exact Hy. }
  assert (HF : Fok U f).
  { clearbody U. clear - H H0 Hu closed. induction H as [s|u l s s1 s2 ret H1 H2 IH|u l s s1 s2 resp ret H1 H2 IH]; [exact H0|..]; apply IH; exact (Fok_considered closed Hu H0 H1). }
  apply Fok_all in HF. rewrite Forall_forall in HF. destruct (HF m Hm) as (m0 & I0 & R0). exists m0. split; [exact B'|]. split; assumption.
Qed.
(** What the relabelled match shares with the one found: all but the name and the tags; so its value is not that of its new name *)
Theorem C146_keeps : forall m m', relabelled m m' ->
  m_id m = m_id m' /\ m_span m = m_span m' /\ m_lit m = m_lit m' /\ m_marker m = m_marker m' /\ m_private m = m_private m' /\ m_fmt m = m_fmt m'
  /\ m_solver m = m_solver m' /\ m_raw m = m_raw m' /\ m_value m = m_value m' /\ m_index m = m_index m' /\ m_pattern m = m_pattern m' /\ m_input m = m_input m'
  /\ match m_parent m, m_parent m' with None, None => True | Some p, Some p' => relabelled p p' | _, _ => False end
  /\ Forall2 relabelled (m_children m) (m_children m').
Proof. exact relabelled_same. Qed.

(** The built-in consequences, applied to matches and markers [when] selects, are such rules; so are calls on the matches in [then] *)
Definition selecting (pick : found -> list mtch) (a : action) : behav found (list mtch) :=
  Behav (fun _ => true) (fun _ f => (f, Ok (pick f)))
        (fun _ f l => (with_matches f (fst (consequence a (fd_matches f) (Conseq.Many l))), snd (consequence a (fd_matches f) (Conseq.Many l))))
        (fun l => match l with [] => false | _ => true end).
Theorem C146_built_in : forall pick a u, (forall f, incl (pick f) (all_found f)) -> only_moves (selecting pick a) u.
Proof.
  intros pick a u Hp f f1 x [= <- <-]. split; [exists [], []; split; [reflexivity|split; [reflexivity|intros z []]]|].
  intros resp [= <-] _. left. exists [Then a (Conseq.Many (pick f))], []. cbn. rewrite !app_nil_r. split; [reflexivity|]. split; [reflexivity|]. exact (Hp f).
Qed.
Theorem C146_calls : forall R (when : nat -> found -> R) truthy (calls : nat -> R -> found -> list op) u,
  (forall r f, incl (flat_map SpecColl.handed (calls u r f)) (all_found f)) ->
  only_moves (Behav (fun _ => true) (fun u f => (f, Ok (when u f))) (fun u f r => (with_matches f (run (fd_matches f) (calls u r f)), Ok tt)) truthy) u.
Proof.
  intros R when truthy calls u Hc f f1 x [= <- <-]. split; [exists [], []; split; [reflexivity|split; [reflexivity|intros z []]]|].
  intros resp _ _. left. exists (map Call (calls u resp f)), []. cbn. rewrite app_nil_r. split; [|split; [reflexivity|]].
  - unfold run, happened. generalize (fd_matches f) as c. induction (calls u resp f) as [|o l IH]; intro c; [reflexivity|]. cbn [map fold_left happen]. apply IH.
  - intros z Hz. apply (Hc resp f). apply in_flat_map in Hz as (e & He & Hz). apply in_map_iff in He as (o & <- & Ho). apply in_flat_map. exists o. split; assumption.
Qed.
(** The matches returned lie inside the input if those the patterns find do (see C121_pattern_partial); and so do their children, and the children of those *)
Lemma below_relabelled m d : below m d -> forall m0, relabelled m0 m -> exists d0, below m0 d0 /\ relabelled d0 d.
Proof.
  induction 1 as [m|m c d Hc B IH]; intros m0 R; [exists m0; split; [constructor|exact R]|].
  destruct (relabelled_same R) as (_ & _ & _ & _ & _ & _ & _ & _ & _ & _ & _ & _ & _ & F).
  assert (exists c0, In c0 (m_children m0) /\ relabelled c0 c) as (c0 & I0 & R0).
  { clear - F Hc. induction F as [|a b l l' H F IH]; [destruct Hc|]. destruct Hc as [<-|Hc]; [exists a; split; [now left|exact H]|]. destruct (IH Hc) as (c0 & I0 & R0). exists c0. split; [now right|exact R0]. }
  destruct (IH c0 R0) as (d0 & B0 & Rd). exists d0. split; [econstructor; eassumption|exact Rd].
Qed.
Theorem C146_inside : forall Ctx R (ctx : Ctx) (r : rb Ctx) env perm solvers order (user : Ctx -> behav found R) isinst check input f,
  (forall p, In p (effective_patterns ctx r) -> exists c, confined c /\ pattern_is p c) ->
  (forall u, only_moves (user ctx) u) ->
  rb_matches env perm (fun c => with_defaults solvers order (user c)) isinst check r ctx input = Ok f ->
  Forall (all_inside input) (all_found f).
Proof.
  intros Ctx R ctx r env perm solvers order user isinst check input f Hp Hu E. apply Forall_forall. intros m Hm d Hd.
  destruct (C146_as_found Hu E Hm) as (f0 & m0 & B & I0 & R0). specialize (B _ env perm (fun _ : Ctx => with_defaults solvers order idle)).
  rewrite <- bare_patterns in Hp. assert (Hs : forall u, stays_inside input idle u) by (intros u g g1 x N [= <- <-]; split; [exact N|intros resp _ _; exact N]).
  pose proof (C121_rebulk_partial (user := fun _ => idle) Hp Hs B) as A. rewrite Forall_forall in A. destruct (below_relabelled Hd R0) as (d0 & B0 & Rd).
  specialize (A m0 I0 d0 B0). destruct (relabelled_same Rd) as (_ & Sp & _ & _ & _ & _ & _ & _ & _ & _ & _ & Si & _). unfold m_span in Sp. injection Sp as S1 S2. unfold lies_in in *. rewrite <- S1, <- S2, <- Si. exact A.
Qed.
(** So a whole program shows in each match returned what it gave, but for the name and the tags *)
Lemma bare_object Ctx g (r : rb Ctx) : object_of g r -> object_of g (without_rules r).
Proof. intros (first & disabled & info & rules & keys & subs & ->). exists first, disabled, info, [], keys, (map (fun sub => Rb (rb_disabled sub) (rb_patterns sub) [] (rb_keys sub) (rb_children sub)) subs). reflexivity. Qed.
Lemma bare_child Ctx g (sub : rb Ctx) : object_of g sub -> object_of g (Rb (rb_disabled sub) (rb_patterns sub) [] (rb_keys sub) (rb_children sub)).
Proof. intros (first & disabled & info & rules & keys & subs & ->). exists first, disabled, info, [], keys, subs. reflexivity. Qed.
Lemma bare_children Ctx gs (r : rb Ctx) : Forall2 (fun h sub => plain h /\ object_of h sub) gs (rb_children r) -> Forall2 (fun h sub => plain h /\ object_of h sub) gs (rb_children (without_rules r)).
Proof.
  unfold without_rules. cbn [rb_children]. induction 1 as [|g sub gs subs [P O] F IH]; cbn [map]; constructor; [|exact IH]. split; [exact P|]. apply bare_child, O.
Qed.
Lemma idle_adds : forall u, adds_nothing idle u.
Proof. intros u f f1 x [= <- <-]. split; [|intros resp _ _]; apply incl_refl. Qed.
Theorem C146_displays : forall Ctx R (ctx : Ctx) (r : rb Ctx) g gs env perm solvers order (user : Ctx -> behav found R) isinst check input f m,
  plain g -> object_of g r -> Forall2 (fun h sub => plain h /\ object_of h sub) gs (rb_children r) ->
  (forall u, only_moves (user ctx) u) ->
  rb_matches env perm (fun c => with_defaults solvers order (user c)) isinst check r ctx input = Ok f -> In m (all_found f) ->
  exists m0, relabelled m0 m
    /\ (shown_by g input m0 \/ exists i h sub, nth_error gs i = Some h /\ nth_error (rb_children r) i = Some sub /\ rb_disabled sub ctx = false /\ shown_by h input m0).
Proof.
  intros Ctx R ctx r g gs env perm solvers order user isinst check input f m P Og F Hu E Hm.
  destruct (C146_as_found Hu E Hm) as (f0 & m0 & B & I0 & R0). exists m0. split; [exact R0|].
  specialize (B _ env perm (fun _ : Ctx => with_defaults solvers order idle)).
  destruct (C135_sub_rebulks (user := fun _ => idle) P (bare_object Og) (bare_children F) idle_adds B I0) as [D|(i & h & sub & Hi & Hs & Hd & D)]; [left; exact D|right].
  unfold without_rules in Hs. cbn [rb_children] in Hs. rewrite nth_error_map in Hs. destruct (nth_error (rb_children r) i) as [sub'|] eqn:Es; [|discriminate]. injection Hs as <-.
  exists i, h, sub'. split; [exact Hi|]. split; [exact Es|]. split; [exact Hd|exact D].
Qed.
(** A match which rules call otherwise keeps the value of its own name: what the converter of the key of that name makes of the raw text *)
Theorem C146_renamed : forall cast obj ks Ctx R (ctx : Ctx) (r : rb Ctx) g env perm solvers order (user : Ctx -> behav found R) isinst check input f m,
  plain g -> keys_first obj ks g -> object_of g r -> rb_children r = [] -> (forall u, only_moves (user ctx) u) ->
  (forall k t, In k ks -> call_formatter (pg_callables g) (VObj (Npos (obj k))) t = converter cast k t) ->
  rb_matches env perm (fun c => with_defaults solvers order (user c)) isinst check r ctx input = Ok f ->
  In m (all_found f) -> m_private m = false -> has_literal m = false ->
  exists m0, relabelled m0 m
    /\ forall x k, m_name m0 = Some x -> x <> [] -> dfind (PropsTypedKeys.declared ks) x = Some k -> m_value m = converter cast k (m_raw m).
Proof.
  intros cast obj ks Ctx R ctx r g env perm solvers order user isinst check input f m P1 HF Og Hc Hu HW E Hm Pm Lm.
  destruct (C146_as_found Hu E Hm) as (f0 & m0 & B & I0 & R0). exists m0. split; [exact R0|]. intros x k N Nx Dk.
  specialize (B _ env perm (fun _ : Ctx => with_defaults solvers order idle)).
  destruct (C146_keeps R0) as (_ & _ & L & _ & Pr & _ & _ & Ra & V & _). rewrite <- V, <- Ra.
  assert (C0 : rb_children (without_rules r) = []) by (unfold without_rules; cbn [rb_children]; rewrite Hc; reflexivity).
  refine (C144_declared_first (user := fun _ => idle) P1 HF (bare_object Og) C0 idle_adds HW B I0 _ _ N Nx Dk); [congruence|]. unfold has_literal in *. congruence.
Qed.

(** ** A case: the program of C144_case with a rule that tags what is called "year" and a rule that calls what is called "title" "year": those keep their values, which are texts;
    a rule that removes the rest. Without the rules the same object returns the matches under their own names *)
Definition named_by (n : pstr) (f : found) : list mtch := filter (name_is n) (c_del (fd_matches f)).
Definition tags_years : behav found (list mtch) := selecting (named_by (s "year")) (Tagging [s "old"]).
Definition titles_years : behav found (list mtch) := selecting (named_by (s "title")) (Renaming (Some (s "year"))).
Definition some_rules : behav found (list mtch) :=
  Behav (fun _ => true) (fun u => match u with 2%nat => b_when tags_years u | _ => b_when titles_years u end)
        (fun u => match u with 2%nat => b_then tags_years u | _ => b_then titles_years u end) (b_truthy tags_years).
Definition relabelling_object : rb unit := object_by typed_program 0 (fun _ => false) no_info [0; 1; 2; 3]%nat (PropsTypedKeys.declared [year; title]) [].
Definition shown_list (r : res found) := match r with Ok f => map (fun m => (m_span m, m_name m, m_tags m, m_value m)) (all_found f) | Err _ => [] end.
Example C146_case : plain typed_program /\ keys_first obj_case [year; title] typed_program /\ object_of typed_program relabelling_object
  /\ (forall u, only_moves some_rules u)
  /\ shown_list (rb_matches default_env (fun l => l) (fun _ => with_defaults (fun _ _ _ => VDefault) (fun l => l) some_rules) isinst_case true relabelling_object tt (s "ab1 x2 cc3"))
     = [((4, 5), None, [], VStr (s "x")); ((5, 6), Some (s "year"), [s "old"], VInt 1); ((9, 10), Some (s "year"), [s "old"], VInt 1);
        ((0, 3), Some (s "year"), [], VStr (s "ab1")); ((7, 9), Some (s "year"), [], VStr (s "cc"))].
Proof.
  destruct C144_case as (P & K & _). split; [exact P|]. split; [exact K|]. split; [repeat eexists|]. split; [|vm_compute; reflexivity].
  assert (I : forall n f, incl (named_by n f) (all_found f)).
  { intros n f m Hm. unfold named_by in Hm. apply filter_In in Hm as [Hm _]. apply in_or_app. left. exact Hm. }
  intros u f f1 x. destruct u as [|[|[|u]]].
  - exact (@C146_built_in _ (Renaming (Some (s "year"))) 0%nat (I (s "title")) f f1 x).
  - exact (@C146_built_in _ (Renaming (Some (s "year"))) 1%nat (I (s "title")) f f1 x).
  - exact (@C146_built_in _ (Tagging [s "old"]) 2%nat (I (s "year")) f f1 x).
  - exact (@C146_built_in _ (Renaming (Some (s "year"))) (S (S (S u))) (I (s "title")) f f1 x).
Qed.
Print Assumptions C146_as_found. Print Assumptions C146_renamed. Print Assumptions C146_case.
