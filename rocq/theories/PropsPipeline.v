(** * Property C71: the whole of [matches], user rules included *)
From Verif Require Import Base BaseFacts Match Spec MatchFacts Coll CollFacts CollQuery CollSem CollSem2 SpecColl CollHist CollUniv
  Loose PropsLoose PropsColl PropsConseq Conseq ConseqFacts Processors ProcFacts PropsProc Topo TopoFacts Rules RulesFacts PropsRules PropsEngine
  Typed Rebulk RebulkFacts PropsRebulk Pipeline.
From Coq Require Import Permutation ZifyBool.
Set Implicit Arguments.
Unset Strict Implicit.
Open Scope Z_scope.

(** ** Specification *)
(** a collection made by calls (as in C01) that hand over matches of [U] only *)
Definition made_from (input : pstr) (U : list mtch) (c : coll) : Prop :=
  exists ops, c = run (empty_coll KMatches (Some input)) ops /\ acceptable KMatches false [] ops /\ no_assignment ops /\ incl (all_handed ops) U.
(** a rule that changes the matches by calls on the collection only *)
Definition uses_calls {R} (input : pstr) (U : list mtch) (bh : behav found R) (u : nat) : Prop :=
  forall f f1 x, made_from input U (fd_matches f) -> b_when bh u f = (f1, x) -> made_from input U (fd_matches f1)
    /\ forall resp, x = Ok resp -> b_truthy bh resp = true -> made_from input U (fd_matches (fst (b_then bh u f1 resp))).

Lemma acceptable_then k ops0 ops : forall a l, acceptable k a l ops0 -> (forall l a, acceptable k a l ops) -> acceptable k a l (ops0 ++ ops).
Proof. induction ops0 as [|o ops0 IH]; intros a l H H'; simpl in *; [apply H'|]. destruct H as (H1 & H2 & H3). auto. Qed.
Lemma made_more input U c ops : made_from input U c -> (forall l a, acceptable KMatches a l ops) -> no_assignment ops -> incl (all_handed ops) U ->
  made_from input U (run c ops).
Proof.
  intros (ops0 & -> & A & N & I) A' N' I'. exists (ops0 ++ ops). rewrite CollHist.run_app. split; [reflexivity|].
  split; [apply acceptable_then; [exact A | exact A']|]. split.
  - unfold no_assignment in *. rewrite forallb_app, N, N'. reflexivity.
  - unfold all_handed. rewrite flat_map_app. intros m Hm. apply in_app_or in Hm as [Hm|Hm]; [apply I, Hm | apply I', Hm].
Qed.
Lemma made_inv input U c : made_from input U c -> Inv no_ghost c /\ incl (c_del c) U.
Proof.
  intros (ops & -> & A & N & I). destruct (@reached_ok KMatches (Some input) ops A N) as (HI & Hd & _). unfold reached in *. split; [exact HI|].
  rewrite Hd. intros m Hm. apply I. eapply handed_members; eassumption.
Qed.
Lemma made_removes input U c ms : made_from input U c -> made_from input U (fst (drop_ret (remove_then c (Many ms)))).
Proof.
  intro M. destruct (made_inv M) as [HI _]. destruct (@remove_many_ok no_ghost ms c HI) as (c' & E & Ec & _). unfold remove_then, drop_ret. rewrite E. simpl. rewrite Ec.
  clear E; clear Ec; apply made_more; [exact M| | |].
  - induction (taken (c_del c) ms) as [|m l IH]; intros; simpl; [exact I|]. split; [constructor|]. split; [exact I | apply IH].
  - unfold no_assignment. induction (taken (c_del c) ms); simpl; auto.
  - assert (all_handed (map ORemove (taken (c_del c) ms)) = []) as -> by (unfold all_handed; induction (taken (c_del c) ms); simpl; auto). intros m [].
Qed.
Lemma loop_ops solvers ms : forall c rm, exists ops, fst (conflict_loop solvers c rm ms) = run c (map OConflicting ops).
Proof.
  induction ms as [|m ms IH]; intros c rm; simpl; [exists []; reflexivity|].
  destruct (q_conflicting c m) as [c1 [l|e]] eqn:E.
  - destruct (mark_all solvers rm m (by_length l)) as [rm1|e].
    + destruct (IH c1 rm1) as (ops & ->). exists (m :: ops). unfold run. simpl. rewrite E. reflexivity.
    + exists [m]. unfold run. simpl. rewrite E. reflexivity.
  - exists [m]. unfold run. simpl. rewrite E. reflexivity.
Qed.
Lemma made_conflict_when input U solvers c : made_from input U c -> made_from input U (fst (conflict_when solvers c)).
Proof.
  intro M. unfold conflict_when. destruct (@loop_ops solvers (by_length (c_del c)) c []) as (ops & ->). apply made_more; [exact M| | |].
  - induction ops as [|m l IH]; intros; simpl; [exact I|]. split; [constructor|]. split; [exact I | apply IH].
  - unfold no_assignment. induction ops; simpl; auto.
  - assert (all_handed (map OConflicting ops) = []) as -> by (unfold all_handed; induction ops; simpl; auto). intros m [].
Qed.

Section Default.
  Context {R : Type} (solvers : nat -> mtch -> mtch -> verdict) (order : list mtch -> list mtch) (user : behav found R).
  Hypothesis Ho : an_order order.
  Notation bh := (with_defaults solvers order user).
  Lemma solver_considered f f' o : consider bh 0%nat f f' o ->
    exists c, conflict_rule solvers order (fd_matches f) = (c, Ok tt) /\ f' = with_matches f c.
  Proof.
    unfold conflict_rule. intro H. destruct H as [H|f1 resp _ Ew Et|f1 resp f2 _ Ew Et En]; [discriminate|..];
      cbn [with_defaults default_behav b_when b_then b_truthy] in *; destruct (conflict_when solvers (fd_matches f)) as [c1 [rm|e]]; try discriminate; injection Ew as <- <-.
    - destruct rm as [|x rm]; [|discriminate]. assert (order [] = []) as -> by (apply Permutation_nil, Ho). exists c1. split; reflexivity.
    - cbn [fd_matches with_matches] in En. destruct (drop_ret (remove_then c1 (Many (order rm)))) as [c x]. injection En as <- ->. exists c. split; reflexivity.
  Qed.
  Lemma remover_considered f f' o : consider bh 1%nat f f' o ->
    exists c, private_rule (fd_matches f) = (c, Ok tt) /\ f' = with_matches f c.
  Proof.
    unfold private_rule. intro H. destruct H as [H|f1 resp _ Ew Et|f1 resp f2 _ Ew Et En]; [discriminate|..];
      cbn [with_defaults default_behav b_when b_then b_truthy] in *; injection Ew as <- <-.
    - destruct (filter m_private (c_del (fd_matches f))) eqn:E; [|discriminate]. exists (fd_matches f). split; [reflexivity | destruct f; reflexivity].
    - destruct (drop_ret (remove_then (fd_matches f) (Many (filter m_private (c_del (fd_matches f)))))) as [c x]. injection En as <- ->. exists c. split; reflexivity.
  Qed.
  Lemma user_considered input U u f f' o : u <> 0%nat -> u <> 1%nat -> uses_calls input U user u -> made_from input U (fd_matches f) -> consider bh u f f' o ->
    made_from input U (fd_matches f').
  Proof.
    intros N0 N1 Hu M H. destruct u as [|[|u]]; [congruence|congruence|].
    destruct H as [H|f1 resp _ Ew Et|f1 resp f2 _ Ew Et En]; [exact M|..]; cbn [with_defaults b_when b_then] in *;
      destruct (b_when user (S (S u)) f) as [f1' [x|e]] eqn:E; try discriminate; injection Ew as <- <-; destruct (Hu _ _ _ M E) as [M1 T]; [exact M1|].
    specialize (T x eq_refl Et). rewrite En in T. exact T.
  Qed.
End Default.
Lemma consider_all_app {St R} (bh : behav St R) l1 l2 s s' ret : consider_all bh (l1 ++ l2) s s' ret ->
  exists m r1 r2, consider_all bh l1 s m r1 /\ consider_all bh l2 m s' r2 /\ ret = r1 ++ r2.
Proof.
  revert s ret. induction l1 as [|r l1 IH]; intros s ret H; [exists s, [], ret; split; [constructor | auto]|].
  inversion H as [|? ? ? s1 ? ? H1 H2|? ? ? s1 ? resp ret' H1 H2]; subst; destruct (IH _ _ H2) as (m & r1 & r2 & A & B & ->).
  - exists m, r1, r2. split; [eapply all_skip; eassumption | auto].
  - exists m, ((r, resp) :: r1), r2. split; [eapply all_trig; eassumption | auto].
Qed.

(** What a user rule does beside the default ones is what it does by itself. *)
Lemma user_alone R solvers order (user : behav found R) u s s' o : u <> 0%nat -> u <> 1%nat ->
  consider (with_defaults solvers order user) u s s' o -> exists o', consider user u s s' o' /\ o = option_map inr o'.
Proof.
  intros H0 H1 H. destruct u as [|[|u]]; try congruence.
  inversion H as [E|s1 resp E Ew Et|s1 resp s2 E Ew Et En]; subst; cbn in E.
  - exists None. split; [apply not_enabled, E | reflexivity].
  - cbn in Ew. destruct (b_when user (S (S u)) s) as [f' [x|e]] eqn:Eu; [|discriminate]. injection Ew as <- <-. cbn in Et.
    exists None. split; [eapply not_triggered; eassumption | reflexivity].
  - cbn in Ew. destruct (b_when user (S (S u)) s) as [f' [x|e]] eqn:Eu; [|discriminate]. injection Ew as <- <-. cbn in Et, En.
    exists (Some x). split; [eapply triggered; eassumption | reflexivity].
Qed.
Lemma users_alone R solvers order (user : behav found R) l s s' ret : (forall u, In u l -> u <> 0%nat /\ u <> 1%nat) ->
  consider_all (with_defaults solvers order user) l s s' ret -> exists ret', consider_all user l s s' ret'.
Proof.
  intros Hne H. induction H as [s|u l s s1 s2 ret H1 H2 IH|u l s s1 s2 resp ret H1 H2 IH].
  - exists []. constructor.
  - destruct (IH (fun u Hu => Hne u (or_intror Hu))) as (ret' & Hr). destruct (Hne u (or_introl eq_refl)) as [A B].
    destruct (user_alone A B H1) as ([x|] & Hx & E); [discriminate|]. exists ret'. econstructor; eassumption.
  - destruct (IH (fun u Hu => Hne u (or_intror Hu))) as (ret' & Hr). destruct (Hne u (or_introl eq_refl)) as [A B].
    destruct (user_alone A B H1) as ([x|] & Hx & E); [|discriminate]. exists ((u, x) :: ret'). econstructor; eassumption.
Qed.
(** ** C71
    A Rebulk object with the two default rules and user rules of priorities strictly between
    theirs, the rules changing the matches only by calls on the collection with matches of [U],
    [==] matches of [U] being both private or both public.  If [matches] returns, then: the
    patterns were run; the conflict solver was applied to what they found; each user rule was
    considered once on what that left; and the result is what the user rules left without its
    private members, with all its lookups in agreement. *)
Theorem C71_user_rules : forall Ctx R (ctx : Ctx) (r : rb Ctx) env perm solvers order (user : Ctx -> behav found R) isinst check input others f U,
  iteration_order perm -> class_prio env -> instances_local env (effective_rules env ctx r) -> an_order order ->
  r_prio env 0 = 2048 -> r_prio env 1 = -2048 -> Forall (fun u => -2048 < r_prio env u < 2048) others ->
  Permutation (effective_rules env ctx r) (0 :: 1 :: others)%nat ->
  rb_disabled r ctx = false ->
  (forall u, In u others -> uses_calls input U (user ctx) u) ->
  respects_eq_on U m_private ->
  (forall outs n', yields ctx input (effective_patterns ctx r) 0 outs n' -> incl (filter (fun m => negb (m_marker m)) (concat outs)) U) ->
  rb_matches env perm (fun c => with_defaults solvers order (user c)) isinst check r ctx input = Ok f ->
  exists found_ solved edited middle ret c outs n',
    (* the matches the patterns found *)
    yields ctx input (effective_patterns ctx r) 0 outs n'
    /\ fd_matches found_ = run (empty_coll KMatches (Some input)) (map OAppend (filter (fun m => negb (m_marker m)) (concat outs)))
    /\ c_del (fd_matches found_) = filter (fun m => negb (m_marker m)) (concat outs)
    /\ c_del (fd_markers found_) = filter m_marker (concat outs)
    (* the conflict solver *)
    /\ conflict_rule solvers order (fd_matches found_) = (c, Ok tt) /\ solved = with_matches found_ c
    (* the user rules *)
    /\ Permutation middle others
    /\ consider_all (user ctx) middle solved edited ret
    (* the private remover *)
    /\ c_del (fd_matches f) = filter (fun m => negb (m_private m)) (c_del (fd_matches edited))
    /\ fd_markers f = fd_markers edited
    /\ lookups_agree (fd_matches found_) /\ lookups_agree (fd_matches solved) /\ lookups_agree (fd_matches edited) /\ lookups_agree (fd_matches f).
Proof.
  intros Ctx R ctx r env perm solvers order user isinst check input others f U Hp Hc Hl Ho P0 P1 Hm Hr D Hu Hpriv HU E.
  unfold rb_matches, matches_patterns in E. rewrite D in E.
  change {| fd_next := 0; fd_matches := empty_coll KMatches (Some input); fd_markers := empty_coll KMarkers (Some input); fd_keys := effective_keys ctx r |}
    with (fresh input (effective_keys ctx r)) in E.
  destruct (@run_patterns_spec Ctx ctx input (effective_patterns ctx r) (fresh input (effective_keys ctx r)) eq_refl eq_refl) as [A _].
  destruct (run_patterns ctx input (effective_patterns ctx r) (fresh input (effective_keys ctx r))) as [f1|e]; [|discriminate].
  destruct (A f1 eq_refl) as (outs & n' & Y & Ef1). cbn [fd_next fresh] in Y. destruct (stage_del input (effective_keys ctx r) outs n') as (S1 & S2 & S3 & _). rewrite <- Ef1 in S1, S2, S3.
  destruct (if check then check_declared_keys isinst (fd_keys f1) (fd_matches f1) else Ok tt); [|discriminate].
  unfold execute_rules in E. rewrite D in E.
  destruct (execute_all_rules env perm (with_defaults solvers order (user ctx)) (effective_rules env ctx r) f1) as [f' [ret|e]] eqn:Ex; [|discriminate]. injection E as ->.
  destruct (execute_all_rules env perm recorder (effective_rules env ctx r) []) as [ord fin] eqn:Er.
  pose proof (C30_execution Er Ex) as (-> & H).
  destruct (C67_default_rules_frame Hp Hc Hl Hr P0 P1 Hm Er) as (middle & -> & Pm).
  assert (forall u, In u middle -> u <> 0%nat /\ u <> 1%nat) as Hne.
  { intros u Hu'. apply (Permutation_in _ Pm) in Hu'. rewrite Forall_forall in Hm. specialize (Hm u Hu'). split; intros ->; lia. }
  change (0%nat :: middle ++ [1%nat]) with ([0%nat] ++ (middle ++ [1%nat])) in H.
  apply consider_all_app in H as (f2 & r1 & r2 & H1 & H & ->). apply consider_all_app in H as (f3 & r3 & r4 & H2 & H3 & ->).
  assert (exists o, consider (with_defaults solvers order (user ctx)) 0 f1 f2 o) as (o1 & C1).
  { inversion H1 as [|? ? ? ? ? ? X1 X2|? ? ? ? ? ? ? X1 X2]; subst; inversion X2; subst; eauto. }
  assert (exists o, consider (with_defaults solvers order (user ctx)) 1 f3 f o) as (o3 & C3).
  { inversion H3 as [|? ? ? ? ? ? X1 X2|? ? ? ? ? ? ? X1 X2]; subst; inversion X2; subst; eauto. }
  destruct (solver_considered Ho C1) as (c & Ec & Ef2). destruct (remover_considered C3) as (c' & Ec' & Ef).
  (* histories *)
  assert (made_from input U (fd_matches f1)) as M1.
  { exists (map OAppend (filter not_marker (concat outs))). rewrite Ef1. split; [reflexivity|]. split; [|split; [apply appends_no_assignment|]].
    - apply appends_acceptable. apply Forall_forall. intros m Hm'. apply filter_In in Hm'. tauto.
    - rewrite appends_handed. apply (HU outs n' Y). }
  assert (made_from input U (fd_matches f2)) as M2.
  { rewrite Ef2. cbn [fd_matches with_matches]. unfold conflict_rule in Ec. pose proof (@made_conflict_when input U solvers _ M1) as M.
    destruct (conflict_when solvers (fd_matches f1)) as [c1 [rm|e]]; [|discriminate]. cbn [fst] in M.
    pose proof (made_removes (order rm) M) as M'. rewrite Ec in M'. exact M'. }
  assert (made_from input U (fd_matches f3)) as M3.
  { assert (forall u, In u middle -> uses_calls input U (user ctx) u) as Hu' by (intros u Hin; apply Hu; eapply Permutation_in; eassumption).
    clear - H2 M2 Hne Hu'. induction H2 as [s|u l s s1 s2 ret H1 H2 IH|u l s s1 s2 resp ret H1 H2 IH]; [exact M2|..];
      (apply IH; [intros; apply Hne; right; assumption| |intros; apply Hu'; right; assumption]);
      destruct (Hne u (or_introl eq_refl)); eapply user_considered; eauto; apply Hu'; left; reflexivity. }
  destruct (users_alone Hne H2) as (ret' & H2').
  exists f1, f2, f3, middle, ret', c, outs, n'. rewrite Ef.
  destruct (made_inv M3) as [I3 U3]. destruct M3 as (ops3 & E3 & A3 & N3 & HU3).
  destruct (@reached_ok KMatches (Some input) ops3 A3 N3) as (_ & D3 & _). unfold reached in D3. rewrite <- E3 in D3.
  destruct (@C39_private_removed_partial KMatches (Some input) ops3 A3 N3) as (c4 & E4 & D4 & L4).
  { rewrite <- D3. intros x y Hx Hy. apply Hpriv; auto. }
  rewrite <- E3, Ec' in E4. injection E4 as <-. rewrite <- D3 in D4.
  destruct (made_inv M2) as [I2 _].
  split; [exact Y|]. split; [rewrite Ef1; reflexivity|]. split; [exact S1|]. split; [exact S2|]. split; [exact Ec|]. split; [exact Ef2|]. split; [exact Pm|]. split; [exact H2'|].
  split; [exact D4|]. split; [reflexivity|]. split; [exact S3|]. split; [apply Inv_agree, I2|]. split; [apply Inv_agree, I3 | exact L4].
Qed.
(** ** C71, consequence: no private match is returned *)
Corollary C71_no_private_match_returned : forall Ctx R (ctx : Ctx) (r : rb Ctx) env perm solvers order (user : Ctx -> behav found R) isinst check input others f U m,
  iteration_order perm -> class_prio env -> instances_local env (effective_rules env ctx r) -> an_order order ->
  r_prio env 0 = 2048 -> r_prio env 1 = -2048 -> Forall (fun u => -2048 < r_prio env u < 2048) others ->
  Permutation (effective_rules env ctx r) (0 :: 1 :: others)%nat ->
  (forall u, In u others -> uses_calls input U (user ctx) u) ->
  respects_eq_on U m_private ->
  (forall outs n', yields ctx input (effective_patterns ctx r) 0 outs n' -> incl (filter (fun m => negb (m_marker m)) (concat outs)) U) ->
  rb_matches env perm (fun c => with_defaults solvers order (user c)) isinst check r ctx input = Ok f ->
  In m (c_del (fd_matches f)) -> m_private m = false.
Proof.
  intros Ctx R ctx r env perm solvers order user isinst check input others f U m Hp Hc Hl Ho P0 P1 Hm Hr Hu Hpriv HU E Hin.
  destruct (rb_disabled r ctx) eqn:D.
  - unfold rb_matches, matches_patterns, execute_rules in E. rewrite D in E. exfalso.
    destruct check; [|injection E as <-; exact Hin]. unfold check_declared_keys in E. cbn in E. injection E as <-. exact Hin.
  - destruct (C71_user_rules Hp Hc Hl Ho P0 P1 Hm Hr D Hu Hpriv HU E) as (f1 & f2 & f3 & mid & ret & c & outs & n' & _ & _ & _ & _ & _ & _ & _ & _ & Hd & _).
    rewrite Hd in Hin. apply filter_In in Hin as [_ Hin]. now apply negb_true_iff in Hin.
Qed.

(** ** C71, consequence: the rules start from matches without conflicts
    when no match has a solver of its own, no two matches of [U] are [==] and the patterns do
    not return a match twice *)
Corollary C71_rules_start_without_conflicts : forall Ctx R (ctx : Ctx) (r : rb Ctx) env perm solvers order (user : Ctx -> behav found R) isinst check input others f U,
  iteration_order perm -> class_prio env -> instances_local env (effective_rules env ctx r) -> an_order order ->
  r_prio env 0 = 2048 -> r_prio env 1 = -2048 -> Forall (fun u => -2048 < r_prio env u < 2048) others ->
  Permutation (effective_rules env ctx r) (0 :: 1 :: others)%nat ->
  rb_disabled r ctx = false ->
  (forall u, In u others -> uses_calls input U (user ctx) u) ->
  distinct_objects U -> Forall (fun m => m_solver m = None /\ nonempty m) U ->
  (forall outs n', yields ctx input (effective_patterns ctx r) 0 outs n' ->
     incl (filter (fun m => negb (m_marker m)) (concat outs)) U /\ NoDup (filter (fun m => negb (m_marker m)) (concat outs))) ->
  rb_matches env perm (fun c => with_defaults solvers order (user c)) isinst check r ctx input = Ok f ->
  exists solved edited middle ret,
    Permutation middle others /\ consider_all (user ctx) middle solved edited ret
    /\ c_del (fd_matches f) = filter (fun m => negb (m_private m)) (c_del (fd_matches edited))
    /\ forall a b, In a (c_del (fd_matches solved)) -> In b (c_del (fd_matches solved)) -> m_private a = false -> m_private b = false ->
         overlap a b -> mlen (initiator a) = mlen (initiator b).
Proof.
  intros Ctx R ctx r env perm solvers order user isinst check input others f U Hp Hc Hl Ho P0 P1 Hm Hr D Hu Hd Hf HU E.
  assert (respects_eq_on U m_private) as Hpriv by (intros a b Ha Hb Eab; rewrite (Hd a b Ha Hb (or_introl Eab)); reflexivity).
  destruct (C71_user_rules Hp Hc Hl Ho P0 P1 Hm Hr D Hu Hpriv (fun outs n' Y => proj1 (HU outs n' Y)) E)
    as (f1 & f2 & f3 & mid & ret & c & outs & n' & Y & E1 & S1 & _ & Ec & Ef2 & Pm & H2 & Hfin & _ & L1 & _).
  exists f2, f3, mid, ret. split; [exact Pm|]. split; [exact H2|]. split; [exact Hfin|].
  destruct (HU outs n' Y) as [Hin Hnd]. set (ms := filter (fun m => negb (m_marker m)) (concat outs)) in *.
  assert (Lst : list_run [] (map OAppend ms) = ms) by apply appends_list.
  assert (Hh : all_handed (map OAppend ms) = ms) by apply appends_handed.
  rewrite Forall_forall in Hf.
  assert (situation KMatches (map OAppend ms)) as Hs.
  { constructor; rewrite ?Hh, ?Lst.
    - apply appends_acceptable. apply Forall_forall. intros m Hin'. apply filter_In in Hin'. tauto.
    - apply appends_no_assignment.
    - intros a b Ha Hb Eab. apply Hd; auto.
    - intros a b Ha Hb. apply Hpriv; auto.
    - intros m Hin' _. apply Hf, Hin, Hin'. }
  destruct (@C35_conflicts_resolved_partial solvers order KMatches (Some input) (map OAppend ms) Hs) as (c' & E' & _ & G).
  - unfold no_custom_solver. rewrite Hh. apply Forall_forall. intros m Hin'. apply Hf, Hin, Hin'.
  - exact Ho.
  - rewrite Hh. intros a b Ha Hb. apply Hd; auto.
  - rewrite Lst. exact Hnd.
  - rewrite <- E1, Ec in E'. injection E' as <-. rewrite Ef2. exact G.
Qed.

(** ** A concrete case
    A pattern finds a private match, two conflicting ones and another; the user rule 2
    (priority 0) removes the first public match it sees and appends two matches, one private. *)
Definition pl_a := mk_match 1 0 2.
Definition pl_b := mk_match 2 1 5.
Definition pl_c := set_private (mk_match 3 6 8) true.
Definition pl_d := mk_match 4 9 10.
Definition pl_e := mk_match 5 20 22.
Definition pl_f := set_private (mk_match 6 30 31) true.
Definition pl_U := [pl_a; pl_b; pl_c; pl_d; pl_e; pl_f].
Definition pl_pat : pat unit :=
  Pat 0 (fun _ => false) (fun _ n _ => Ok (n, ([pl_a; pl_b; pl_c; pl_d], []))) (PInfo None [] [] false false [] false ShFunctional).
Definition pl_user : behav found mtch :=
  Behav (fun _ => true)
        (fun _ f => (f, match filter (fun m => negb (m_private m)) (c_del (fd_matches f)) with x :: _ => Ok x | [] => Err IndexError end))
        (fun _ f m => (with_matches f (run (fd_matches f) [ORemove m; OAppend pl_e; OAppend pl_f]), Ok tt))
        (fun _ => true).
Definition pl_env : renv := REnv (fun r => r) (fun r => match r with O => 2048 | S O => -2048 | _ => 0 end) (fun _ => []).
Definition pl_rb : rb unit := Rb (fun _ => false) [pl_pat] [0; 1; 2]%nat [] [].
Example C71_case :
  exists f, rb_matches pl_env (fun l => l) (fun _ => with_defaults (fun _ _ _ => VDefault) (fun l => l) pl_user) (fun _ _ => true) true pl_rb tt [] = Ok f
    /\ c_del (fd_matches f) = [pl_d; pl_e].
Proof. eexists. split; vm_compute; reflexivity. Qed.
Example C71_case_hypotheses :
  uses_calls [] pl_U pl_user 2 /\ distinct_objects pl_U /\ Forall (fun m => m_solver m = None /\ nonempty m) pl_U
  /\ instances_local pl_env (effective_rules pl_env tt pl_rb) /\ class_prio pl_env /\ effective_rules pl_env tt pl_rb = [0; 1; 2]%nat
  /\ (forall outs n', yields tt [] (effective_patterns tt pl_rb) 0 outs n' ->
       incl (filter (fun m => negb (m_marker m)) (concat outs)) pl_U /\ NoDup (filter (fun m => negb (m_marker m)) (concat outs))).
Proof.
  split; [|split; [|split; [|split; [|split; [|split]]]]].
  - intros f f1 y M E. split.
    + injection E as <- _. exact M.
    + intros resp _ _. injection E as <- _. change (fst (b_then pl_user 2 f resp)) with (with_matches f (run (fd_matches f) [ORemove resp; OAppend pl_e; OAppend pl_f])).
      cbn [fd_matches with_matches]. apply made_more; [exact M| | |].
      * intros l a. simpl. repeat split; repeat constructor.
      * reflexivity.
      * intros m [<-|[<-|[]]]; simpl; auto 10.
  - intros a b Ha Hb E. simpl in Ha, Hb.
    destruct Ha as [<-|[<-|[<-|[<-|[<-|[<-|[]]]]]]]; destruct Hb as [<-|[<-|[<-|[<-|[<-|[<-|[]]]]]]]; try reflexivity; exfalso; destruct E as [E|E]; discriminate E.
  - repeat constructor; unfold nonempty; simpl; lia.
  - intros a i _ [].
  - intros a b E. simpl in E. subst. reflexivity.
  - reflexivity.
  - intros outs n' Y. inversion Y as [| |p ps n n1 out raws outs0 n0 _ E Y']; subst; [discriminate|]. inversion Y'; subst. injection E as _ <- _. simpl. split.
    + intros m [<-|[<-|[<-|[<-|[]]]]]; unfold pl_U; simpl; auto 10.
    + repeat constructor; simpl; intuition discriminate.
Qed.

Print Assumptions C71_user_rules. Print Assumptions C71_no_private_match_returned. Print Assumptions C71_rules_start_without_conflicts.

(** ** C38 in a call of [matches]: the user rules start from what the solvers of the matches found leave: of two public
    matches in a conflict the solvers settle one is gone, and nothing is gone but what such a conflict says *)
Corollary C38_in_matches : forall Ctx R (ctx : Ctx) (r : rb Ctx) env perm solvers order (user : Ctx -> behav found R) isinst check input others f U,
  iteration_order perm -> class_prio env -> instances_local env (effective_rules env ctx r) -> an_order order ->
  r_prio env 0 = 2048 -> r_prio env 1 = -2048 -> Forall (fun u => -2048 < r_prio env u < 2048) others ->
  Permutation (effective_rules env ctx r) (0 :: 1 :: others)%nat ->
  rb_disabled r ctx = false ->
  (forall u, In u others -> uses_calls input U (user ctx) u) ->
  well_behaved solvers -> distinct_objects U -> Forall nonempty U ->
  (forall outs n', yields ctx input (effective_patterns ctx r) 0 outs n' ->
     incl (filter (fun m => negb (m_marker m)) (concat outs)) U /\ NoDup (filter (fun m => negb (m_marker m)) (concat outs))) ->
  rb_matches env perm (fun c => with_defaults solvers order (user c)) isinst check r ctx input = Ok f ->
  exists outs n' solved edited middle ret,
    yields ctx input (effective_patterns ctx r) 0 outs n'
    /\ Permutation middle others /\ consider_all (user ctx) middle solved edited ret
    /\ c_del (fd_matches f) = filter (fun m => negb (m_private m)) (c_del (fd_matches edited))
    /\ let l := filter (fun m => negb (m_marker m)) (concat outs) in let rest := c_del (fd_matches solved) in
       sublist rest l
       /\ (forall m x y, In m l -> In y l -> m_private m = false -> m_private y = false -> overlap m y -> m <> y ->
             settled solvers m y = VMatch x -> ~ (In m rest /\ In y rest))
       /\ (forall x, In x l -> ~ In x rest ->
             m_private x = false
             /\ exists y, In y l /\ m_private y = false /\ overlap x y /\ x <> y
                  /\ (settled solvers x y = VMatch x \/ settled solvers y x = VMatch x)).
Proof.
  intros Ctx R ctx r env perm solvers order user isinst check input others f U Hp Hc Hl Ho P0 P1 Hm Hr D Hu Hw Hd Hf HU E.
  assert (respects_eq_on U m_private) as Hpriv by (intros a b Ha Hb Eab; rewrite (Hd a b Ha Hb (or_introl Eab)); reflexivity).
  destruct (C71_user_rules Hp Hc Hl Ho P0 P1 Hm Hr D Hu Hpriv (fun outs n' Y => proj1 (HU outs n' Y)) E)
    as (f1 & f2 & f3 & mid & ret & c & outs & n' & Y & E1 & S1 & _ & Ec & Ef2 & Pm & H2 & Hfin & _ & L1 & _).
  exists outs, n', f2, f3, mid, ret. split; [exact Y|]. split; [exact Pm|]. split; [exact H2|]. split; [exact Hfin|].
  destruct (HU outs n' Y) as [Hin Hnd]. set (ms := filter (fun m => negb (m_marker m)) (concat outs)) in *.
  assert (Lst : list_run [] (map OAppend ms) = ms) by apply appends_list.
  assert (Hh : all_handed (map OAppend ms) = ms) by apply appends_handed.
  rewrite Forall_forall in Hf.
  assert (situation KMatches (map OAppend ms)) as Hs.
  { constructor; rewrite ?Hh, ?Lst.
    - apply appends_acceptable. apply Forall_forall. intros m Hin'. apply filter_In in Hin'. tauto.
    - apply appends_no_assignment.
    - intros a b Ha Hb Eab. apply Hd; auto.
    - intros a b Ha Hb. apply Hpriv; auto.
    - intros m Hin' _. apply Hf, Hin, Hin'. }
  destruct (@C38_custom_solvers_partial solvers order KMatches (Some input) (map OAppend ms) Hs Hw Ho) as (c' & E' & G1 & _ & G2 & G3).
  - rewrite Hh. intros a b Ha Hb. apply Hd; auto.
  - rewrite Lst. exact Hnd.
  - rewrite <- E1, Ec in E'. injection E' as <-. rewrite Ef2. rewrite Lst in *. cbv zeta. cbn [fd_matches with_matches]. auto.
Qed.
(** so without user rules no two matches returned are in a conflict their solvers settle *)
Corollary C38_returned : forall Ctx R (ctx : Ctx) (r : rb Ctx) env perm solvers order (user : Ctx -> behav found R) isinst check input f U,
  iteration_order perm -> class_prio env -> instances_local env (effective_rules env ctx r) -> an_order order ->
  r_prio env 0 = 2048 -> r_prio env 1 = -2048 -> Permutation (effective_rules env ctx r) [0; 1]%nat ->
  rb_disabled r ctx = false -> well_behaved solvers -> distinct_objects U -> Forall nonempty U ->
  (forall outs n', yields ctx input (effective_patterns ctx r) 0 outs n' ->
     incl (filter (fun m => negb (m_marker m)) (concat outs)) U /\ NoDup (filter (fun m => negb (m_marker m)) (concat outs))) ->
  rb_matches env perm (fun c => with_defaults solvers order (user c)) isinst check r ctx input = Ok f ->
  forall m y x, In m (c_del (fd_matches f)) -> In y (c_del (fd_matches f)) -> overlap m y -> m <> y -> settled solvers m y <> VMatch x.
Proof.
  intros Ctx R ctx r env perm solvers order user isinst check input f U Hp Hc Hl Ho P0 P1 Hr D Hw Hd Hf HU E m y x Im Iy Ov Ne S.
  destruct (C38_in_matches (others := []) Hp Hc Hl Ho P0 P1 (Forall_nil _) Hr D (fun u (H : In u []) => match H with end) Hw Hd Hf HU E)
    as (outs & n' & f2 & f3 & mid & ret & _ & Pm & H2 & Hfin & G1 & G2 & _).
  apply Permutation_sym, Permutation_nil in Pm. subst mid. inversion H2; subst. rewrite Hfin in Im, Iy.
  apply filter_In in Im as [Im Mp]. apply filter_In in Iy as [Iy Yp]. apply negb_true_iff in Mp, Yp.
  apply (G2 m x y); auto; eapply sublist_In; eassumption.
Qed.
(** *** A case: a pattern finds a long match and a short one inside it, the short one with a solver which chooses to drop the other *)
Definition sv_short := Mtch 8 1 2 VNone None [] false false None (Some 0%nat) None None None 0 None None [].
Definition sv_long := mk_match 7 0 5.
Definition sv_solvers (_ : nat) (own other : mtch) : verdict := VMatch other.
Definition sv_rb : rb unit := Rb (fun _ => false) [Pat 0 (fun _ => false) (fun _ n _ => Ok (n, ([sv_long; sv_short], []))) (PInfo None [] [] false false [] false ShFunctional)] [0; 1]%nat [] [].
Definition sv_idle : behav found mtch := Behav (fun _ => true) (fun _ f => (f, Err IndexError)) (fun _ f _ => (f, Ok tt)) (fun _ => true).
Example C38_in_matches_case :
  (exists f, rb_matches pl_env (fun l => l) (fun _ => with_defaults sv_solvers (fun l => l) sv_idle) (fun _ _ => true) true sv_rb tt [] = Ok f /\ c_del (fd_matches f) = [sv_short])
  /\ (exists f, rb_matches pl_env (fun l => l) (fun _ => with_defaults (fun _ _ _ => VDefault) (fun l => l) sv_idle) (fun _ _ => true) true sv_rb tt [] = Ok f /\ c_del (fd_matches f) = [sv_long])
  /\ well_behaved sv_solvers /\ distinct_objects [sv_long; sv_short] /\ Forall nonempty [sv_long; sv_short] /\ overlap sv_long sv_short
  /\ instances_local pl_env (effective_rules pl_env tt sv_rb) /\ effective_rules pl_env tt sv_rb = [0; 1]%nat
  /\ (forall outs n', yields tt [] (effective_patterns tt sv_rb) 0 outs n' ->
       incl (filter (fun m => negb (m_marker m)) (concat outs)) [sv_long; sv_short] /\ NoDup (filter (fun m => negb (m_marker m)) (concat outs))).
Proof.
  split; [eexists; split; vm_compute; reflexivity|]. split; [eexists; split; vm_compute; reflexivity|].
  split; [intros f a b x [= <-]; right; reflexivity|]. split.
  { intros a b Ha Hb E. simpl in Ha, Hb. destruct Ha as [<-|[<-|[]]]; destruct Hb as [<-|[<-|[]]]; try reflexivity; exfalso; destruct E as [E|E]; discriminate E. }
  split; [repeat constructor; unfold nonempty; simpl; lia|]. split; [exists 1; unfold covers; simpl; lia|]. split; [intros a i _ []|]. split; [reflexivity|].
  intros outs n' Y. inversion Y as [| |p ps n n1 out raws outs0 n0 _ E Y']; subst; [discriminate|]. inversion Y'; subst. injection E as _ <- _. simpl. split.
  - intros m [<-|[<-|[]]]; simpl; auto.
  - repeat constructor; simpl; intuition discriminate.
Qed.

Print Assumptions C38_in_matches. Print Assumptions C38_returned.
