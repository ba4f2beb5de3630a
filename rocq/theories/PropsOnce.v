(** * Property C120: no object is returned twice *)
From Coq Require Import Permutation ZifyBool.
From Coq Require String. Export Coq.Strings.String.StringSyntax.
From Verif Require Import Base BaseFacts Match Spec MatchFacts Coll CollFacts CollFiled SpecColl CollHist CollUniv Loose Conseq ConseqFacts Processors ProcFacts
  Topo Rules RulesFacts PropsRules Pattern PatternFacts PropsPattern Chain Typed Rebulk RebulkFacts PropsRebulk Pipeline PropsPipeline SpecNest SpecOnce OnceFacts.
Set Implicit Arguments.
Unset Strict Implicit.
Open Scope string_scope.
Open Scope list_scope.
Open Scope Z_scope.

(** ** Specification: identities are object identities ([is]) *)
Definition returned_once (ms : list mtch) : Prop := NoDup (map m_id ms).
(** a Rebulk object's pattern is such a tree, whatever the context *)
Definition pattern_is {Ctx} (p : pat Ctx) (c : ctree) : Prop := forall ctx n input, pt_match p ctx n input = tree_matches c n input.
(** a user rule that never makes an object appear twice among matches and markers *)
Definition all_found (f : found) : list mtch := c_del (fd_matches f) ++ c_del (fd_markers f).
Definition repeats_nothing {R} (bh : behav found R) (u : nat) : Prop := forall f f1 x, returned_once (all_found f) -> b_when bh u f = (f1, x) ->
  returned_once (all_found f1) /\ forall resp, x = Ok resp -> b_truthy bh resp = true -> returned_once (all_found (fst (b_then bh u f1 resp))).

(** ** Counter-example: the groups of an expression, inside a chain, inside a chain, all with children=True *)
Definition showing (id : nat) : popts := new_pattern id no_opts DNone DNone DNone true false false false [] [] false false None None None.
Definition hiding (id : nat) : popts := new_pattern id no_opts DNone DNone DNone false false false false [] [] false false None None None.
(** the expression [(a)(b)] on the text "ab" *)
Definition two_groups : regex :=
  Regex [None; None] (fun t => if pstr_eqb t (s "ab") then [Occurrence (0, 2) [[(0, 1)]; [(1, 2)]]] else []).
Definition letters : ctree := CPattern (hiding 3) (SRegex false [two_groups]).
Definition chain_in_chain (outer inner : nat -> popts) : ctree :=
  CChain (outer 1%nat) None [(CChain (inner 2%nat) None [(letters, (1, Some 1, false))], (1, Some 1, false))].
Definition ids_found (c : ctree) : list (nat * (Z * Z)) :=
  match tree_matches c 0%nat (s "ab") with Ok (_, (ms, _)) => map (fun m => (m_id m, m_span m)) ms | Err _ => [] end.
Definition as_pattern (c : ctree) : pat unit := Pat 1 (fun _ => false) (fun _ => tree_matches c) (PInfo None [] [] false false [] false (ShChain [])).
Definition ids_left (c : ctree) : list (nat * (Z * Z)) :=
  match rb_matches default_env (fun l => l) (fun _ => default_behav (fun _ _ _ => VDefault) (fun l => l)) (fun _ _ => true) true (simple [as_pattern c]) tt (s "ab") with
  | Ok f => map (fun m => (m_id m, m_span m)) (all_found f)
  | Err _ => []
  end.
(** [Rebulk().chain(children=True).chain(children=True).regex("(a)(b)")] on "ab" returns both groups twice *)
Theorem C120_nested_children_refuted :
  ids_found (chain_in_chain showing showing) = [(1%nat, (0, 1)); (2%nat, (1, 2)); (1%nat, (0, 1)); (2%nat, (1, 2)); (0%nat, (0, 2))]
  /\ ids_left (chain_in_chain showing showing) = [(1%nat, (0, 1)); (2%nat, (1, 2)); (1%nat, (0, 1)); (2%nat, (1, 2)); (0%nat, (0, 2))].
Proof. split; vm_compute; reflexivity. Qed.

(** ** One pattern, or chain of patterns, or chain of chains that hide their children: the matches returned
    are distinct objects, all of them created by this call. *)
Theorem C120_pattern_partial : forall c n input n' ms raws, flat c -> tree_matches c n input = Ok (n', (ms, raws)) ->
  returned_once ms /\ Forall (fun m => n <= m_id m < n')%nat ms.
Proof.
  intros c n input n' ms raws F H. destruct (flat_once F H) as (A & B & _). split; [exact A|]. rewrite Forall_forall in *. intros m Hm. apply B, in_map, Hm.
Qed.

(** ** Rebulk *)
Lemma remove_sub c m : sublist (c_del (fst (remove c m))) (c_del c).
Proof.
  unfold remove. destruct (seq_index c m) as [i|]; [|apply sublist_refl]. unfold delitem. destruct (py_pos (c_del c) i) as [k|]; [|apply sublist_refl].
  destruct (nth_error (c_del c) k) as [x|]; [|apply sublist_refl]. rewrite remove_match_del. cbn [c_del with_del]. generalize (c_del c) as l. clear.
  induction k as [|k IH]; intros [|y l]; cbn [remove_nth]; try constructor; try apply sublist_refl; apply IH.
Qed.
Lemma remove_many_sub : forall ms c, sublist (c_del (fst (remove_many c ms))) (c_del c).
Proof.
  induction ms as [|m r IH]; intro c; cbn [remove_many]; [apply sublist_refl|]. destruct (contains c m); [|apply IH].
  pose proof (remove_sub c m) as S. destruct (remove c m) as [c1 [[]|e]]; cbn [fst] in *; [|exact S].
  specialize (IH c1). destruct (remove_many c1 r) as [c2 [l|e]]; cbn [fst] in *; eapply sublist_trans; eassumption.
Qed.
Lemma conflict_when_del solvers c : c_del (fst (conflict_when solvers c)) = c_del c.
Proof.
  assert (forall is c ret, c_del (fst (conflicting_loop is c ret)) = c_del c) as A.
  { induction is as [|i is IH]; intros c0 ret; cbn [conflicting_loop]; [reflexivity|]. unfold q_at_index. rewrite IH. reflexivity. }
  unfold conflict_when. generalize (by_length (c_del c)) as ms. generalize (@nil mtch) as rm. intros rm ms. revert c rm. induction ms as [|m r IH]; intros c rm; cbn [conflict_loop]; [reflexivity|].
  unfold q_conflicting. specialize (A (zrange (m_start m) (m_end m)) c []). destruct (conflicting_loop _ c []) as [c1 ret]. cbn [fst] in A.
  destruct (remove_first (meq m) ret) as [l|]; [|exact A]. destruct (mark_all _ _ _ _) as [rm1|]; [|exact A]. now rewrite IH.
Qed.
Lemma drop_then_sub c ms : sublist (c_del (fst (drop_ret (remove_then c (Many ms))))) (c_del c).
Proof. pose proof (remove_many_sub ms c) as S. unfold drop_ret, remove_then. destruct (remove_many c ms) as [c1 [l|e]]; exact S. Qed.
Lemma fewer_once (f f' : found) : sublist (c_del (fd_matches f')) (c_del (fd_matches f)) -> fd_markers f' = fd_markers f ->
  returned_once (all_found f) -> returned_once (all_found f').
Proof.
  intros S E N. unfold returned_once, all_found in *. rewrite E. eapply sublist_NoDup; [|exact N]. rewrite !map_app. apply sublist_app; [now apply sublist_map|apply sublist_refl].
Qed.
Lemma considered_once R solvers order (user : behav found R) u f f' o : (forall u, repeats_nothing user u) ->
  consider (with_defaults solvers order user) u f f' o -> returned_once (all_found f) -> returned_once (all_found f').
Proof.
  intros Hu H N. destruct u as [|[|u]].
  - destruct H as [H|f1 resp _ Ew Et|f1 resp f2 _ Ew Et En]; [exact N|..]; cbn [with_defaults default_behav b_when b_then] in *;
      pose proof (conflict_when_del solvers (fd_matches f)) as D; destruct (conflict_when solvers (fd_matches f)) as [c1 [rm|e]]; try discriminate; injection Ew as <- <-; cbn [fst] in D.
    + apply (@fewer_once f); [|reflexivity|exact N]. cbn [fd_matches with_matches]. rewrite D. apply sublist_refl.
    + cbn [fd_matches with_matches] in En. pose proof (drop_then_sub c1 (order rm)) as S. destruct (drop_ret (remove_then c1 (Many (order rm)))) as [c x]. injection En as <- _.
      apply (@fewer_once f); [|reflexivity|exact N]. cbn [fd_matches with_matches fst] in *. rewrite <- D. exact S.
  - destruct H as [H|f1 resp _ Ew Et|f1 resp f2 _ Ew Et En]; [exact N|..]; cbn [with_defaults default_behav b_when b_then] in *; injection Ew as <- <-; [exact N|].
    pose proof (drop_then_sub (fd_matches f) (filter m_private (c_del (fd_matches f)))) as S.
    destruct (drop_ret (remove_then (fd_matches f) _)) as [c x]. injection En as <- _. apply (@fewer_once f); [|reflexivity|exact N]. exact S.
  - destruct H as [H|f1 resp _ Ew Et|f1 resp f2 _ Ew Et En]; [exact N|..]; cbn [with_defaults b_when b_then] in *;
      destruct (b_when user (S (S u)) f) as [f1' [x|e]] eqn:E; try discriminate; injection Ew as <- <-; destruct (Hu _ _ _ _ N E) as [W T]; [exact W|].
    specialize (T x eq_refl Et). rewrite En in T. exact T.
Qed.
Lemma yields_once Ctx (ctx : Ctx) input ps n outs n' : (forall p, In p ps -> exists c, flat c /\ pattern_is p c) -> yields ctx input ps n outs n' ->
  NoDup (map m_id (concat outs)) /\ Forall (fun i => n <= i < n')%nat (map m_id (concat outs)) /\ (n <= n')%nat.
Proof.
  intros Hp Y. induction Y as [n|p ps n outs n' D Y IH|p ps n n1 out raws outs n' D E Y IH].
  - repeat constructor.
  - apply IH. intros q Hq. apply Hp. right. exact Hq.
  - destruct (Hp p (or_introl eq_refl)) as (c & F & I). rewrite I in E. destruct (flat_once F E) as (A1 & A2 & A3).
    destruct IH as (B1 & B2 & B3); [intros q Hq; apply Hp; right; exact Hq|]. cbn [concat]. rewrite map_app. split; [|split; [|lia]].
    + apply NoDup_app_intro; [exact A1|exact B1|]. intros i I1 I2. rewrite Forall_forall in A2, B2. apply A2 in I1. apply B2 in I2. lia.
    + apply Forall_app. split; [eapply Forall_impl; [|exact A2]|eapply Forall_impl; [|exact B2]]; cbv beta; lia.
Qed.
Lemma all_split (l : list mtch) : Permutation l (filter (fun m => negb (m_marker m)) l ++ filter m_marker l).
Proof.
  induction l as [|m l IH]; cbn [filter]; [constructor|]. destruct (m_marker m); cbn [negb]; [|now constructor]. rewrite IH at 1. apply Permutation_middle.
Qed.
(** Rebulk.matches: if its patterns are such and its rules (beside the two default ones) put no object twice, the
    matches and markers returned are distinct objects. *)
Theorem C120_rebulk_partial : forall Ctx R (ctx : Ctx) (r : rb Ctx) env perm solvers order (user : Ctx -> behav found R) isinst check input f,
  (forall p, In p (effective_patterns ctx r) -> exists c, flat c /\ pattern_is p c) ->
  (forall u, repeats_nothing (user ctx) u) ->
  rb_matches env perm (fun c => with_defaults solvers order (user c)) isinst check r ctx input = Ok f ->
  returned_once (all_found f).
Proof.
  intros Ctx R ctx r env perm solvers order user isinst check input f Hp Hu E. unfold rb_matches, matches_patterns, execute_rules in E.
  destruct (rb_disabled r ctx).
  { destruct (if check then _ else _); [|discriminate]. injection E as <-. constructor. }
  change {| fd_next := 0; fd_matches := empty_coll KMatches (Some input); fd_markers := empty_coll KMarkers (Some input); fd_keys := effective_keys ctx r |}
    with (fresh input (effective_keys ctx r)) in E.
  destruct (@run_patterns_spec Ctx ctx input (effective_patterns ctx r) (fresh input (effective_keys ctx r)) eq_refl eq_refl) as [A _].
  destruct (run_patterns ctx input (effective_patterns ctx r) (fresh input (effective_keys ctx r))) as [f1|e]; [|discriminate].
  destruct (A f1 eq_refl) as (outs & n' & Y & Ef1). cbn [fd_next fresh] in Y. destruct (stage_del input (effective_keys ctx r) outs n') as (S1 & S2 & _). rewrite <- Ef1 in S1, S2.
  destruct (if check then check_declared_keys isinst (fd_keys f1) (fd_matches f1) else Ok tt); [|discriminate].
  destruct (execute_all_rules env perm (with_defaults solvers order (user ctx)) (effective_rules env ctx r) f1) as [f' [ret|e]] eqn:Ex; [|discriminate]. injection E as ->.
  destruct (execute_all_rules env perm recorder (effective_rules env ctx r) []) as [ord fin] eqn:Er. pose proof (C30_execution Er Ex) as (-> & H).
  assert (returned_once (all_found f1)) as N1.
  { destruct (yields_once Hp Y) as (N & _). unfold returned_once, all_found. rewrite S1, S2, map_app.
    eapply Permutation_NoDup; [|exact N]. rewrite <- map_app. apply Permutation_map, all_split. }
  clear - H Hu N1. induction H as [s|u l s s1 s2 ret H1 H2 IH|u l s s1 s2 resp ret H1 H2 IH]; [exact N1|..]; apply IH; exact (considered_once Hu H1 N1).
Qed.

(** ** A case: a chain of chains without children, an expression with groups and a user rule that appends nothing *)
Definition idle : behav found unit := Behav (fun _ => true) (fun _ f => (f, Ok tt)) (fun _ f _ => (f, Ok tt)) (fun _ => true).
Example C120_case :
  flat (chain_in_chain showing hiding) /\ flat letters /\ ~ flat (chain_in_chain showing showing) /\ (forall u, repeats_nothing idle u)
  /\ ids_found (chain_in_chain showing hiding) = [(1%nat, (0, 1)); (2%nat, (1, 2)); (0%nat, (0, 2)); (3%nat, (0, 2))]
  /\ ids_left (chain_in_chain showing hiding) = [(1%nat, (0, 1)); (2%nat, (1, 2)); (0%nat, (0, 2)); (3%nat, (0, 2))].
Proof.
  assert (forall id, no_processor (showing id) /\ no_processor (hiding id)) as N by (intro id; repeat split).
  assert (flat_part letters) as L by (constructor; apply N).
  split; [|split; [|split; [|split; [|split]]]].
  - constructor; [apply N|]. intros x [<-|[]]. cbn [fst]. constructor; [apply N| |left; reflexivity]. intros x [<-|[]]. exact L.
  - constructor. apply N.
  - intro F. inversion F as [|p b parts _ G]; subst. specialize (G _ (or_introl eq_refl)). cbn [fst] in G. inversion G as [|p b parts _ _ [C|C]]; subst; [discriminate|].
    specialize (C _ (or_introl eq_refl)). inversion C as [|rx l X]; subst. discriminate.
  - intros u f f1 x H [= <- <-]. split; [exact H|intros resp _ _; exact H].
  - vm_compute. reflexivity.
  - vm_compute. reflexivity.
Qed.
