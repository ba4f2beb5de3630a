(** * Property C121: every match returned lies inside the input *)
From Coq Require Import Permutation ZifyBool.
From Coq Require String. Export Coq.Strings.String.StringSyntax.
From Verif Require Import Base BaseFacts Match Spec MatchFacts Coll CollFacts CollFiled SpecColl CollHist CollUniv Loose Conseq ConseqFacts Processors ProcFacts
  Topo Rules RulesFacts PropsRules Pattern PatternFacts PropsPattern Chain SpecChain PropsChain Typed Rebulk RebulkFacts PropsRebulk Pipeline PropsPipeline SpecNest PropsNest SpecOnce OnceFacts PropsOnce
  SpecInside InsideFacts.
Set Implicit Arguments.
Unset Strict Implicit.
Open Scope string_scope.
Open Scope list_scope.
Open Scope Z_scope.

(** ** Specification *)
(** [m], its children, their children... lie inside the text *)
Definition all_inside (t : pstr) (m : mtch) : Prop := forall d, below m d -> lies_in t d.
(** a user rule that adds nothing outside the text *)
Definition stays_inside {R} (t : pstr) (bh : behav found R) (u : nat) : Prop := forall f f1 x, Forall (all_inside t) (all_found f) -> b_when bh u f = (f1, x) ->
  Forall (all_inside t) (all_found f1) /\ forall resp, x = Ok resp -> b_truthy bh resp = true -> Forall (all_inside t) (all_found (fst (b_then bh u f1 resp))).

(** ** Counter-example: a part with two alternatives, [chain().regex("a", "b").regex("c")], on a text of 8 characters *)
Definition a_or_b : ctree := CPattern (hiding 2) (SRegex false [char_rx (s "a"); char_rx (s "b")]).
Definition one_c : ctree := CPattern (hiding 3) (SRegex false [char_rx (s "c")]).
Definition alternatives : ctree := CChain (hiding 1) None [(a_or_b, (1, Some 1, false)); (one_c, (1, Some 1, false))].
Definition text8 : pstr := s "bxbxaxxc".
Definition spans_found (c : ctree) (t : pstr) : list (Z * Z * list (Z * Z)) :=
  match tree_matches c 0%nat t with Ok (_, (ms, _)) => map (fun m => (m_span m, map m_span (m_children m))) ms | Err _ => [] end.
Definition spans_left (c : ctree) (t : pstr) : list (Z * Z * list (Z * Z)) :=
  match rb_matches default_env (fun l => l) (fun _ => default_behav (fun _ _ _ => VDefault) (fun l => l)) (fun _ _ => true) true (simple [as_pattern c]) tt t with
  | Ok f => map (fun m => (m_span m, map m_span (m_children m))) (all_found f)
  | Err _ => []
  end.
(** the match returned, and one of its children, end at position 9 *)
Theorem C121_beyond_the_end_refuted : zlen text8 = 8
  /\ spans_found alternatives text8 = [((6, 9), [(8, 9); (6, 7); (7, 8)])]
  /\ spans_left alternatives text8 = [((6, 9), [(8, 9); (6, 7); (7, 8)])].
Proof. split; [reflexivity|]. split; vm_compute; reflexivity. Qed.

(** ** One pattern, or chain of patterns and chains each found from left to right *)
Theorem C121_pattern_partial : forall c n input n' ms raws, confined c -> tree_matches c n input = Ok (n', (ms, raws)) ->
  Forall (all_inside input) ms /\ Forall (all_inside input) raws.
Proof.
  intros c n input n' ms raws C H. destruct (confined_in C H) as [A B].
  split; eapply Forall_impl; [|exact A| |exact B]; intros m E d; apply (enclosed_below E).
Qed.

(** ** Rebulk *)
Lemma fewer_inside t (f f' : found) : sublist (c_del (fd_matches f')) (c_del (fd_matches f)) -> fd_markers f' = fd_markers f ->
  Forall (all_inside t) (all_found f) -> Forall (all_inside t) (all_found f').
Proof. intros S E N. unfold all_found in *. rewrite E. eapply sub_Forall; [|exact N]. apply sublist_app; [exact S|apply sublist_refl]. Qed.
Lemma considered_inside R t solvers order (user : behav found R) u f f' o : (forall u, stays_inside t user u) ->
  consider (with_defaults solvers order user) u f f' o -> Forall (all_inside t) (all_found f) -> Forall (all_inside t) (all_found f').
Proof.
  intros Hu H N. destruct u as [|[|u]].
  - destruct H as [H|f1 resp _ Ew Et|f1 resp f2 _ Ew Et En]; [exact N|..]; cbn [with_defaults default_behav b_when b_then] in *;
      pose proof (conflict_when_del solvers (fd_matches f)) as D; destruct (conflict_when solvers (fd_matches f)) as [c1 [rm|e]]; try discriminate; injection Ew as <- <-; cbn [fst] in D.
    + apply (@fewer_inside t f); [|reflexivity|exact N]. cbn [fd_matches with_matches]. rewrite D. apply sublist_refl.
    + cbn [fd_matches with_matches] in En. pose proof (drop_then_sub c1 (order rm)) as S. destruct (drop_ret (remove_then c1 (Many (order rm)))) as [c x]. injection En as <- _.
      apply (@fewer_inside t f); [|reflexivity|exact N]. cbn [fd_matches with_matches fst] in *. rewrite <- D. exact S.
  - destruct H as [H|f1 resp _ Ew Et|f1 resp f2 _ Ew Et En]; [exact N|..]; cbn [with_defaults default_behav b_when b_then] in *; injection Ew as <- <-; [exact N|].
    pose proof (drop_then_sub (fd_matches f) (filter m_private (c_del (fd_matches f)))) as S.
    destruct (drop_ret (remove_then (fd_matches f) _)) as [c x]. injection En as <- _. apply (@fewer_inside t f); [|reflexivity|exact N]. exact S.
  - destruct H as [H|f1 resp _ Ew Et|f1 resp f2 _ Ew Et En]; [exact N|..]; cbn [with_defaults b_when b_then] in *;
      destruct (b_when user (S (S u)) f) as [f1' [x|e]] eqn:E; try discriminate; injection Ew as <- <-; destruct (Hu _ _ _ _ N E) as [W T]; [exact W|].
    specialize (T x eq_refl Et). rewrite En in T. exact T.
Qed.
Lemma yields_inside Ctx (ctx : Ctx) input ps n outs n' : (forall p, In p ps -> exists c, confined c /\ pattern_is p c) -> yields ctx input ps n outs n' ->
  Forall (all_inside input) (concat outs).
Proof.
  intros Hp Y. induction Y as [n|p ps n outs n' D Y IH|p ps n n1 out raws outs n' D E Y IH].
  - constructor.
  - apply IH. intros q Hq. apply Hp. right. exact Hq.
  - destruct (Hp p (or_introl eq_refl)) as (c & F & I). rewrite I in E. destruct (C121_pattern_partial F E) as [A _]. cbn [concat]. apply Forall_app. split; [exact A|].
    apply IH. intros q Hq. apply Hp. right. exact Hq.
Qed.
(** Rebulk.matches: if its patterns are such and its rules (beside the two default ones) add nothing outside the text,
    the matches and markers returned, and what is below them, lie inside the input. *)
Theorem C121_rebulk_partial : forall Ctx R (ctx : Ctx) (r : rb Ctx) env perm solvers order (user : Ctx -> behav found R) isinst check input f,
  (forall p, In p (effective_patterns ctx r) -> exists c, confined c /\ pattern_is p c) ->
  (forall u, stays_inside input (user ctx) u) ->
  rb_matches env perm (fun c => with_defaults solvers order (user c)) isinst check r ctx input = Ok f ->
  Forall (all_inside input) (all_found f).
Proof.
  intros Ctx R ctx r env perm solvers order user isinst check input f Hp Hu E. unfold rb_matches, matches_patterns, execute_rules in E.
  destruct (rb_disabled r ctx).
  { destruct (if check then _ else _); [|discriminate]. injection E as <-. constructor. }
  change {| fd_next := 0; fd_matches := empty_coll KMatches (Some input); fd_markers := empty_coll KMarkers (Some input); fd_keys := effective_keys ctx r |}
    with (fresh input (effective_keys ctx r)) in E.
  destruct (@run_patterns_spec Ctx ctx input (effective_patterns ctx r) (fresh input (effective_keys ctx r)) eq_refl eq_refl) as [A _].
  destruct (run_patterns ctx input (effective_patterns ctx r) (fresh input (effective_keys ctx r))) as [f1|e]; [|discriminate].
  destruct (A f1 eq_refl) as (outs & n' & Y & Ef1). cbn [fd_next fresh] in Y. destruct (stage_del input (effective_keys ctx r) outs n') as (S1 & S2 & _). rewrite <- Ef1 in S1, S2.
  destruct (if check then check_declared_keys isinst (fd_keys f1) (fd_matches f1) else Ok tt); [|discriminate].
  destruct (execute_all_rules env perm (with_defaults solvers order (user ctx)) (effective_rules env ctx r) f1) as [f' [ret|e]] eqn:Ex; [|discriminate]. injection E as ->.
  destruct (execute_all_rules env perm recorder (effective_rules env ctx r) []) as [ord fin] eqn:Er. pose proof (C30_execution Er Ex) as (-> & H).
  assert (Forall (all_inside input) (all_found f1)) as N1.
  { pose proof (yields_inside Hp Y) as N. unfold all_found. rewrite S1, S2.
    rewrite Forall_forall in *. intros m Hm. apply N. eapply Permutation_in; [symmetry; apply all_split|exact Hm]. }
  clear - H Hu N1. induction H as [s|u l s s1 s2 ret H1 H2 IH|u l s s1 s2 resp ret H1 H2 IH]; [exact N1|..]; apply IH; exact (considered_inside Hu H1 N1).
Qed.

(** ** A case: the same chain with the part written as one expression, and a chain in a chain *)
Definition a_b : ctree := CPattern (hiding 2) (SRegex false [char_rx (s "ab")]).
Definition one_expression : ctree := CChain (hiding 1) None [(CChain (hiding 4) None [(a_b, (1, None, false))], (1, Some 1, false)); (one_c, (1, Some 1, false))].
Example C121_case : confined one_expression /\ confined a_or_b /\ confined letters /\ ~ confined alternatives /\ (forall u, stays_inside (s "abcxbac") idle u)
  /\ spans_left one_expression (s "abcxbac") = [((0, 3), [(0, 1); (1, 2); (0, 2); (2, 3)]); ((4, 7), [(4, 5); (5, 6); (4, 6); (6, 7)])].
Proof.
  assert (forall id, no_processor (hiding id)) as N by (intro id; repeat split).
  assert (forall id x, in_order (CPattern (hiding id) (SRegex false [char_rx x]))) as L.
  { intros id x. constructor; [apply N|apply char_rx_orderly|]. cbn [captures_within]. intros rx t o caps sp [<-|[]] Ho Hc. exfalso. cbn [char_rx rx_finditer] in Ho.
    destruct (scan_spec x t 0) as [S1 _]. rewrite Forall_forall in S1. destruct (S1 o Ho) as (_ & _ & _ & E). rewrite E in Hc. exact Hc. }
  assert (forall id child m, accepted (hiding id) child m) as AC. { intros id child m. apply validator_accepted. destruct child; [reflexivity|].
    unfold process_validator. cbn. unfold config_keys. destruct (m_name m) as [[|ch r]|]; reflexivity. }
  split; [|split; [|split; [|split; [|split]]]].
  - constructor; [apply N|]. intros x [<-|[<-|[]]]; cbn [fst]; [|apply L]. constructor; [apply N|apply AC|]. intros x [<-|[]]. apply L.
  - constructor; [apply N| |exact I]. intros rx t [<-|[<-|[]]]; [apply (orderly_sound (char_rx_orderly (s "a")))|apply (orderly_sound (char_rx_orderly (s "b")))]; now left.
  - constructor; [apply N| |exact I]. intros rx t [<-|[]]. unfold engine_ok. cbn [two_groups rx_finditer]. destruct (pstr_eqb t (s "ab")) eqn:E; [|constructor].
    apply pstr_eqb_eq in E. subst t. repeat constructor; cbn; lia.
  - intro C. inversion C as [|p b parts _ O]; subst. specialize (O _ (or_introl eq_refl)). cbn [fst] in O. inversion O as [p src _ S _|]; subst. exact S.
  - intros u f f1 x H [= <- <-]. split; [exact H|intros resp _ _; exact H].
  - vm_compute. reflexivity.
Qed.

(** ** C118 for Rebulk: the search of its patterns ends *)
Lemma run_patterns_error Ctx (ctx : Ctx) input : forall ps f e, c_kind (fd_matches f) = KMatches -> c_kind (fd_markers f) = KMarkers ->
  run_patterns ctx input ps f = Err e -> exists p n, In p ps /\ pt_match p ctx n input = Err e.
Proof.
  induction ps as [|p ps IH]; intros f e K1 K2 H; cbn [run_patterns] in H; [discriminate|]. destruct (pt_disabled p ctx).
  - destruct (IH _ _ K1 K2 H) as (q & n & Hq & Eq). exists q, n. split; [now right|exact Eq].
  - destruct (pt_match p ctx (fd_next f) input) as [[n1 [ms raws]]|e'] eqn:E; [|injection H as <-; exists p, (fd_next f); split; [now left|exact E]].
    destruct (@put_spec ms (with_next f n1) K1 K2) as (P1 & P2 & P3). rewrite P1 in H.
    destruct (IH _ _ P2 P3 H) as (q & n & Hq & Eq). exists q, n. split; [now right|exact Eq].
Qed.
Theorem C118_rebulk_search_ends : forall Ctx (ctx : Ctx) (r : rb Ctx) input keys,
  (forall p, In p (effective_patterns ctx r) -> exists c, well_made c /\ pattern_is p c) ->
  matches_patterns ctx input r (fresh input keys) <> Err Diverges.
Proof.
  intros Ctx ctx r input keys Hp H. unfold matches_patterns in H. destruct (rb_disabled r ctx); [discriminate|].
  apply run_patterns_error in H as (p & n & Hin & E); [|reflexivity|reflexivity]. destruct (Hp p Hin) as (c & W & I). rewrite I in E.
  destruct (@tree_sound c W 1 None false) as [_ Cv]. exact (Cv n input E).
Qed.
Example C118_rebulk_case : exists c, well_made c /\ pattern_is (as_pattern c) c /\ map fst (spans_left c (s "ab cdabab")) = [(3, 9)].
Proof. exists nested. split; [apply C118_example|]. split; [intros ctx n t; reflexivity|vm_compute; reflexivity]. Qed.
