(** * C115 What conflict solving removes, over every history *)
From Verif Require Import Base BaseFacts Match Spec MatchFacts Coll CollFacts CollQuery CollSem CollSem2 SpecColl CollHist CollUniv
  Conseq ConseqFacts PropsLoose PropsColl PropsConseq Processors ProcFacts PropsProc PropsRemoved PropsPipeline.
From Coq Require Import ZifyBool Sorting.Sorted.
Export Coq.Strings.String.StringSyntax.
Set Implicit Arguments.
Unset Strict Implicit.
Open Scope Z_scope.

(** ** Specification *)
(** [r] is the public ones of [l], the shorter ones first, those of one length in the order of [l] *)
Definition public_shortest_first (l r : list mtch) : Prop :=
  let publics := filter (fun m => negb (m_private m)) l in
  StronglySorted (fun a b => mlen a <= mlen b) r
  /\ forall n, filter (fun m => mlen m =? n) r = filter (fun m => mlen m =? n) publics.
(** the object [x] is one of [l] *)
Definition same_object_in (x : mtch) (l : list mtch) : bool := existsb (fun y => Nat.eqb (m_id x) (m_id y)) l.
(** Pairs of conflicting matches are examined one after the other; [gone]: the objects condemned so far.
    The solvers settle a pair ([settled], see C38); the match they name is condemned unless it already is,
    or the one it would go in favour of is.  None: a solver named something else than one of the two (or
    a match of negative length, which has no truth value). *)
Fixpoint condemned (solvers : nat -> mtch -> mtch -> verdict) (gone : list mtch) (pairs : list (mtch * mtch)) : option (list mtch) :=
  match pairs with
  | [] => Some gone
  | (m, c) :: r =>
      match settled solvers m c with
      | VMatch x =>
          if m_end x <? m_start x then None
          else if (m_end x =? m_start x) || same_object_in x gone then condemned solvers gone r
          else if meq x m then condemned solvers (if same_object_in c gone then gone else gone ++ [x]) r
          else if meq x c then condemned solvers (if same_object_in m gone then gone else gone ++ [x]) r
          else None
      | _ => condemned solvers gone r
      end
  end.

(** ** Proof *)
Lemma psf_by_length l : public_shortest_first l (by_length l).
Proof.
  split; [apply sorted_by_length|]. intro n. unfold by_length. apply sort_by_stable.
  - unfold shorter. intros; lia.
  - unfold shorter. intros; lia.
  - unfold shorter. intros; lia.
Qed.
Lemma psf_unique l : forall r r', public_shortest_first l r -> public_shortest_first l r' -> r = r'.
Proof.
  intros r r' [S1 F1] [S2 F2]. assert (forall n, filter (fun m => mlen m =? n) r = filter (fun m => mlen m =? n) r') as F by (intro n; rewrite F1, F2; reflexivity).
  clear F1 F2. revert r' S2 F. induction S1 as [|x r S1 IH H1]; intros r' S2 F.
  - destruct r' as [|y r']; [reflexivity|]. specialize (F (mlen y)). cbn [filter] in F. rewrite Z.eqb_refl in F. discriminate.
  - destruct r' as [|y r']; [specialize (F (mlen x)); cbn [filter] in F; rewrite Z.eqb_refl in F; discriminate|].
    inversion S2 as [|? ? S2' H2]; subst. rewrite Forall_forall in H1, H2.
    assert (mlen x = mlen y) as E.
    { assert (mlen y <= mlen x).
      { pose proof (F (mlen x)) as Fx. cbn [filter] in Fx. rewrite Z.eqb_refl in Fx. destruct (Z.eqb_spec (mlen y) (mlen x)); [lia|].
        assert (In x (filter (fun m => mlen m =? mlen x) r')) as Hx by (rewrite <- Fx; left; reflexivity). apply filter_In in Hx as [Hx _]. apply H2, Hx. }
      assert (mlen x <= mlen y); [|lia].
      pose proof (F (mlen y)) as Fy. cbn [filter] in Fy. rewrite Z.eqb_refl in Fy. destruct (Z.eqb_spec (mlen x) (mlen y)); [lia|].
      assert (In y (filter (fun m => mlen m =? mlen y) r)) as Hy by (rewrite Fy; left; reflexivity). apply filter_In in Hy as [Hy _]. apply H1, Hy. }
    assert (x = y) as -> by (specialize (F (mlen x)); cbn [filter] in F; rewrite <- E, Z.eqb_refl in F; congruence).
    f_equal. apply IH; [exact S2'|]. intro n. specialize (F n). cbn [filter] in F. destruct (mlen y =? n); congruence.
Qed.

Lemma mark_condemned solvers ps : forall rm,
  mark_pairs solvers rm ps = match condemned solvers rm ps with Some g => Ok g | None => Err ValueError end.
Proof.
  induction ps as [|[m c] ps IH]; intro rm; cbn [mark_pairs condemned]; [reflexivity|]. unfold mark, mbool. rewrite decide_settled.
  destruct (settled solvers m c) as [| |x]; try apply IH. unfold mlen.
  destruct (Z.ltb_spec (m_end x) (m_start x)) as [L|L]; [replace (m_end x - m_start x <? 0) with true by lia; reflexivity|].
  replace (m_end x - m_start x <? 0) with false by lia. destruct (Z.eqb_spec (m_end x) (m_start x)) as [Z0|Z0]; cbn [orb].
  - replace (m_end x - m_start x =? 0) with true by lia. apply IH.
  - replace (m_end x - m_start x =? 0) with false by lia. cbn [negb]. change (in_set x rm) with (same_object_in x rm). destruct (same_object_in x rm); [apply IH|].
    cbn [remove_first]. destruct (meq x m).
    + change (in_set c rm) with (same_object_in c rm). destruct (same_object_in c rm); apply IH.
    + destruct (meq x c); [|reflexivity]. change (in_set m rm) with (same_object_in m rm). destruct (same_object_in m rm); apply IH.
Qed.
Lemma step_conflicting c m : step c (OConflicting m) = list_out (q_conflicting c m).
Proof. reflexivity. Qed.
Lemma fst_list_out (x : coll * res (list mtch)) : fst (list_out x) = fst x.
Proof. destruct x as [c [l|e]]; reflexivity. Qed.
Lemma conflict_loop_run solvers : forall ms c rm c' rm', conflict_loop solvers c rm ms = (c', Ok rm') -> c' = run c (map OConflicting ms).
Proof.
  induction ms as [|m ms IH]; intros c rm c' rm' H; cbn [conflict_loop map] in *; [injection H as -> _; reflexivity|].
  change (run c (OConflicting m :: map OConflicting ms)) with (run (fst (step c (OConflicting m))) (map OConflicting ms)).
  rewrite step_conflicting, fst_list_out. destruct (q_conflicting c m) as [c1 [l|e]]; [|discriminate]. cbn [fst].
  destruct (mark_all solvers rm m (by_length l)) as [rm1|e]; [|discriminate]. exact (IH _ _ _ _ H).
Qed.
Lemma acceptable_lookups k ms : forall asked l, acceptable k asked l (map OConflicting ms).
Proof. induction ms as [|m ms IH]; intros asked l; cbn [map acceptable]; [exact I|]. split; [constructor|]. split; [exact I|]. apply IH. Qed.
Lemma list_run_lookups ms : forall l, list_run l (map OConflicting ms) = l.
Proof. induction ms as [|m ms IH]; intro l; [reflexivity|]. exact (IH l). Qed.
Lemma conf_answer c m : snd (step c (OConflicting m)) = match conf c m with Some r => RList r | None => RErr ValueError end.
Proof.
  rewrite step_conflicting. pose proof (q_conflicting_rel m (obs_refl c)) as [_ B]. destruct (q_conflicting c m) as [c1 r]. cbn [snd] in B. subst r.
  destruct (conf c m); reflexivity.
Qed.

(** ** C115: the conflict rule examines every public match, the shortest first, against what [conflicting]
    answers for it; what it condemns is removed, and so is nothing else.  The state is the one reached by
    these calls, so that all that is said of histories goes on holding. *)
Theorem C115_conflict_rule : forall solvers perm k input ops ms confl,
  acceptable k false [] ops ->
  let c := run (empty_coll k input) ops in
  let l := list_run [] ops in
  public_shortest_first l ms ->
  (forall m, In m ms -> exists r, snd (step c (OConflicting m)) = RList r /\ public_shortest_first r (confl m)) ->
  match condemned solvers [] (flat_map (fun m => map (pair m) (confl m)) ms) with
  | Some gone =>
      let ops' := ops ++ map OConflicting ms ++ map ORemove (found_in l (perm gone)) in
      conflict_rule solvers perm c = (run (empty_coll k input) ops', Ok tt)
      /\ acceptable k false [] ops' /\ list_run [] ops' = left_over (perm gone) l
  | None => exists c', conflict_rule solvers perm c = (c', Err ValueError) /\ c_del c' = l
  end.
Proof.
  intros solvers perm k input ops ms confl H c l Hm Hc.
  destruct (@run_ok (fun _ => True) k ops false (empty_coll k input)) as (_ & _ & Hd & _); auto; try discriminate; [apply Inv_empty|].
  cbn [empty_coll c_del] in Hd. fold l in Hd. change (c_del c = l) in Hd.
  assert (ms = by_length (c_del c)) as -> by (rewrite Hd; exact (psf_unique Hm (psf_by_length l))).
  assert (forall m, In m (by_length (c_del c)) -> conf c m <> None /\ match conf c m with Some r => by_length r | None => [] end = confl m) as Hconf.
  { intros m Hi. destruct (Hc m Hi) as (r & R1 & R2). rewrite conf_answer in R1. destruct (conf c m) as [r'|]; [|discriminate]. injection R1 as ->.
    split; [discriminate|]. exact (psf_unique (psf_by_length r) R2). }
  assert (flat_map (fun m => map (pair m) (confl m)) (by_length (c_del c)) = pairs c (by_length (c_del c))) as ->.
  { unfold pairs. clear -Hconf. induction (by_length (c_del c)) as [|m ms IH]; [reflexivity|]. cbn [flat_map]. unfold pairs_for at 1.
    rewrite (proj2 (Hconf m (or_introl eq_refl))). rewrite IH; [reflexivity|]. intros x Hx. apply Hconf. right. exact Hx. }
  destruct (@conflict_loop_pairs solvers c (by_length (c_del c)) c [] (obs_refl c)) as (c1 & O1 & E1); [intros m Hi; apply Hconf, Hi|].
  unfold conflict_rule, conflict_when. rewrite E1, mark_condemned. destruct (condemned solvers [] (pairs c (by_length (c_del c)))) as [gone|] eqn:G.
  - assert (c1 = run c (map OConflicting (by_length (c_del c)))) as Ec1.
    { rewrite mark_condemned, G in E1. exact (conflict_loop_run E1). }
    set (q := map OConflicting (by_length (c_del c))) in *.
    assert (acceptable k false [] (ops ++ q)) as Hq by (apply acceptable_then; [exact H | intros; apply acceptable_lookups]).
    assert (list_run [] (ops ++ q) = l) as Lq by (unfold q; unfold list_run at 1; rewrite fold_left_app; exact (list_run_lookups _ l)).
    destruct (@C102_remove_match k input (ops ++ q) (perm gone) Hq) as (E & Ha & El). rewrite Lq in E, Ha, El.
    rewrite run_app in E. fold c in E. rewrite <- Ec1 in E. rewrite E. cbn [drop_ret]. rewrite <- app_assoc in *. auto.
  - exists c1. split; [reflexivity|]. rewrite <- Hd. apply O1.
Qed.
(** it raises when [conflicting] does for some public member (an empty one, see C35); nothing is removed *)
Theorem C115_raises : forall solvers perm k input ops m,
  acceptable k false [] ops ->
  let c := run (empty_coll k input) ops in
  let l := list_run [] ops in
  In m l -> m_private m = false -> (forall r, snd (step c (OConflicting m)) <> RList r) ->
  exists c', conflict_rule solvers perm c = (c', Err ValueError) /\ c_del c' = l.
Proof.
  intros solvers perm k input ops m H c l Hm Hp Hc.
  destruct (@run_ok (fun _ => True) k ops false (empty_coll k input)) as (_ & _ & Hd & _); auto; try discriminate; [apply Inv_empty|].
  cbn [empty_coll c_del] in Hd. fold l in Hd. change (c_del c = l) in Hd.
  assert (conf c m = None) as Hn.
  { specialize (Hc (match conf c m with Some r => r | None => [] end)). rewrite conf_answer in Hc. destruct (conf c m); [congruence | reflexivity]. }
  destruct (@conflict_loop_error solvers c (by_length (c_del c)) c [] (obs_refl c)) as (c1 & e & E & ->).
  { exists m. split; [apply in_by_length; rewrite Hd; auto | exact Hn]. }
  unfold conflict_rule, conflict_when. rewrite E. exists c1. split; [reflexivity|].
  assert (forall ms c2 rm c3 r, obs c c2 -> conflict_loop solvers c2 rm ms = (c3, r) -> obs c c3) as O.
  { clear. induction ms as [|x ms IH]; intros c2 rm c3 r O E; cbn [conflict_loop] in E; [injection E as <- _; exact O|].
    destruct (q_conflicting_rel x O) as [A _]. destruct (q_conflicting c2 x) as [c4 [y|e]]; cbn [fst] in A; [|injection E as <- _; exact A].
    destruct (mark_all solvers rm x (by_length y)); [eapply IH; eauto | injection E as <- _; exact A]. }
  rewrite <- Hd. apply (O _ _ _ _ _ (obs_refl c) E).
Qed.

(** three matches in a chain of conflicts, two equal members, one custom solver that names the longer match *)
Definition cf_a := mk_match 1 0 3.
Definition cf_b := mk_match 2 2 7.
Definition cf_c := set_solver (mk_match 3 6 8) (Some 0%nat).
Definition cf_solvers (f : nat) (own other : mtch) : verdict := VMatch other.
Definition cf_ops := [OExtend [cf_b; cf_a; cf_c]; OStarting 0; OAppend (mk_match 4 0 3); OSetitem 0 cf_b].
Example C115_example :
  acceptable KMatches false [] cf_ops
  /\ public_shortest_first (list_run [] cf_ops) [cf_c; cf_a; mk_match 4 0 3; cf_b]
  /\ snd (step (run (empty_coll KMatches None) cf_ops) (OConflicting cf_b)) = RList [cf_a; cf_c]
  /\ condemned cf_solvers [] [(cf_c, cf_b); (cf_a, cf_b); (mk_match 4 0 3, cf_b); (cf_b, cf_c); (cf_b, cf_a)] = Some [cf_b]
  /\ left_over [cf_b] (list_run [] cf_ops) = [cf_a; cf_c; mk_match 4 0 3]
  /\ c_del (fst (conflict_rule cf_solvers (fun l => l) (run (empty_coll KMatches None) cf_ops))) = [cf_a; cf_c; mk_match 4 0 3].
Proof.
  split; [simpl; repeat constructor|]. split; [|repeat split; vm_compute; reflexivity].
  change [cf_c; cf_a; mk_match 4 0 3; cf_b] with (by_length (list_run [] cf_ops)). apply psf_by_length.
Qed.
Print Assumptions C115_conflict_rule.
Print Assumptions C115_raises.
