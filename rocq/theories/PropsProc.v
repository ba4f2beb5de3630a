(** * Properties C35-C39: conflict solver and private remover; conflict part of C29 *)
From Verif Require Import Base BaseFacts Match Spec MatchFacts Coll CollFacts CollQuery CollSem CollSem2 SpecColl CollHist CollUniv
  Conseq ConseqFacts PropsLoose PropsColl PropsConseq Processors ProcFacts.
From Coq Require Import ZifyBool.
Set Implicit Arguments.
Unset Strict Implicit.
Open Scope Z_scope.

(** Iterating a set visits its elements once each, in some order. *)
Definition an_order (perm : list mtch -> list mtch) : Prop := forall l, Permutation l (perm l).

(** The situation of the conflict rule: a collection reached by any history (see C01) in
    which a number names one object, [==] matches are both private or both public, and public
    members are not empty. *)
Record situation (k : kind) (ops : list op) : Prop := {
  sit_ok : acceptable k false [] ops;
  sit_na : no_assignment ops;
  sit_id : identities (all_handed ops);
  sit_private : respects_eq_on (all_handed ops) m_private;
  sit_nonempty : forall m, In m (list_run [] ops) -> m_private m = false -> nonempty m
}.
(** every solver called answers '__default__', None or one of the two matches it is given *)
Definition well_behaved (solvers : nat -> mtch -> mtch -> verdict) : Prop :=
  forall f a b x, solvers f a b = VMatch x -> x = a \/ x = b.
Definition no_custom_solver (ops : list op) : Prop := Forall (fun m => m_solver m = None) (all_handed ops).

Lemma consult_in solvers m c x : well_behaved solvers -> decide solvers m c = VMatch x -> x = m \/ x = c.
Proof.
  intros Hw. unfold decide, conflict_solvers.
  assert (forall fs, (forall f rv, In (f, rv) fs -> f = default_solver \/ exists n, f = solvers n) -> consult fs m c = VMatch x -> x = m \/ x = c) as G.
  { induction fs as [|[f rv] fs IH]; simpl; intros Hf E; [discriminate|].
    assert (forall a b, f a b = VMatch x -> x = a \/ x = b) as Hfab.
    { intros a b Eab. destruct (Hf f rv (or_introl eq_refl)) as [->|(n & ->)]; [|eapply Hw, Eab].
      apply default_match in Eab as [[-> _]|[-> _]]; auto. }
    destruct rv; cbv iota in E.
    - destruct (f c m) as [| |z] eqn:Ef; [apply IH; [intros f0 rv0 H0; apply (Hf f0 rv0); right; exact H0 | exact E] | discriminate |]. injection E as ->. apply Hfab in Ef. tauto.
    - destruct (f m c) as [| |z] eqn:Ef; [apply IH; [intros f0 rv0 H0; apply (Hf f0 rv0); right; exact H0 | exact E] | discriminate |]. injection E as ->. apply Hfab in Ef. tauto. }
  apply G. intros f rv Hf. rewrite <- in_rev in Hf. rewrite !in_app_iff in Hf.
  destruct Hf as [[Hf|[]]|[Hf|Hf]]; [injection Hf as <- <-; auto | |].
  - destruct (m_solver m); [|contradiction]. destruct Hf as [Hf|[]]. injection Hf as <- <-. eauto.
  - destruct (m_solver c); [|contradiction]. destruct Hf as [Hf|[]]. injection Hf as <- <-. eauto.
Qed.

Definition answers_one solvers (U : list mtch) : Prop :=
  forall m y x, In m U -> In y U -> decide solvers m y = VMatch x -> x = m \/ x = y.
Lemma well_behaved_one solvers U : well_behaved solvers -> answers_one solvers U.
Proof. intros Hw m y x _ _. apply consult_in, Hw. Qed.
Lemma no_custom_one solvers ops : no_custom_solver ops -> answers_one solvers (all_handed ops).
Proof.
  intros Hn m y x Hm Hy E. unfold no_custom_solver in Hn. rewrite Forall_forall in Hn. rewrite decide_default in E by auto.
  apply default_match in E as [[-> _]|[-> _]]; auto.
Qed.

(** ** The rule on such a collection *)
Lemma conflict_run solvers perm k input ops : situation k ops -> answers_one solvers (all_handed ops) -> an_order perm ->
  let c := run (empty_coll k input) ops in
  let l := list_run [] ops in
  let ps := pairs c (by_length l) in
  exists c' rm,
    conflict_rule solvers perm c = (c', Ok tt) /\ c_del c' = take_out_all l rm /\ lookups_agree c'
    /\ mark_pairs solvers [] ps = Ok rm
    /\ (forall m y, In (m, y) ps -> In m l /\ public m /\ In y (all_handed ops) /\ public y /\ found y l /\ overlap y m /\ meq y m = false)
    /\ (forall m x, In m l -> public m -> In x l -> public x -> overlap x m -> meq x m = false -> exists y, In (m, y) ps /\ meq x y = true)
    /\ (forall a x b, rm = a ++ x :: b -> exists p1 m y p2, ps = p1 ++ (m, y) :: p2 /\ decide solvers m y = VMatch x
          /\ mark_pairs solvers [] p1 = Ok a /\ ~ In x a /\ ((x = m /\ ~ In y a) \/ (x = y /\ ~ In m a)))
    /\ (forall p1 m y p2 x, ps = p1 ++ (m, y) :: p2 -> decide solvers m y = VMatch x ->
          exists a b, rm = a ++ b /\ mark_pairs solvers [] p1 = Ok a /\ (In x rm \/ (x = m /\ In y a) \/ (x = y /\ In m a)))
    /\ incl rm (all_handed ops)
    /\ (forall p1 p2 a x, ps = p1 ++ p2 -> mark_pairs solvers [] p1 = Ok a -> In x a -> exists m y, In (m, y) p1 /\ decide solvers m y = VMatch x)
    /\ (forall p1 m y p2 m' y', ps = p1 ++ (m, y) :: p2 -> In (m', y') p1 -> mlen m' <= mlen m).
Proof.
  intros [H1 H2 Hid Hpr Hne] Hw Hperm c l ps. destruct (@reached_ok k input ops H1 H2) as (HI & Hd & _).
  pose proof (reached_univ k input ops) as HU. unfold reached in *. fold c in HI, Hd, HU. fold l in Hd, Hne.
  assert (Hpub : forall m, In m (c_del c) -> public m -> nonempty m) by (rewrite Hd; exact Hne).
  assert (Ps : forall m y, In (m, y) ps -> In m l /\ public m /\ In y (all_handed ops) /\ public y /\ found y l /\ overlap y m /\ meq y m = false).
  { intros m y Hin. unfold ps in Hin. rewrite <- Hd in Hin |- *. eapply pairs_sound; eassumption. }
  assert (HlU : forall m, In m l -> In m (all_handed ops)) by (intros m Hm; rewrite <- Hd in Hm; eapply del_U; eassumption).
  assert (Hin2 : forall m y x, In (m, y) ps -> decide solvers m y = VMatch x -> x = m \/ x = y) by (intros m y x Hin E; destruct (Ps m y Hin) as (Q1 & _ & Q3 & _); apply Hw; auto).
  assert (Hg : forall m y, In (m, y) ps -> good solvers m y).
  { intros m y Hin x E. pose proof (Ps m y Hin) as (A & B & C & D & F & G & K). destruct (Hin2 m y x Hin E) as [-> | ->].
    - split; [apply Hne in A; auto; unfold nonempty in A; unfold mlen; lia | left; apply meq_refl].
    - split; [apply overlap_nonempty in G; unfold nonempty in G; unfold mlen; lia | right; apply meq_refl]. }
  assert (Hkept : forall m y x, In (m, y) ps -> decide solvers m y = VMatch x -> (x = m /\ kept_of x m y = y) \/ (x = y /\ kept_of x m y = m)).
  { intros m y x Hin E. pose proof (Ps m y Hin) as (_ & _ & _ & _ & _ & _ & K). unfold kept_of. destruct (Hin2 m y x Hin E) as [-> | ->].
    - rewrite meq_refl. auto.
    - rewrite K. auto. }
  destruct (@mark_pairs_spec solvers ps [] Hg) as (rm & E & A & B). simpl in E, A, B.
  destruct (@conflict_loop_pairs solvers c (by_length l) c [] (obs_refl c)) as (c1 & Ho & El).
  { intros m Hm. apply in_by_length in Hm as [Hm Hp]. rewrite <- Hd in Hm. apply (@conf_some c HI Hpub); assumption. }
  assert (Hrm : incl rm (all_handed ops)).
  { intros x Hx. apply in_split in Hx as (a & b & ->). destruct (A a x b eq_refl) as (p1 & m & y & p2 & Eps & D & _).
    assert (In (m, y) ps) as Hin by (rewrite Eps; apply in_or_app; right; left; reflexivity).
    destruct (Ps m y Hin) as (P1 & _ & P3 & _). destruct (Hin2 m y x Hin D) as [-> | ->]; auto. }
  assert (HI1 : Inv no_ghost c1) by (eapply obs_Inv; eassumption).
  destruct (@remove_many_ok no_ghost (perm rm) c1 HI1) as (c' & E' & _ & HI' & _ & Hd').
  exists c', rm.
  assert (Hd1 : c_del c1 = l) by (destruct Ho as (O1 & _); rewrite O1; exact Hd).
  split; [unfold conflict_rule, conflict_when; rewrite Hd, El; fold ps; rewrite E; unfold remove_then, drop_ret; rewrite E'; reflexivity|].
  split; [rewrite Hd', Hd1; symmetry; apply take_out_all_perm, Hperm|].
  split; [apply Inv_agree, HI'|]. split; [exact E|]. split; [exact Ps|].
  split; [intros m x Hm Hp Hx Hpx Hov Hn; unfold ps; rewrite <- Hd in Hm, Hx |- *; apply (@pairs_complete c (all_handed ops) HI HU Hpub Hpr m x); assumption|].
  assert (Hset : forall x a, In x (all_handed ops) -> incl a rm -> (in_set x a = true <-> In x a)).
  { intros x a Hx Ha. apply (@in_set_iff (all_handed ops)); auto. intros z Hz. apply Hrm, Ha, Hz. }
  split; [|split; [|split; [exact Hrm|split]]].
  - intros a x b Er. destruct (A a x b Er) as (p1 & m & y & p2 & Eps & D & F & G & K). exists p1, m, y, p2.
    assert (In (m, y) ps) as Hin by (rewrite Eps; apply in_or_app; right; left; reflexivity).
    assert (incl a rm) as Ha by (rewrite Er; intros z Hz; apply in_or_app; auto).
    destruct (Ps m y Hin) as (P1 & _ & P3 & _).
    split; [exact Eps|]. split; [exact D|]. split; [exact F|]. split.
    + intro Hx. apply (Hset x a) in Hx; [congruence | apply Hrm; rewrite Er; apply in_or_app; right; left; reflexivity | exact Ha].
    + destruct (Hkept m y x Hin D) as [[E1 E2]|[E1 E2]]; rewrite E2 in K; [left|right]; (split; [exact E1|]); intro Hz;
        (apply (Hset _ a) in Hz; [congruence | auto | exact Ha]).
  - intros p1 m y p2 x Eps D. destruct (B p1 m y p2 x Eps D) as (a & b & Er & F & G). exists a, b. split; [exact Er|]. split; [exact F|].
    assert (In (m, y) ps) as Hin by (rewrite Eps; apply in_or_app; right; left; reflexivity).
    destruct (Ps m y Hin) as (P1 & _ & P3 & _). assert (incl a rm) as Ha by (rewrite Er; intros z Hz; apply in_or_app; auto).
    destruct G as [G|G].
    + left. apply (Hset x rm) in G; [exact G | | apply incl_refl]. destruct (Hin2 m y x Hin D) as [-> | ->]; auto.
    + right. destruct (Hkept m y x Hin D) as [[E1 E2]|[E1 E2]]; rewrite E2 in G; [left|right]; (split; [exact E1|]);
        (apply (Hset _ a) in G; [exact G | auto | exact Ha]).
  - intros p1 p2 a x Eps Em Hx. destruct (@mark_pairs_spec solvers p1 []) as (a' & E1 & A1 & _).
    { intros m y Hin. apply Hg. rewrite Eps. apply in_or_app. auto. }
    rewrite Em in E1. injection E1 as ->. apply in_split in Hx as (r1 & r2 & Er).
    destruct (A1 r1 x r2 Er) as (q1 & m & y & q2 & Ep & D & _). exists m, y. split; [rewrite Ep; apply in_or_app; right; left; reflexivity | exact D].
  - intros p1 m y p2 m' y' Eps. apply (@pairs_split_sorted c p1 m y p2 m' y'). rewrite Hd. exact Eps.
Qed.

(** ** C29: the outcome does not depend on the order in which the set is iterated *)
Theorem C29_conflict_order : forall solvers perm1 perm2 k input ops,
  acceptable k false [] ops -> no_assignment ops -> an_order perm1 -> an_order perm2 ->
  let c := run (empty_coll k input) ops in
  snd (conflict_rule solvers perm1 c) = snd (conflict_rule solvers perm2 c)
  /\ c_del (fst (conflict_rule solvers perm1 c)) = c_del (fst (conflict_rule solvers perm2 c)).
Proof.
  intros solvers perm1 perm2 k input ops H1 H2 Hp1 Hp2 c. destruct (@reached_ok k input ops H1 H2) as (HI & _). unfold reached in HI. fold c in HI.
  unfold conflict_rule. assert (obs c (fst (conflict_when solvers c))) as Ho.
  { unfold conflict_when. generalize (by_length (c_del c)) as ms. generalize (@nil mtch) as rm. generalize (obs_refl c). generalize c at 2 4.
    intros c1 Ho rm ms. revert c1 Ho rm. induction ms as [|m ms IH]; intros c1 Ho rm; simpl; [exact Ho|].
    destruct (q_conflicting_rel m Ho) as [A B]. destruct (q_conflicting c1 m) as [c2 [r|e]]; simpl in *; [|exact A].
    destruct (mark_all solvers rm m (by_length r)); [apply IH, A | exact A]. }
  destruct (conflict_when solvers c) as [c1 [rm|e]]; [|split; reflexivity]. simpl in Ho.
  assert (HI1 : Inv no_ghost c1) by (eapply obs_Inv; eassumption).
  destruct (@remove_many_ok no_ghost (perm1 rm) c1 HI1) as (c' & E & _ & _ & _ & Hd).
  destruct (@remove_many_ok no_ghost (perm2 rm) c1 HI1) as (c'' & E' & _ & _ & _ & Hd').
  unfold remove_then, drop_ret. rewrite E, E'. simpl. split; [reflexivity|]. rewrite Hd, Hd'. apply take_out_all_perm.
  rewrite <- (Hp1 rm). apply Hp2.
Qed.

(** ** C35 *)
Lemma NoDup_distinct ops l : distinct_objects (all_handed ops) -> incl l (all_handed ops) -> NoDup l -> forall x, In x l -> countb (meq x) l = 1%nat.
Proof.
  intros Hd Hi Hn x Hx. assert (filter (meq x) l = [x]) as E; [|unfold countb; rewrite E; reflexivity].
  assert (forall y, In y (filter (meq x) l) -> y = x) as H1.
  { intros y Hy. apply filter_In in Hy as [Hy E]. symmetry. apply Hd; auto. }
  assert (In x (filter (meq x) l)) as H2 by (apply filter_In; split; [exact Hx | apply meq_refl]).
  pose proof (NoDup_filter (meq x) Hn) as H3.
  destruct (filter (meq x) l) as [|a [|b r]]; [contradiction | f_equal; apply H1; left; reflexivity|].
  exfalso. inversion H3 as [|? ? H4 _]; subst. apply H4. left. rewrite (H1 a), (H1 b) by (simpl; auto). reflexivity.
Qed.
Lemma in_rm_gone ops l rm x : distinct_objects (all_handed ops) -> incl l (all_handed ops) -> NoDup l -> In x l -> In x rm -> ~ In x (take_out_all l rm).
Proof.
  intros Hd Hi Hn Hx Hr. apply take_out_all_gone; [exact Hx|]. rewrite (NoDup_distinct Hd Hi Hn Hx).
  unfold countb. assert (In x (filter (meq x) rm)) as H by (apply filter_In; split; [exact Hr | apply meq_refl]).
  destruct (filter (meq x) rm); [contradiction | simpl; lia].
Qed.
Lemma handed_members k ops : acceptable k false [] ops -> no_assignment ops -> incl (list_run [] ops) (all_handed ops).
Proof.
  intros H1 H2 m Hm. destruct (@reached_ok k None ops H1 H2) as (_ & Hd & _). rewrite <- Hd in Hm. eapply del_U; [apply reached_univ | exact Hm].
Qed.

(** No two members are [==] (and a match is not twice in the collection). *)
Theorem C35_conflicts_resolved_partial : forall solvers perm k input ops,
  situation k ops -> no_custom_solver ops -> an_order perm ->
  distinct_objects (all_handed ops) -> NoDup (list_run [] ops) ->
  let c := run (empty_coll k input) ops in
  exists c', conflict_rule solvers perm c = (c', Ok tt) /\ lookups_agree c'
    /\ forall a b, In a (c_del c') -> In b (c_del c') -> m_private a = false -> m_private b = false -> overlap a b ->
         mlen (initiator a) = mlen (initiator b).
Proof.
  intros solvers perm k input ops Hs Hn Hperm Hdo Hnd c.
  destruct (@conflict_run solvers perm k input ops Hs (no_custom_one Hn) Hperm) as (c' & rm & E & Hd & Hl & _ & Ps & Pc & _ & B & Hrm & _).
  fold c in E, Ps, Pc, B. set (l := list_run [] ops) in *. pose proof (@handed_members k ops (sit_ok Hs) (sit_na Hs)) as HlU. fold l in HlU.
  exists c'. split; [exact E|]. split; [exact Hl|]. rewrite Hd.
  assert (forall a b, In a (take_out_all l rm) -> In b (take_out_all l rm) -> m_private a = false -> m_private b = false -> overlap a b -> ilen a < ilen b -> False) as G.
  { intros a b Ha Hb Pa Pb Hov Hlt.
    assert (In a l) as Ha' by (eapply sublist_In; [apply take_out_sublist | exact Ha]).
    assert (In b l) as Hb' by (eapply sublist_In; [apply take_out_sublist | exact Hb]).
    assert (meq b a = false) as Hne.
    { destruct (meq b a) eqn:Em; [|reflexivity]. apply meq_initiator_len in Em. unfold ilen in Hlt. lia. }
    destruct (Pc a b Ha' Pa Hb' Pb (overlap_sym Hov) Hne) as (y & Hy & Ey).
    assert (b = y) as <-. { destruct (Ps a y Hy) as (_ & _ & Hyu & _). apply Hdo; auto. }
    apply in_split in Hy as (p1 & p2 & Eps).
    assert (decide solvers a b = VMatch a) as D.
    { unfold no_custom_solver in Hn. rewrite Forall_forall in Hn. rewrite decide_default by auto. unfold default_solver, ilen in *.
      replace (mlen (initiator b) <? mlen (initiator a)) with false by lia. replace (mlen (initiator a) <? mlen (initiator b)) with true by lia. reflexivity. }
    destruct (B p1 a b p2 a Eps D) as (r1 & r2 & Er & _ & Hcase).
    assert (In a rm \/ In b rm) as [Hr|Hr].
    { destruct Hcase as [H|[[_ H]|[H1 H2]]]; [auto | right; rewrite Er; apply in_or_app; auto | left; rewrite Er; apply in_or_app; auto]. }
    - exact (in_rm_gone Hdo HlU Hnd Ha' Hr Ha).
    - exact (in_rm_gone Hdo HlU Hnd Hb' Hr Hb). }
  intros a b Ha Hb Pa Pb Hov. destruct (Z.lt_total (ilen a) (ilen b)) as [H|[H|H]]; [|exact H|].
  - exfalso. eapply (G a b); eassumption.
  - exfalso. apply (G b a); auto. apply overlap_sym, Hov.
Qed.

(** Refutations of the full statement.  With two [==] members of span (0,2) and two of span
    (1,5), one of each is removed and the other two, which overlap, stay although their
    initiators have lengths 2 and 10. *)
Definition p_x (id : nat) : mtch := mk_match id 0 2.
Definition p_with (m : mtch) (plen : Z) : mtch := set_parent m (Some (mk_match 90 0 plen)).
Definition p_y (id : nat) : mtch := p_with (mk_match id 1 5) 10.
Definition p_w : mtch := p_with (mk_match 5 4 6) 20.
Definition p_v : mtch := p_with (mk_match 6 5 11) 30.
Definition p_ops : list op := [OExtend [p_x 1; p_w; p_x 2; p_v; p_y 3; p_y 4]].
Theorem C35_equal_members_refuted :
  let c := run (empty_coll KMatches None) p_ops in
  let c' := fst (conflict_rule (fun _ _ _ => VDefault) (fun l => l) c) in
  situation KMatches p_ops /\ no_custom_solver p_ops
  /\ In (p_x 2) (c_del c') /\ In (p_y 4) (c_del c') /\ overlap (p_x 2) (p_y 4)
  /\ mlen (initiator (p_x 2)) = 2 /\ mlen (initiator (p_y 4)) = 10.
Proof.
  split; [|split; [repeat constructor|split; [vm_compute; tauto|split; [vm_compute; tauto|split; [exists 1; unfold covers; simpl; lia|split; reflexivity]]]]].
  split.
  - repeat split; repeat constructor.
  - reflexivity.
  - intros a b Ha Hb E. simpl in Ha, Hb.
    repeat match goal with H : _ \/ _ |- _ => destruct H as [H|H] end; try contradiction; subst; simpl in E; try discriminate; reflexivity.
  - intros a b Ha Hb _. simpl in Ha, Hb.
    repeat match goal with H : _ \/ _ |- _ => destruct H as [H|H] end; try contradiction; subst; reflexivity.
  - intros m Hm _. simpl in Hm. unfold nonempty.
    repeat match goal with H : _ \/ _ |- _ => destruct H as [H|H] end; try contradiction; subst; simpl; lia.
Qed.
(** A private match [==] to a public one: the private one is removed in its place.  And an
    empty public match makes the rule fail. *)
Theorem C35_private_equal_refuted :
  let a := mk_match 1 0 3 in
  let ops := [OExtend [set_private (mk_match 2 0 3) true; a; mk_match 3 1 9]] in
  let c := run (empty_coll KMatches None) ops in
  c_del (fst (conflict_rule (fun _ _ _ => VDefault) (fun l => l) c)) = [a; mk_match 3 1 9].
Proof. reflexivity. Qed.
Theorem C35_empty_match_refuted : forall solvers perm k input ops m,
  acceptable k false [] ops -> no_assignment ops ->
  In m (list_run [] ops) -> m_private m = false -> ~ nonempty m ->
  snd (conflict_rule solvers perm (run (empty_coll k input) ops)) = Err ValueError.
Proof.
  intros solvers perm k input ops m H1 H2 Hm Hp Hne. destruct (@reached_ok k input ops H1 H2) as (HI & Hd & _). unfold reached in *.
  set (c := run (empty_coll k input) ops) in *. unfold conflict_rule, conflict_when.
  destruct (@conflict_loop_error solvers c (by_length (c_del c)) c [] (obs_refl c)) as (c' & e & E & ->).
  - exists m. split; [apply in_by_length; split; [rewrite Hd; exact Hm | exact Hp]|]. apply (conf_none_iff HI); [rewrite Hd; exact Hm | exact Hne].
  - rewrite E. reflexivity.
Qed.
Definition p_ops2 : list op := [OExtend [p_x 1; p_w; p_v; p_y 3]; OEnding 5; OAppend (set_private (mk_match 9 0 20) true)].
Example C35_witness :
  let c := run (empty_coll KMatches None) p_ops2 in
  situation KMatches p_ops2 /\ no_custom_solver p_ops2 /\ distinct_objects (all_handed p_ops2) /\ NoDup (list_run [] p_ops2)
  /\ c_del (fst (conflict_rule (fun _ _ _ => VDefault) (fun l => rev l) c)) = [p_v; set_private (mk_match 9 0 20) true].
Proof.
  split; [|split; [repeat constructor|split; [|split; [|reflexivity]]]].
  - split.
    + repeat split; repeat constructor.
    + reflexivity.
    + intros a b Ha Hb E. simpl in Ha, Hb.
      repeat match goal with H : _ \/ _ |- _ => destruct H as [H|H] end; try contradiction; subst; simpl in E; try discriminate; reflexivity.
    + intros a b Ha Hb E. simpl in Ha, Hb.
      repeat match goal with H : _ \/ _ |- _ => destruct H as [H|H] end; try contradiction; subst; try reflexivity; discriminate.
    + intros m Hm Hp. simpl in Hm. unfold nonempty.
      repeat match goal with H : _ \/ _ |- _ => destruct H as [H|H] end; try contradiction; subst; simpl; lia.
  - intros a b Ha Hb E. simpl in Ha, Hb.
    repeat match goal with H : In _ _ \/ _ |- _ => destruct H as [H|H] | H : _ = _ \/ _ |- _ => destruct H as [H|H] end; try contradiction; subst;
      try reflexivity; discriminate.
  - repeat constructor; simpl; intuition discriminate.
Qed.

(** ** C36 *)
Definition overlapsb (a b : mtch) : bool := Z.max (m_start a) (m_start b) <? Z.min (m_end a) (m_end b).
Lemma overlapsb_spec a b : overlapsb a b = true <-> overlap a b.
Proof.
  unfold overlapsb, overlap, covers. split.
  - intro H. exists (Z.max (m_start a) (m_start b)). lia.
  - intros (i & H1 & H2). lia.
Qed.
(** some non-private member with a strictly longer initiator overlaps [x] *)
Definition beaten (l : list mtch) (x : mtch) : bool :=
  existsb (fun y => negb (m_private y) && overlapsb x y && (mlen (initiator x) <? mlen (initiator y))) l.
Theorem C36_removed_for_a_reason : forall solvers perm k input ops,
  situation k ops -> no_custom_solver ops -> an_order perm ->
  let c := run (empty_coll k input) ops in
  let l := list_run [] ops in
  exists c' decided,
    conflict_rule solvers perm c = (c', Ok tt)
    /\ sublist (c_del c') l
    (* exactly the decided matches are gone *)
    /\ c_del c' = take_out_all l decided
    (* each decision: public, overlapped by a longer-initiator public match not removed so far *)
    /\ (forall a x b, decided = a ++ x :: b ->
          m_private x = false /\ found x l /\ ~ In x a
          /\ exists y, m_private y = false /\ found y l /\ ~ In y a /\ overlap x y /\ mlen (initiator x) < mlen (initiator y))
    (* private and unbeaten matches all stay, in order *)
    /\ filter (fun x => m_private x || negb (beaten l x)) (c_del c') = filter (fun x => m_private x || negb (beaten l x)) l.
Proof.
  intros solvers perm k input ops Hs Hn Hperm c l.
  destruct (@conflict_run solvers perm k input ops Hs (no_custom_one Hn) Hperm) as (c' & rm & E & Hd & Hl & _ & Ps & Pc & A & B & Hrm & _).
  fold c in E, Ps, Pc, A, B. fold l in Hd, Ps, Pc, A, B. exists c', rm. split; [exact E|]. split; [rewrite Hd; apply take_out_sublist|]. split; [exact Hd|].
  assert (G : forall a x b, rm = a ++ x :: b -> m_private x = false /\ found x l /\ ~ In x a
          /\ exists y, In y (all_handed ops) /\ m_private y = false /\ found y l /\ ~ In y a /\ overlap x y /\ mlen (initiator x) < mlen (initiator y)).
  { intros a x b Er. destruct (A a x b Er) as (p1 & m & y & p2 & Eps & D & _ & Hx & Hcase).
    assert (In (m, y) (pairs c (by_length l))) as Hin by (rewrite Eps; apply in_or_app; right; left; reflexivity).
    destruct (Ps m y Hin) as (P1 & P2 & P3 & P4 & P5 & P6 & P7).
    unfold no_custom_solver in Hn. rewrite Forall_forall in Hn. pose proof (@handed_members k ops (sit_ok Hs) (sit_na Hs)) as HlU. fold l in HlU.
    rewrite decide_default in D by auto. assert (Hmy : m <> y) by (intro; subst; rewrite meq_refl in P7; discriminate).
    assert (found m l) as Hfm by (exists m; split; [exact P1 | apply meq_refl]).
    apply default_match in D as [[-> Hlt]|[-> Hlt]]; unfold ilen in Hlt.
    - destruct Hcase as [[Em _]|[_ Hk]]; [congruence|]. split; [exact P4|]. split; [exact P5|]. split; [exact Hx|]. exists m. auto 10.
    - destruct Hcase as [[_ Hk]|[Em _]]; [|congruence]. split; [exact P2|]. split; [exact Hfm|]. split; [exact Hx|].
      exists y. split; [exact P3|]. split; [exact P4|]. split; [exact P5|]. split; [exact Hk|]. split; [apply overlap_sym, P6 | exact Hlt]. }
  pose proof (@handed_members k ops (sit_ok Hs) (sit_na Hs)) as HlU. fold l in HlU.
  split.
  { intros a x b Er. destruct (G a x b Er) as (G1 & G2 & G3 & y & _ & G4). split; [exact G1|]. split; [exact G2|]. split; [exact G3|]. exists y. exact G4. }
  rewrite Hd. apply take_out_all_keep. intros x z Hx Hp Hz.
  destruct (meq z x) eqn:Ezx; [|reflexivity]. exfalso. pose proof (Hrm z Hz) as HzU. apply in_split in Hz as (a & b & Er).
  destruct (G a z b Er) as (G1 & G2 & _ & y & HyU & G3 & (y' & Hy' & Eyy) & _ & G4 & G5).
  rewrite <- (@sit_private _ _ Hs z x HzU (HlU x Hx) Ezx), G1 in Hp. simpl in Hp. apply negb_true_iff in Hp.
  unfold beaten in Hp. pose proof (proj1 (existsb_false_iff _ _) Hp y' Hy') as Hb. cbv beta in Hb.
  rewrite <- (@sit_private _ _ Hs y y' HyU (HlU y' Hy') Eyy), G3 in Hb.
  rewrite (proj2 (overlapsb_spec x y') (meq_overlap Ezx Eyy G4)) in Hb.
  rewrite <- (meq_initiator_len Ezx), <- (meq_initiator_len Eyy) in Hb. simpl in Hb. lia.
Qed.

Example C36_witness :
  let c := run (empty_coll KMatches None) p_ops in
  map m_id (c_del (fst (conflict_rule (fun _ _ _ => VDefault) (fun l => l) c))) = [2; 6; 4]%nat
  /\ map (beaten (list_run [] p_ops)) (list_run [] p_ops) = [true; true; true; false; true; true].
Proof. split; reflexivity. Qed.

(** ** C37 *)
Theorem C37_longest_wins : forall solvers perm k input ops,
  situation k ops -> no_custom_solver ops -> an_order perm ->
  Forall (fun m => m_parent m = None) (all_handed ops) -> NoDup (list_run [] ops) ->
  let c := run (empty_coll k input) ops in
  let l := list_run [] ops in
  exists c', conflict_rule solvers perm c = (c', Ok tt) /\ lookups_agree c'
    /\ c_del c' = filter (fun x => m_private x
                           || negb (existsb (fun y => negb (m_private y) && overlapsb x y && (mlen x <? mlen y)) l)) l.
Proof.
  intros solvers perm k input ops Hs Hn Hperm Hpar Hnd c l.
  destruct (@conflict_run solvers perm k input ops Hs (no_custom_one Hn) Hperm) as (c' & rm & E & Hd & Hl & _ & Ps & Pc & A & B & Hrm & Pre & Srt).
  fold c in E, Ps, Pc, A, B, Pre, Srt. fold l in Hd, Ps, Pc, A, B, Pre, Srt. exists c'. split; [exact E|]. split; [exact Hl|].
  pose proof (@handed_members k ops (sit_ok Hs) (sit_na Hs)) as HlU. fold l in HlU.
  unfold no_custom_solver in Hn. rewrite Forall_forall in Hn, Hpar.
  assert (Hil : forall x, In x (all_handed ops) -> ilen x = mlen x).
  { intros x Hx. unfold ilen. rewrite initiator_unfold, (Hpar x Hx). reflexivity. }
  set (b := fun x => existsb (fun y => negb (m_private y) && overlapsb x y && (mlen x <? mlen y)) l).
  assert (Hb : forall x y, meq x y = true -> b x = b y).
  { intros x y Exy. unfold b. assert (forall z, In z l -> negb (m_private z) && overlapsb x z && (mlen x <? mlen z) = negb (m_private z) && overlapsb y z && (mlen y <? mlen z)) as H.
    { intros z _. rewrite (meq_mlen Exy). apply meq_mkey in Exy. unfold overlapsb. rewrite (@mkey_start _ _ Exy), (@mkey_end _ _ Exy). reflexivity. }
    clear - H. induction l as [|z l' IH]; simpl; [reflexivity|]. rewrite H by (left; reflexivity). f_equal. apply IH. intros w Hw. apply H. right. exact Hw. }
  (* decided matches are beaten *)
  assert (Hbeaten : forall x, In x rm -> m_private x = false /\ b x = true).
  { intros x Hx. apply in_split in Hx as (r1 & r2 & Er). destruct (A r1 x r2 Er) as (p1 & m & y & p2 & Eps & D & _).
    assert (In (m, y) (pairs c (by_length l))) as Hin by (rewrite Eps; apply in_or_app; right; left; reflexivity).
    destruct (Ps m y Hin) as (P1 & P2 & P3 & P4 & (y' & Hy' & Ey) & P6 & P7). rewrite decide_default in D by auto.
    apply default_match in D as [[-> Hlt]|[-> Hlt]]; rewrite !Hil in Hlt by auto.
    - split; [exact P4|]. unfold b. apply existsb_exists. exists m. split; [exact P1|]. rewrite P2. apply overlapsb_spec in P6. rewrite P6. simpl. lia.
    - split; [exact P2|]. unfold b. apply existsb_exists. exists y'. split; [exact Hy'|].
      rewrite <- (@sit_private _ _ Hs y y' P3 (HlU _ Hy') Ey), P4. rewrite <- (meq_mlen Ey).
      rewrite (proj2 (overlapsb_spec m y')); [simpl; lia|]. apply (meq_overlap (meq_refl m) Ey), overlap_sym, P6. }
  (* beaten members are decided *)
  assert (Hdec : forall x, In x l -> m_private x = false -> b x = true -> In x rm).
  { intros x Hx Hp Hbx. unfold b in Hbx. apply existsb_exists in Hbx as (y & Hy & Hyx). apply andb_true_iff in Hyx as [Hyx Hlt]. apply andb_true_iff in Hyx as [Py Hov].
    apply negb_true_iff in Py. apply overlapsb_spec in Hov.
    assert (meq y x = false) as Hne by (destruct (meq y x) eqn:Em; [apply meq_mlen in Em; lia | reflexivity]).
    destruct (Pc x y Hx Hp Hy Py (overlap_sym Hov) Hne) as (y0 & Hin & Ey).
    destruct (Ps x y0 Hin) as (_ & _ & Hy0 & _). apply in_split in Hin as (p1 & p2 & Eps). apply meq_mlen in Ey.
    assert (decide solvers x y0 = VMatch x) as D.
    { rewrite decide_default by auto. unfold default_solver. change (mlen (initiator y0)) with (ilen y0). change (mlen (initiator x)) with (ilen x).
      rewrite !Hil by auto. replace (mlen y0 <? mlen x) with false by lia. replace (mlen x <? mlen y0) with true by lia. reflexivity. }
    destruct (B p1 x y0 p2 x Eps D) as (r1 & r2 & Er & Em & Hcase). destruct Hcase as [H|[[_ H]|[H1 H2]]]; [exact H | exfalso | rewrite Er; apply in_or_app; auto].
    destruct (Pre p1 ((x, y0) :: p2) r1 y0 Eps Em H) as (m' & y' & Hin' & D').
    pose proof (Srt p1 x y0 p2 m' y' Eps Hin') as Hle.
    destruct (Ps m' y') as (Q1 & _ & Q3 & _); [rewrite Eps; apply in_or_app; auto|]. rewrite decide_default in D' by auto.
    apply default_match in D' as [[E1 Hlt']|[E1 Hlt']]; rewrite !Hil in Hlt' by auto; rewrite E1 in Ey; lia. }
  rewrite Hd. apply take_out_all_filter. intros x Hx. change (existsb _ l) with (b x). destruct (m_private x) eqn:Ep; simpl.
  - apply countb_zero. intros z Hz. destruct (meq x z) eqn:Ez; [|reflexivity].
    destruct (Hbeaten z Hz) as [Pz _]. rewrite (@sit_private _ _ Hs x z) in Ep; auto. congruence.
  - destruct (b x) eqn:Ebx; simpl.
    + apply countb_incl; [apply NoDup_filter, Hnd|]. intros z Hz. apply filter_In in Hz as [Hz Ez]. apply filter_In. split; [|exact Ez].
      apply Hdec; [exact Hz | rewrite <- (@sit_private _ _ Hs x z); auto | rewrite <- (Hb x z Ez); exact Ebx].
    + apply countb_zero. intros z Hz. destruct (meq x z) eqn:Ez; [|reflexivity]. destruct (Hbeaten z Hz) as [_ Bz]. rewrite <- (Hb x z Ez) in Bz. congruence.
Qed.
Definition p_ops4 : list op := [OExtend [mk_match 1 0 3; mk_match 2 2 6; mk_match 3 0 3; set_private (mk_match 4 0 20) true; mk_match 5 6 8; mk_match 6 5 10]].
Example C37_witness :
  let c := run (empty_coll KMatches None) p_ops4 in
  situation KMatches p_ops4 /\ no_custom_solver p_ops4 /\ Forall (fun m => m_parent m = None) (all_handed p_ops4) /\ NoDup (list_run [] p_ops4)
  /\ map m_id (c_del (fst (conflict_rule (fun _ _ _ => VDefault) (fun l => rev l) c))) = [4; 6]%nat.
Proof.
  split; [|split; [repeat constructor|split; [repeat constructor|split; [repeat constructor; simpl; intuition discriminate | reflexivity]]]].
  split.
  - repeat split; repeat constructor.
  - reflexivity.
  - intros a b Ha Hb E. simpl in Ha, Hb.
    repeat match goal with H : _ \/ _ |- _ => destruct H as [H|H] end; try contradiction; subst; simpl in E; try discriminate; reflexivity.
  - intros a b Ha Hb E. simpl in Ha, Hb.
    repeat match goal with H : _ \/ _ |- _ => destruct H as [H|H] end; try contradiction; subst; try reflexivity; discriminate.
  - intros m Hm Hp. simpl in Hm. unfold nonempty.
    repeat match goal with H : _ \/ _ |- _ => destruct H as [H|H] end; try contradiction; subst; simpl; lia.
Qed.

(** ** C38 *)
(** what the conflict solver of [owner] says of its conflict with [other] *)
Definition own_answer (solvers : nat -> mtch -> mtch -> verdict) (owner other : mtch) : verdict :=
  match m_solver owner with Some f => solvers f owner other | None => VDefault end.
(** the longer one (by initiator) stays *)
Definition longer_stays (m c : mtch) : verdict :=
  match Z.compare (mlen (initiator m)) (mlen (initiator c)) with Gt => VMatch c | Lt => VMatch m | Eq => VNothing end.
(** conflict of [m] with [c]: the solver of [c] is asked first, then that of [m], then the default *)
Definition settled (solvers : nat -> mtch -> mtch -> verdict) (m c : mtch) : verdict :=
  match own_answer solvers c m with
  | VDefault => match own_answer solvers m c with VDefault => longer_stays m c | v => v end
  | v => v
  end.
Lemma decide_settled solvers m c : decide solvers m c = settled solvers m c.
Proof.
  assert (default_solver m c = longer_stays m c) as Ed.
  { unfold default_solver, longer_stays. destruct (Z.compare_spec (mlen (initiator m)) (mlen (initiator c))).
    - replace (_ <? _) with false by lia. replace (_ <? _) with false by lia. reflexivity.
    - replace (mlen (initiator c) <? _) with false by lia. replace (_ <? _) with true by lia. reflexivity.
    - replace (mlen (initiator c) <? _) with true by lia. reflexivity. }
  assert (forall r, match default_solver m c with VDefault => r | v => v end = longer_stays m c) as Ed'.
  { intro r. rewrite Ed. unfold longer_stays. destruct (_ ?= _); reflexivity. }
  unfold decide, conflict_solvers, settled, own_answer.
  destruct (m_solver m) as [f|], (m_solver c) as [g|]; simpl; rewrite ?Ed'; try reflexivity.
Qed.
Theorem C38_custom_solvers_partial : forall solvers perm k input ops,
  situation k ops -> well_behaved solvers -> an_order perm ->
  distinct_objects (all_handed ops) -> NoDup (list_run [] ops) ->
  let c := run (empty_coll k input) ops in
  let l := list_run [] ops in
  exists c', conflict_rule solvers perm c = (c', Ok tt) /\ sublist (c_del c') l /\ lookups_agree c'
    (* a settled conflict costs one of the two *)
    /\ (forall m x y, In m l -> In y l -> m_private m = false -> m_private y = false -> overlap m y -> m <> y ->
          settled solvers m y = VMatch x -> ~ (In m (c_del c') /\ In y (c_del c')))
    (* nothing is removed but what some settled conflict says *)
    /\ (forall x, In x l -> ~ In x (c_del c') ->
          m_private x = false
          /\ exists y, In y l /\ m_private y = false /\ overlap x y /\ x <> y
               /\ (settled solvers x y = VMatch x \/ settled solvers y x = VMatch x)).
Proof.
  intros solvers perm k input ops Hs Hw Hperm Hdo Hnd c l.
  destruct (@conflict_run solvers perm k input ops Hs (@well_behaved_one _ _ Hw) Hperm) as (c' & rm & E & Hd & Hl & _ & Ps & Pc & A & B & Hrm & _).
  fold c in E, Ps, Pc, A, B. fold l in Hd, Ps, Pc, A, B. pose proof (@handed_members k ops (sit_ok Hs) (sit_na Hs)) as HlU. fold l in HlU, Hnd.
  exists c'. split; [exact E|]. split; [rewrite Hd; apply take_out_sublist|]. split; [exact Hl|]. rewrite Hd. split.
  - intros m x y Hm Hy Pm Py Hov Hne Ex [Im Iy]. rewrite <- decide_settled in Ex.
    assert (meq y m = false) as Hf. { destruct (meq y m) eqn:Em; [|reflexivity]. exfalso. apply Hne. symmetry. apply Hdo; auto. }
    destruct (Pc m y Hm Pm Hy Py (overlap_sym Hov) Hf) as (y0 & Hin & Ey).
    assert (y = y0) as <-. { destruct (Ps m y0 Hin) as (_ & _ & Hyu & _). apply Hdo; auto. }
    apply in_split in Hin as (p1 & p2 & Eps). destruct (B p1 m y p2 x Eps Ex) as (r1 & r2 & Er & _ & Hcase).
    assert (In m rm \/ In y rm) as [Hr|Hr].
    { destruct Hcase as [H|[[_ H]|[_ H]]]; [|right; rewrite Er; apply in_or_app; auto | left; rewrite Er; apply in_or_app; auto].
      destruct (consult_in Hw Ex) as [-> | ->]; auto. }
    + exact (in_rm_gone Hdo HlU Hnd Hm Hr Im).
    + exact (in_rm_gone Hdo HlU Hnd Hy Hr Iy).
  - intros x Hx Hgone.
    assert (In x rm) as Hr.
    { destruct (existsb (meq x) rm) eqn:Ee.
      - apply existsb_exists in Ee as (z & Hz & Exz). assert (x = z) as -> by (apply Hdo; auto). exact Hz.
      - exfalso. apply Hgone. assert (In x (filter (meq x) (take_out_all l rm))) as Hin.
        { rewrite take_out_all_keep; [apply filter_In; split; [exact Hx | apply meq_refl]|].
          intros w z Hw' Ew Hz. pose proof (proj1 (existsb_false_iff _ _) Ee z Hz) as Hf. apply meq_false_mkey in Hf. apply meq_false_mkey.
          apply meq_mkey in Ew. congruence. }
        apply filter_In in Hin. apply Hin. }
    apply in_split in Hr as (r1 & r2 & Er). destruct (A r1 x r2 Er) as (p1 & m & y & p2 & Eps & D & _ & _ & Hcase).
    assert (In (m, y) (pairs c (by_length l))) as Hin by (rewrite Eps; apply in_or_app; right; left; reflexivity).
    destruct (Ps m y Hin) as (P1 & P2 & P3 & P4 & (y' & Hy' & Ey) & P6 & P7).
    assert (y = y') as <- by (apply Hdo; auto). rewrite decide_settled in D.
    assert (m <> y) as Hne by (intro; subst; rewrite meq_refl in P7; discriminate).
    destruct Hcase as [[-> _]|[-> _]].
    + split; [exact P2|]. exists y. split; [exact Hy'|]. split; [exact P4|]. split; [apply overlap_sym, P6|]. auto.
    + split; [exact P4|]. exists m. split; [exact P1|]. split; [exact P2|]. split; [exact P6|]. split; [congruence|]. auto.
Qed.
(** a shorter match that wins by its own solver (7), one that defers to the default (8) *)
Definition p_solvers (f : nat) (owner other : mtch) : verdict :=
  match f with 7%nat => VMatch other | 8%nat => VDefault | _ => VNothing end.
Definition p_ops5 : list op :=
  [OExtend [set_solver (mk_match 1 0 3) (Some 7%nat); mk_match 2 2 6; set_solver (mk_match 3 10 12) (Some 8%nat); mk_match 4 11 20;
            set_solver (mk_match 5 30 33) (Some 9%nat); mk_match 6 32 40]].
Example C38_witness :
  let c := run (empty_coll KMatches None) p_ops5 in
  situation KMatches p_ops5 /\ well_behaved p_solvers /\ distinct_objects (all_handed p_ops5) /\ NoDup (list_run [] p_ops5)
  /\ map m_id (c_del (fst (conflict_rule p_solvers (fun l => rev l) c))) = [1; 4; 5; 6]%nat.
Proof.
  split; [|split; [|split; [|split; [repeat constructor; simpl; intuition discriminate | reflexivity]]]].
  - split.
    + repeat split; repeat constructor.
    + reflexivity.
    + intros a b Ha Hb E. simpl in Ha, Hb.
      repeat match goal with H : _ \/ _ |- _ => destruct H as [H|H] end; try contradiction; subst; simpl in E; try discriminate; reflexivity.
    + intros a b Ha Hb E. simpl in Ha, Hb.
      repeat match goal with H : _ \/ _ |- _ => destruct H as [H|H] end; try contradiction; subst; try reflexivity; discriminate.
    + intros m Hm Hp. simpl in Hm. unfold nonempty.
      repeat match goal with H : _ \/ _ |- _ => destruct H as [H|H] end; try contradiction; subst; simpl; lia.
  - intros f a b x E. do 10 (destruct f as [|f]; [simpl in E; try discriminate; injection E as <-; auto|]). discriminate.
  - intros a b Ha Hb E. simpl in Ha, Hb.
    repeat match goal with H : In _ _ \/ _ |- _ => destruct H as [H|H] | H : _ = _ \/ _ |- _ => destruct H as [H|H] end; try contradiction; subst;
      try reflexivity; discriminate.
Qed.
(** a solver that names a third match makes the rule fail *)
Example C38_third_match :
  let c := run (empty_coll KMatches None) [OExtend [set_solver (mk_match 1 0 3) (Some 0%nat); mk_match 2 2 6]] in
  snd (conflict_rule (fun _ _ _ => VMatch (mk_match 3 7 8)) (fun l => l) c) = Err ValueError.
Proof. reflexivity. Qed.
(** with [==] members the first statement fails as in C35: there the pair (p_x 2, p_y 4) is settled *)
Theorem C38_equal_members_refuted :
  let c := run (empty_coll KMatches None) p_ops in
  let solvers := fun (_ : nat) (_ _ : mtch) => VDefault in
  let c' := fst (conflict_rule solvers (fun l => l) c) in
  settled solvers (p_x 2) (p_y 4) = VMatch (p_x 2) /\ In (p_x 2) (c_del c') /\ In (p_y 4) (c_del c').
Proof. split; [reflexivity|]. vm_compute. tauto. Qed.

(** ** C39 *)
Theorem C39_private_removed_partial : forall k input ops,
  acceptable k false [] ops -> no_assignment ops ->
  let c := run (empty_coll k input) ops in
  let l := list_run [] ops in
  respects_eq_on l m_private ->
  exists c', private_rule c = (c', Ok tt) /\ c_del c' = filter (fun m => negb (m_private m)) l /\ lookups_agree c'.
Proof.
  intros k input ops H1 H2 c l Hr. destruct (@reached_ok k input ops H1 H2) as (HI & Hd & _). unfold reached in *. fold c in HI, Hd. fold l in Hd.
  destruct (@remove_many_ok no_ghost (filter m_private l) c HI) as (c' & E & _ & HI' & _ & Hd'). rewrite Hd in *.
  exists c'. split; [unfold private_rule, remove_then, drop_ret; rewrite Hd, E; reflexivity|]. split; [|apply Inv_agree, HI'].
  rewrite Hd'. apply take_out_all_filter. intros x Hx. destruct (m_private x) eqn:Ep; simpl.
  - unfold countb. rewrite filter_filter. rewrite (filter_ext_in' (fun z => m_private z && meq x z) (meq x)); [lia|].
    intros z Hz. destruct (meq x z) eqn:Ez; [|apply andb_false_r]. rewrite <- (Hr x z Hx Hz Ez), Ep. reflexivity.
  - apply countb_zero. intros z Hz. apply filter_In in Hz as [Hz Pz]. destruct (meq x z) eqn:Ez; [|reflexivity]. rewrite (Hr x z Hx Hz Ez) in Ep. congruence.
Qed.
(** in any case as many members go as there are private ones of each [==] class *)
Theorem C39_private_counts_partial : forall k input ops,
  acceptable k false [] ops -> no_assignment ops ->
  let c := run (empty_coll k input) ops in
  let l := list_run [] ops in
  exists c', private_rule c = (c', Ok tt) /\ sublist (c_del c') l /\ lookups_agree c'
    /\ forall x, countb (meq x) (c_del c') = countb (fun y => meq x y && negb (m_private y)) l.
Proof.
  intros k input ops H1 H2 c l. destruct (@reached_ok k input ops H1 H2) as (HI & Hd & _). unfold reached in *. fold c in HI, Hd. fold l in Hd.
  destruct (@remove_many_ok no_ghost (filter m_private l) c HI) as (c' & E & _ & HI' & _ & Hd'). rewrite Hd in *.
  exists c'. split; [unfold private_rule, remove_then, drop_ret; rewrite Hd, E; reflexivity|].
  split; [rewrite Hd'; apply take_out_sublist|]. split; [apply Inv_agree, HI'|]. intro x. rewrite Hd', countb_take_out_all.
  clear. assert (forall l, countb (meq x) (filter m_private l) <= countb (meq x) l)%nat as Hle.
  { induction l0 as [|y l0 IH]; simpl; [lia|]. destruct (m_private y); rewrite !countb_cons; lia. }
  induction l as [|y l IH]; simpl; [reflexivity|]. specialize (Hle l). rewrite !countb_cons.
  destruct (m_private y) eqn:Ep; rewrite ?countb_cons; destruct (meq x y); cbn [andb negb]; lia.
Qed.
Theorem C39_refuted :
  let public := mk_match 1 0 3 in
  let private := set_private (mk_match 2 0 3) true in
  let c := run (empty_coll KMatches None) [OExtend [public; private]] in
  c_del (fst (private_rule c)) = [private].
Proof. reflexivity. Qed.
Example C39_witness :
  let ops := p_ops4 ++ [OAppend (set_private (mk_match 7 0 1) true)] in
  respects_eq_on (list_run [] ops) m_private
  /\ map m_id (c_del (fst (private_rule (run (empty_coll KMatches None) ops)))) = [1; 2; 3; 5; 6]%nat.
Proof.
  split; [|reflexivity]. intros a b Ha Hb E. simpl in Ha, Hb.
  repeat match goal with H : _ \/ _ |- _ => destruct H as [H|H] end; try contradiction; subst; try reflexivity; discriminate.
Qed.

Print Assumptions C29_conflict_order.
Print Assumptions C35_conflicts_resolved_partial.
Print Assumptions C36_removed_for_a_reason.
Print Assumptions C37_longest_wins.
Print Assumptions C38_custom_solvers_partial.
Print Assumptions C39_private_removed_partial.
