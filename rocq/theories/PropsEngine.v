(** * Properties C64-C67: consequences of a rule, documented order of execution *)
From Verif Require Import Base BaseFacts Match Spec MatchFacts Coll CollFacts CollQuery CollSem CollSem2 SpecColl CollHist CollUniv
  Conseq ConseqFacts Topo TopoFacts Rules RulesFacts RuleThen PropsLoose PropsColl PropsConseq PropsRules.
From Coq Require Import Permutation Sorting.Sorted.
Set Implicit Arguments.
Unset Strict Implicit.
Open Scope nat_scope.

(** ** C64 One or several consequences *)
Section C64spec.
  Context {St R C : Type} (cons_then : C -> St -> R -> St * res unit).
  (** consequences applied one after the other, each to its own response; the first exception
      ends it *)
  Inductive applied : list (C * R) -> St -> St -> res unit -> Prop :=
  | applied_nil st : applied [] st st (Ok tt)
  | applied_ok k r l st st1 st2 x : cons_then k st r = (st1, Ok tt) -> applied l st1 st2 x -> applied ((k, r) :: l) st st2 x
  | applied_err k r l st st1 e : cons_then k st r = (st1, Err e) -> applied ((k, r) :: l) st st1 (Err e).
  Lemma applied_fun l st s1 x1 : applied l st s1 x1 -> forall s2 x2, applied l st s2 x2 -> s1 = s2 /\ x1 = x2.
  Proof.
    induction 1 as [st|k r l st st1 st2 x E H IH|k r l st st1 e E]; intros s2 x2 H2; inversion H2; subst; try (split; congruence); try congruence.
    match goal with H' : cons_then k st r = (?s, Ok tt) |- _ => assert (st1 = s) as <- by congruence end. auto.
  Qed.
End C64spec.
(** The i-th consequence gets the i-th element of the response (the response itself when it
    cannot be iterated), in order; with fewer elements than consequences StopIteration is
    raised after those that got one; further elements are ignored. *)
Theorem C64_several_consequences : forall (St R C : Type) (elements : R -> option (list R)) (cons_then : C -> St -> R -> St * res unit) ks st resp,
  ks <> [] ->
  let parts := match elements resp with Some l => l | None => [resp] end in
  exists st' x, applied cons_then (combine ks parts) st st' x
    /\ rule_then elements cons_then (CMany ks) st resp =
       (st', match x with Err e => Err e | Ok _ => if length ks <=? length parts then Ok tt else Err StopIteration end).
Proof.
  intros St R C elements cons_then ks st resp Hne parts.
  assert (rule_then elements cons_then (CMany ks) st resp = then_each cons_then ks parts st) as -> by (destruct ks; [congruence | reflexivity]).
  clear Hne. clearbody parts. revert parts st. induction ks as [|k ks IH]; intros parts st; simpl.
  - exists st, (Ok tt). split; [constructor | reflexivity].
  - destruct parts as [|r parts]; simpl; [exists st, (Ok tt); split; [constructor | reflexivity]|].
    destruct (cons_then k st r) as [st1 [[]|e]] eqn:E.
    + destruct (IH parts st1) as (st' & x & A & E'). exists st', x. split; [econstructor; eassumption | exact E'].
    + exists st1, (Err e). split; [constructor; exact E | reflexivity].
Qed.
Theorem C64_one_consequence : forall (St R C : Type) (elements : R -> option (list R)) (cons_then : C -> St -> R -> St * res unit) k st resp,
  rule_then elements cons_then (COne k) st resp = cons_then k st resp
  /\ rule_then elements cons_then CNone st resp = (st, Err AssertionError)
  /\ rule_then elements cons_then (CMany []) st resp = (st, Err AssertionError).
Proof. auto. Qed.

(** the consequences of the library, on responses made of matches *)
Inductive reply := RMatch (m : mtch) | RSeq (l : list reply).
Definition reply_elements (r : reply) : option (list reply) := match r with RMatch _ => None | RSeq l => Some l end.
Inductive builtin := BRemove | BAppend (name : option pstr) | BRename (name : pstr) | BAppendTags (ts : list pstr) | BRemoveTags (ts : list pstr).
Fixpoint as_matches (l : list reply) : option (list mtch) :=
  match l with
  | [] => Some []
  | RMatch m :: r => match as_matches r with Some ms => Some (m :: ms) | None => None end
  | RSeq _ :: _ => None
  end.
Definition builtin_then (b : builtin) (c : coll) (r : reply) : coll * res unit :=
  match (match r with RMatch m => Some (One m) | RSeq l => option_map Many (as_matches l) end) with
  | None => (c, Err AttributeError)
  | Some resp => match b with
                 | BRemove => drop_ret (remove_then c resp)
                 | BAppend n => append_then n c resp
                 | BRename n => rename_then (Some n) c resp
                 | BAppendTags ts => append_tags_then ts c resp
                 | BRemoveTags ts => remove_tags_then ts c resp
                 end
  end.
Lemma as_matches_map ms : as_matches (map RMatch ms) = Some ms.
Proof. induction ms as [|m ms IH]; simpl; [reflexivity | rewrite IH; reflexivity]. Qed.
(** [consequence = [RemoveMatch, AppendMatch]] with [when] returning [old, new]: the old ones
    are taken out, then those of the new ones that are not there yet are added at the end *)
Theorem C64_replace : forall k input ops old new,
  acceptable k false [] ops -> no_assignment ops -> Forall (fun m => accepts k m = true) new ->
  let c := run (empty_coll k input) ops in
  let kept := take_out_all (list_run [] ops) old in
  exists c', rule_then reply_elements builtin_then (CMany [BRemove; BAppend None]) c (RSeq [RSeq (map RMatch old); RSeq (map RMatch new)]) = (c', Ok tt)
    /\ c_del c' = kept ++ new_elements meq kept new
    /\ lookups_agree c'.
Proof.
  intros k input ops old new H1 H2 Ha c kept. destruct (@reached_ok k input ops H1 H2) as (HI & Hd & _ & Hk). unfold reached in *. fold c in HI, Hd, Hk.
  destruct (@remove_many_ok no_ghost old c HI) as (c1 & E1 & _ & HI1 & Hs1 & Hd1). rewrite Hd in Hd1.
  destruct (@append_many_none [] new no_ghost c1 HI1) as (c2 & E2 & _ & HI2 & _ & Hd2).
  { destruct Hs1 as (S1 & _). rewrite S1, Hk. exact Ha. } { reflexivity. }
  exists c2. cbn [rule_then then_each reply_elements]. unfold builtin_then at 1. rewrite as_matches_map. cbn [option_map].
  unfold remove_then, drop_ret. rewrite E1. cbn [fst snd]. unfold builtin_then. rewrite as_matches_map. cbn [option_map].
  unfold append_then, drop_ret. rewrite E2. cbn [fst snd]. split; [reflexivity|]. rewrite Hd1 in *. split; [exact Hd2 | apply Inv_agree, HI2].
Qed.
Example C64_witness :
  let c := run (empty_coll KMatches ex_input) ex_ops in
  let run_rule ks resp := let '(c', x) := rule_then reply_elements builtin_then (CMany ks) c resp in (map m_id (c_del c'), x) in
  list_run [] ex_ops = [ex_a; ex_c; ex_b]
  /\ run_rule [BRemove; BAppend None] (RSeq [RSeq [RMatch ex_a]; RMatch r_b]) = ([m_id ex_c; m_id ex_b; m_id r_b], Ok tt)
  (* one match for two consequences: the first is applied, then the call fails *)
  /\ run_rule [BRemove; BAppend None] (RMatch ex_a) = ([m_id ex_c; m_id ex_b], Err StopIteration)
  (* a third element is ignored *)
  /\ run_rule [BRemove] (RSeq [RMatch ex_a; RMatch ex_b; RMatch ex_c]) = ([m_id ex_c; m_id ex_b], Ok tt).
Proof. repeat split; reflexivity. Qed.

(** ** C65 "For all rules with the same priority value, when is called before, and then is
    called after all" (README, and the documentation of execute_all_rules) *)
Section C65spec.
  Context {St R : Type} (bh : behav St R).
  (** all the conditions of a group: the rules triggered, with their responses *)
  Fixpoint conditions (l : list nat) (st : St) : St * res (list (nat * R)) :=
    match l with
    | [] => (st, Ok [])
    | r :: t =>
        if b_enabled bh r then
          match b_when bh r st with
          | (s1, Err e) => (s1, Err e)
          | (s1, Ok resp) => match conditions t s1 with
                             | (s2, Ok ret) => (s2, Ok (if b_truthy bh resp then (r, resp) :: ret else ret))
                             | (s2, Err e) => (s2, Err e)
                             end
          end
        else conditions t st
    end.
  Fixpoint consequences (l : list (nat * R)) (st : St) : St * res unit :=
    match l with
    | [] => (st, Ok tt)
    | (r, resp) :: t => match b_then bh r st resp with
                        | (s1, Ok _) => consequences t s1
                        | (s1, Err e) => (s1, Err e)
                        end
    end.
  (** the documented execution of the groups of one priority *)
  Fixpoint documented (gs : list (list nat)) (st : St) : St * res (list (nat * R)) :=
    match gs with
    | [] => (st, Ok [])
    | g :: t =>
        match conditions g st with
        | (s1, Err e) => (s1, Err e)
        | (s1, Ok tr) => match consequences tr s1 with
                         | (s2, Err e) => (s2, Err e)
                         | (s2, Ok _) => match documented t s2 with
                                         | (s3, Ok ret) => (s3, Ok (tr ++ ret))
                                         | (s3, Err e) => (s3, Err e)
                                         end
                         end
        end
    end.
End C65spec.
Definition groups (env : renv) (order : list nat) : list (list nat) := map snd (groupby (r_prio env) order).

(** rules which log their calls and are always triggered: true for a condition *)
Definition logger : behav (list (bool * nat)) unit :=
  Behav (fun _ => true) (fun r st => (st ++ [(true, r)], Ok tt)) (fun r st _ => (st ++ [(false, r)], Ok tt)) (fun _ => true).
(** what is really done: the consequence of each rule follows its condition *)
Theorem C93_each_rule_at_once : forall env perm rules order fin,
  execute_all_rules env perm recorder rules [] = (order, fin) ->
  fst (execute_all_rules env perm logger rules []) = flat_map (fun r => [(true, r); (false, r)]) order.
Proof.
  intros env perm rules order fin E. apply recorder_schedule in E as [E _]. unfold execute_all_rules. rewrite E.
  assert (forall l st, exec logger l st = (st ++ flat_map (fun r => [(true, r); (false, r)]) l, Ok (map (fun r => (r, tt)) l))) as H.
  { induction l as [|r l IH]; intro st; simpl; [rewrite app_nil_r; reflexivity|]. unfold execute_rule. simpl. rewrite IH.
    rewrite <- !app_assoc. reflexivity. }
  rewrite H. reflexivity.
Qed.
(** two rules of one priority: the second condition runs after the first consequence, so a
    condition can see what another rule of its priority has changed *)
Theorem C65_when_before_then_refuted :
  (forall a b, r_prio env30 a = r_prio env30 b)
  /\ fst (execute_all_rules env30 (fun l => l) logger [0; 1] []) = [(true, 0); (false, 0); (true, 1); (false, 1)]
  /\ fst (documented logger (groups env30 [0; 1]) []) = [(true, 0); (true, 1); (false, 0); (false, 1)]
  (* rule 0 empties the state, rule 1 is triggered by a non-empty one *)
  /\ let bh := Behav (fun _ => true) (fun _ st => (st, Ok st)) (fun r st _ => (if r =? 0 then 0 else st + 10, Ok tt)) (fun n => negb (n =? 0)) in
     execute_all_rules env30 (fun l => l) bh [0; 1] 5 = (0, Ok [(0, 5)])
     /\ documented bh (groups env30 [0; 1]) 5 = (10, Ok [(0, 5); (1, 5)]).
Proof. repeat split. Qed.

Section C65proof.
  Context {St R : Type} (bh : behav St R).
  Hypothesis pure : forall r st, fst (b_when bh r st) = st.
  Definition unaffected (r r' : nat) : Prop := forall st resp, snd (b_when bh r' (fst (b_then bh r st resp))) = snd (b_when bh r' st).
  Lemma conditions_pure l st : fst (conditions bh l st) = st.
  Proof.
    revert st. induction l as [|r l IH]; intro st; simpl; [reflexivity|]. destruct (b_enabled bh r); [|apply IH].
    pose proof (pure r st) as Hp. destruct (b_when bh r st) as [s1 [resp|e]]; simpl in Hp; subst; [|reflexivity].
    specialize (IH st). destruct (conditions bh l st) as [s2 [ret|e]]; exact IH.
  Qed.
  Lemma conditions_same l s1 s2 : (forall r, In r l -> snd (b_when bh r s1) = snd (b_when bh r s2)) ->
    snd (conditions bh l s1) = snd (conditions bh l s2).
  Proof.
    induction l as [|r l IH]; intro H; simpl; [reflexivity|]. destruct (b_enabled bh r); [|apply IH; intros; apply H; right; assumption].
    pose proof (H r (or_introl eq_refl)) as Hr. pose proof (pure r s1) as P1. pose proof (pure r s2) as P2.
    destruct (b_when bh r s1) as [t1 x1], (b_when bh r s2) as [t2 x2]. simpl in Hr, P1, P2. subst t1 t2 x2. destruct x1 as [resp|e]; [|reflexivity].
    assert (snd (conditions bh l s1) = snd (conditions bh l s2)) as IH' by (apply IH; intros; apply H; right; assumption).
    destruct (conditions bh l s1) as [u1 [y1|e1]], (conditions bh l s2) as [u2 [y2|e2]]; cbn [snd] in *; try discriminate IH'; injection IH' as ->; reflexivity.
  Qed.
  Lemma group_documented l : ForallOrdPairs unaffected l -> forall st st' ret,
    exec bh l st = (st', Ok ret) -> conditions bh l st = (st, Ok ret) /\ consequences bh ret st = (st', Ok tt).
  Proof.
    induction 1 as [|r l Hr Hl IH]; intros st st' ret E; simpl in E; [injection E as <- <-; split; reflexivity|].
    unfold execute_rule in E. cbn [conditions]. destruct (b_enabled bh r).
    2:{ destruct (exec bh l st) as [s2 [ret'|e]] eqn:Ex; [|discriminate]. injection E as <- <-. apply IH, Ex. }
    pose proof (pure r st) as Hp. destruct (b_when bh r st) as [s1 [resp|e]]; simpl in Hp; subst s1; [|discriminate].
    destruct (b_truthy bh resp) eqn:Et.
    - destruct (b_then bh r st resp) as [s2 [[]|e]] eqn:En; [|discriminate].
      destruct (exec bh l s2) as [s3 [ret'|e]] eqn:Ex; [|discriminate]. injection E as <- <-.
      destruct (IH _ _ _ Ex) as [I1 I2].
      assert (snd (conditions bh l s2) = snd (conditions bh l st)) as Hc.
      { apply conditions_same. intros r' Hr'. rewrite Forall_forall in Hr. pose proof (Hr r' Hr' st resp) as U. rewrite En in U. exact U. }
      pose proof (conditions_pure l st) as Hp. rewrite I1 in Hc. simpl in Hc.
      destruct (conditions bh l st) as [u x]. simpl in Hp, Hc. subst u x. split; [reflexivity|]. simpl. rewrite En. exact I2.
    - destruct (exec bh l st) as [s3 [ret'|e]] eqn:Ex; [|discriminate]. injection E as <- <-.
      destruct (IH _ _ _ Ex) as [I1 I2]. rewrite I1. auto.
  Qed.
  Lemma exec_app l1 : forall l2 st,
    exec bh (l1 ++ l2) st = match exec bh l1 st with
                            | (s1, Ok r1) => match exec bh l2 s1 with (s2, Ok r2) => (s2, Ok (r1 ++ r2)) | (s2, Err e) => (s2, Err e) end
                            | (s1, Err e) => (s1, Err e)
                            end.
  Proof.
    induction l1 as [|r l1 IH]; intros l2 st; simpl; [destruct (exec bh l2 st) as [s [x|e]]; reflexivity|].
    destruct (execute_rule bh r st) as [s1 [o|e]]; [|reflexivity]. rewrite IH.
    destruct (exec bh l1 s1) as [s2 [r1|e]]; [|reflexivity]. destruct (exec bh l2 s2) as [s3 [r2|e]]; [|reflexivity].
    destruct o; reflexivity.
  Qed.
  Lemma groups_documented gs : Forall (ForallOrdPairs unaffected) gs -> forall st st' ret,
    exec bh (concat gs) st = (st', Ok ret) -> documented bh gs st = (st', Ok ret).
  Proof.
    induction 1 as [|g gs Hg Hgs IH]; intros st st' ret E; simpl in *; [exact E|].
    rewrite exec_app in E. destruct (exec bh g st) as [s1 [r1|e]] eqn:Eg; [|discriminate].
    destruct (exec bh (concat gs) s1) as [s2 [r2|e]] eqn:Egs; [|discriminate]. injection E as <- <-.
    destruct (group_documented Hg Eg) as [C1 C2]. rewrite C1, C2, (IH _ _ _ Egs). reflexivity.
  Qed.
End C65proof.
Lemma before_cons {A} (x : A) l a b : before l a b -> before (x :: l) a b.
Proof. intros (i & j & Hi & Hj & H). exists (S i), (S j). simpl. auto using (proj1 (Nat.succ_lt_mono i j)). Qed.
Lemma before_head {A} (x : A) l b : In b l -> before (x :: l) x b.
Proof. intro H. apply In_nth_error in H as (j & Hj). exists 0, (S j). simpl. auto using Nat.lt_0_succ. Qed.
Lemma before_sub {A} (l1 l2 l : list A) a b : before l a b -> before (l1 ++ l ++ l2) a b.
Proof.
  intros (i & j & Hi & Hj & H). exists (length l1 + i), (length l1 + j).
  assert (forall n x, nth_error l n = Some x -> nth_error (l1 ++ l ++ l2) (length l1 + n) = Some x) as G.
  { intros n x Hn. rewrite nth_error_app2 by lia. replace (length l1 + n - length l1) with n by lia.
    rewrite nth_error_app1; [exact Hn|]. apply nth_error_Some. congruence. }
  split; [apply G, Hi|]. split; [apply G, Hj | lia].
Qed.
(** What remains of it: when conditions change nothing and no consequence changes the answer
    of a condition of the same priority evaluated after it, the result is the documented one.
    (For an execution that raises nothing.) *)
Theorem C65_documented_partial : forall (St R : Type) env perm (bh : behav St R) rules order fin st st' ret,
  execute_all_rules env perm recorder rules [] = (order, fin) ->
  (forall r st, fst (b_when bh r st) = st) ->
  (forall r r', before order r r' -> r_prio env r = r_prio env r' ->
     forall st resp, snd (b_when bh r' (fst (b_then bh r st resp))) = snd (b_when bh r' st)) ->
  execute_all_rules env perm bh rules st = (st', Ok ret) ->
  documented bh (groups env order) st = (st', Ok ret).
Proof.
  intros St R env perm bh rules order fin st st' ret E Hp Hi Ex. apply recorder_schedule in E as [E _].
  unfold execute_all_rules in Ex. rewrite E in Ex. destruct (exec bh order st) as [s1 [r1|e]] eqn:E1; [|discriminate].
  destruct (match fin with Ok _ => Ok tt | Err e => Err e end) as [[]|e]; [|discriminate]. injection Ex as <- <-.
  apply groups_documented; [exact Hp| |unfold groups; rewrite groupby_concat; exact E1].
  apply Forall_forall. intros g Hg. unfold groups in Hg. apply in_map_iff in Hg as ([k g'] & Hgg & Hg). simpl in Hgg. subst g'.
  assert (forall r, In r g -> r_prio env r = k) as Hk.
  { clear -Hg. revert k g Hg. induction order as [|x l IH]; intros k g Hg; simpl in Hg; [contradiction|].
    destruct (groupby (r_prio env) l) as [|[k' g'] t] eqn:E.
    - destruct Hg as [Hg|[]]. injection Hg as <- <-. intros r [->|[]]. reflexivity.
    - destruct (Z.eqb (r_prio env x) k') eqn:Ek.
      + destruct Hg as [Hg|Hg]; [|apply IH; right; exact Hg]. injection Hg as <- <-. intros r [->|Hr]; [apply Z.eqb_eq, Ek|].
        apply (IH k' g'); [left; reflexivity | exact Hr].
      + destruct Hg as [Hg|Hg]; [|apply IH; exact Hg]. injection Hg as <- <-. intros r [->|[]]. reflexivity. }
  assert (exists l1 l2, order = l1 ++ g ++ l2) as (l1 & l2 & ->).
  { clear -Hg. rewrite <- (groupby_concat (r_prio env) order). apply in_split in Hg as (a & b & Eab). rewrite Eab, map_app, concat_app. simpl. eauto. }
  assert (forall r r', before g r r' -> unaffected bh r r') as U.
  { intros r r' Hb st0 resp. apply Hi; [apply before_sub, Hb|]. destruct Hb as (i & j & Hi' & Hj' & _).
    rewrite (Hk r), (Hk r') by (eapply nth_error_In; eassumption). reflexivity. }
  clear -U. induction g as [|r g IH]; constructor.
  - apply Forall_forall. intros r' Hr'. apply U, before_head, Hr'.
  - apply IH. intros a b Hab. apply U, before_cons, Hab.
Qed.
(** a case: two priorities; no consequence touches what the conditions read *)
Example C65_case :
  let bh := Behav (fun _ => true) (fun r (st : nat * list nat) => (st, Ok (r <? fst st))) (fun r st _ => ((fst st, snd st ++ [r]), Ok tt)) (fun b => b) in
  let env := REnv (fun r => r) (fun r => if r =? 3 then 5%Z else 0%Z) (fun _ => []) in
  execute_all_rules env (fun l => l) recorder [0; 1; 2; 3] [] = ([3; 0; 1; 2], Ok [])
  /\ execute_all_rules env (fun l => l) bh [0; 1; 2; 3] (2, []) = ((2, [0; 1]), Ok [(0, true); (1, true)])
  /\ documented bh (groups env [3; 0; 1; 2]) (2, []) = ((2, [0; 1]), Ok [(0, true); (1, true)])
  /\ forall r r' st resp, snd (b_when bh r' (fst (b_then bh r st resp))) = snd (b_when bh r' st).
Proof. repeat split. Qed.

(** ** C66 "You can also define dependency to declare another Rule class as dependency for the
    current rule, meaning that it will be executed before" *)
Lemma sorted_before {A} (Rl : A -> A -> Prop) l a b : StronglySorted Rl l -> before l a b -> Rl a b.
Proof.
  intro S. induction S as [|x l S IH F]; intros (i & j & Hi & Hj & Hij); [destruct i; discriminate|].
  destruct j as [|j]; [lia|]. simpl in Hj. destruct i as [|i]; simpl in Hi.
  - injection Hi as ->. rewrite Forall_forall in F. apply F. eapply nth_error_In, Hj.
  - apply IH. exists i, j. split; [exact Hi|]. split; [exact Hj | lia].
Qed.
Lemma before_total {A} (l : list A) a b : In a l -> In b l -> a <> b -> before l a b \/ before l b a.
Proof.
  intros Ha Hb Hab. apply In_nth_error in Ha as (i & Hi), Hb as (j & Hj).
  destruct (Nat.lt_trichotomy i j) as [H|[->|H]]; [left; exists i, j; auto | congruence | right; exists j, i; auto].
Qed.
(** declared: the class of [b], or an object of it *)
Definition declares (env : renv) (a b : nat) : Prop :=
  In (DClass (r_class env b)) (r_deps env a) \/ exists i, In (DInst i) (r_deps env a) /\ r_class env i = r_class env b.
Theorem C94_dependency_first : forall env perm rules order ret a b,
  iteration_order perm -> class_prio env -> instances_local env rules ->
  execute_all_rules env perm recorder rules [] = (order, Ok ret) ->
  In a rules -> In b rules -> r_class env a <> r_class env b -> declares env a b ->
  (r_prio env b >= r_prio env a)%Z ->
  before order b a.
Proof.
  intros env perm rules order ret a b Hp Hc Hl E Ha Hb Hab Hd Hge.
  destruct (C28_each_once_partial Hp Hc Hl E) as [P N]. destruct (C27_order Hp Hc Hl E) as (layer & L1 & _ & S).
  assert (a <> b) as Hne by congruence.
  destruct (@before_total _ order b a) as [H|H]; [eapply Permutation_in; [symmetry; exact P|assumption]..|auto|exact H|].
  exfalso. apply (sorted_before S) in H. destruct H as [H|[He H]]; [lia|].
  assert (layer b < layer a) by (apply L1; repeat split; auto; lia).
  destruct H as [H|[H _]]; lia.
Qed.
(** a dependency of lower priority is ignored: it is executed after *)
Theorem C66_lower_priority_refuted :
  let env := REnv (fun r => r) (fun r => if r =? 0 then 10%Z else 0%Z) (fun r => if r =? 0 then [DClass 1] else []) in
  declares env 0 1 /\ class_prio env /\ instances_local env [0; 1]
  /\ execute_all_rules env (fun l => l) recorder [0; 1] [] = ([0; 1], Ok []).
Proof.
  cbv zeta. split; [left; left; reflexivity|]. split; [intros a b E; simpl in E; subst; reflexivity|]. split; [|reflexivity].
  intros a i Ha Hi. exfalso. simpl in Ha. destruct Ha as [<-|[<-|[]]]; simpl in Hi; [destruct Hi as [Hi|[]]; discriminate | contradiction].
Qed.
(** exactly then: with a higher priority the rule runs before its dependency *)
Theorem C94_lower_priority_after : forall env perm rules order ret a b,
  iteration_order perm -> class_prio env -> instances_local env rules ->
  execute_all_rules env perm recorder rules [] = (order, Ok ret) ->
  In a rules -> In b rules -> (r_prio env b < r_prio env a)%Z -> before order a b.
Proof.
  intros env perm rules order ret a b Hp Hc Hl E Ha Hb Hlt.
  destruct (C28_each_once_partial Hp Hc Hl E) as [P N]. destruct (C27_order Hp Hc Hl E) as (layer & L1 & _ & S).
  destruct (@before_total _ order a b) as [H|H]; [eapply Permutation_in; [symmetry; exact P|assumption]..|intros ->; lia|exact H|].
  exfalso. apply (sorted_before S) in H. destruct H as [H|[H _]]; lia.
Qed.
Example C66_case :
  let env := REnv (fun r => r) (fun r => if r =? 1 then 10%Z else 0%Z) (fun r => if r =? 0 then [DClass 1; DClass 2] else []) in
  execute_all_rules env (@rev nat) recorder [0; 1; 2] [] = ([1; 2; 0], Ok []) /\ declares env 0 1 /\ declares env 0 2.
Proof. split; [reflexivity|]. split; left; simpl; auto. Qed.

(** ** C67 The default rules frame the others: conflicts are solved before any rule of a lower
    priority than PRE_PROCESS runs, private matches are removed after every rule of a higher
    priority than POST_PROCESS *)
Theorem C67_default_rules_frame : forall env perm rules order ret solver remover others,
  iteration_order perm -> class_prio env -> instances_local env rules ->
  Permutation rules (solver :: remover :: others) ->
  r_prio env solver = 2048%Z -> r_prio env remover = (-2048)%Z ->
  Forall (fun r => (-2048 < r_prio env r < 2048)%Z) others ->
  execute_all_rules env perm recorder rules [] = (order, Ok ret) ->
  exists middle, order = solver :: middle ++ [remover] /\ Permutation middle others.
Proof.
  intros env perm rules order ret solver remover others Hp Hc Hl Hr H1 H2 Hm E. rewrite Forall_forall in Hm.
  destruct (C28_each_once_partial Hp Hc Hl E) as [P N].
  assert (Permutation order (solver :: remover :: others)) as Po by (etransitivity; eassumption).
  assert (forall x, In x order -> (r_prio env x <= 2048)%Z /\ (-2048 <= r_prio env x)%Z
            /\ (r_prio env x = 2048%Z -> x = solver) /\ (r_prio env x = (-2048)%Z -> x = remover)) as B.
  { intros x Hx. apply (Permutation_in _ Po) in Hx. simpl in Hx. destruct Hx as [<-|[<-|Hx]]; [rewrite H1; repeat split; auto; lia | rewrite H2; repeat split; auto; lia|].
    specialize (Hm x Hx). repeat split; lia. }
  destruct (C27_order Hp Hc Hl E) as (layer & _ & _ & S).
  destruct order as [|x t]; [apply Permutation_nil in Po; discriminate|].
  assert (x = solver) as ->.
  { assert (In solver (x :: t)) as Hin by (eapply Permutation_in; [symmetry; exact Po | left; reflexivity]).
    destruct Hin as [Hin|Hin]; [exact Hin|]. inversion S as [|? ? _ F]; subst. rewrite Forall_forall in F. specialize (F _ Hin).
    destruct (B x (or_introl eq_refl)) as (B1 & _ & B3 & _). apply B3. destruct F as [F|[F _]]; lia. }
  apply Permutation_cons_inv in Po. inversion S as [|? ? S' _]; subst.
  assert (t <> []) as Hne by (intros ->; apply Permutation_nil in Po; discriminate).
  destruct (exists_last Hne) as (m & y & Et).
  assert (y = remover) as ->.
  { assert (In remover t) as Hin by (eapply Permutation_in; [symmetry; exact Po | left; reflexivity]).
    rewrite Et in Hin. apply in_app_or in Hin as [Hin|[Hin|[]]]; [|exact Hin].
    assert (before t remover y) as Hb.
    { rewrite Et. apply In_nth_error in Hin as (i & Hi). assert (i < length m) by (apply nth_error_Some; congruence).
      exists i, (length m). rewrite nth_error_app1 by lia. rewrite nth_error_app2, Nat.sub_diag by lia. auto. }
    apply (sorted_before S') in Hb. destruct (B y) as (_ & B2 & _ & B4); [right; rewrite Et; apply in_or_app; right; left; reflexivity|].
    apply B4. destruct Hb as [Hb|[Hb _]]; lia. }
  exists m. rewrite Et. split; [reflexivity|]. rewrite Et in Po.
  apply Permutation_cons_inv with (a := remover). etransitivity; [|exact Po]. symmetry. etransitivity; [apply Permutation_app_comm | reflexivity].
Qed.
Example C67_case :
  let env := REnv (fun r => r) (fun r => match r with O => 2048 | S O => -2048 | S (S O) => 64 | _ => 0 end)%Z (fun r => if r =? 3 then [DClass 4] else []) in
  execute_all_rules env (fun l => l) recorder [0; 1; 2; 3; 4] [] = ([0; 2; 4; 3; 1], Ok []).
Proof. reflexivity. Qed.

Print Assumptions C64_several_consequences. Print Assumptions C64_replace. Print Assumptions C65_documented_partial.
Print Assumptions C94_dependency_first. Print Assumptions C67_default_rules_frame.
