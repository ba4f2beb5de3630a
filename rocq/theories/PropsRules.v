(** * Properties C25-C30: toposort and the rule engine *)
From Verif Require Import Base BaseFacts Topo TopoFacts Rules RulesFacts.
From Coq Require Import Permutation Sorting.Sorted Relation_Operators Operators_Properties.
Set Implicit Arguments.
Unset Strict Implicit.
Open Scope nat_scope.

(** an iteration order of sets: any function that permutes *)
Definition iteration_order {K} (perm : list K -> list K) : Prop := forall l, Permutation l (perm l).

(** ** C25 *)
Theorem C25_layers : forall (K : Type) (EK : Eqb K) (perm : list K -> list K) (data : graph K) (gs : list (list K)),
  iteration_order perm -> NoDup (map fst data) -> toposort perm data = (gs, []) ->
  (forall g, In g gs -> g <> [])
  /\ NoDup (concat gs)
  /\ (forall x, In x (concat gs) <-> item data x)
  /\ (forall n x y, in_group gs n x -> depends data x y -> exists m, m < n /\ in_group gs m y)
  /\ (forall n x, in_group gs (S n) x -> exists y, depends data x y /\ in_group gs n y)
  /\ (forall x, in_group gs 0 x -> forall y, ~ depends data x y).
Proof.
  intros K EK perm data gs Hp Hn E. destruct (toposort_spec Hp Hn E) as (P1 & P2 & P3 & P4 & P5 & P6).
  rewrite app_nil_r in P1. split; [apply Forall_forall, P2|]. split.
  - eapply Permutation_NoDup; [symmetry; exact P1 | apply (complete_wf Hp Hn)].
  - split; [|split; [exact P4 | split; [exact P5 | intros x Hx y; apply P6, Hx]]].
    intro x. rewrite <- (complete_item Hp). split; apply Permutation_in; [|symmetry]; exact P1.
Qed.
(** the groups do not depend on the iteration order of sets (as sets) *)
Theorem C25_groups_determined : forall (K : Type) (EK : Eqb K) (perm1 perm2 : list K -> list K) (data : graph K),
  iteration_order perm1 -> iteration_order perm2 ->
  Forall2 (@Permutation K) (fst (toposort perm1 data)) (fst (toposort perm2 data)).
Proof. intros K EK p1 p2 data H1 H2. apply (toposort_perm H1 H2). Qed.

Example C25_witness :
  toposort (fun l => l) [(2, [11]); (9, [11; 8; 10]); (10, [11; 3]); (11, [7; 5]); (8, [7; 3; 8])]
  = ([[3; 7; 5]; [11; 8]; [2; 10]; [9]], []).
Proof. reflexivity. Qed.

(** ** C26 *)
Theorem C26_cyclic : forall (K : Type) (EK : Eqb K) (perm : list K -> list K) (data : graph K) (gs : list (list K)) (rest : graph K),
  iteration_order perm -> NoDup (map fst data) -> toposort perm data = (gs, rest) ->
  (rest <> [] <-> exists x, on_cycle data x)
  /\ (forall x, In x (map fst rest) <-> item data x /\ reaches_cycle data x)
  /\ (forall x ds, In (x, ds) rest -> forall y, In y ds <-> depends data x y /\ reaches_cycle data y)
  /\ (forall x, In x (concat gs) <-> item data x /\ ~ reaches_cycle data x).
Proof.
  intros K EK perm data gs rest Hp Hn E. destruct (toposort_spec Hp Hn E) as (P1 & P2 & P3 & P4 & P5 & P6).
  assert (forall x, In x (concat gs ++ map fst rest) <-> item data x) as Hi.
  { intro x. rewrite <- (complete_item Hp). split; apply Permutation_in; [|symmetry]; exact P1. }
  assert (forall x, In x (map fst rest) -> reaches_cycle data x) as Hr by (intros x; apply (rest_reaches_cycle Hp Hn E)).
  assert (forall x, In x (concat gs) -> ~ reaches_cycle data x) as Hg.
  { intros x Hx. apply in_concat in Hx as (g & Hg & Hx). apply In_nth_error in Hg as (n & Hg).
    apply (emitted_no_cycle Hp Hn E (n := n)). exists g. auto. }
  assert (forall x, In x (map fst rest) <-> item data x /\ reaches_cycle data x) as Hkeys.
  { intro x. split; [intro Hx; split; [apply Hi, in_or_app; auto | apply Hr, Hx]|].
    intros [Hx Hc]. apply Hi in Hx. apply in_app_or in Hx as [Hx|Hx]; [exfalso; eapply Hg; eauto | exact Hx]. }
  assert (forall x y, depends data x y -> item data y) as Hdep.
  { intros x y (ds & H1 & H2 & H3). right. exists x, ds. auto. }
  split; [|split; [exact Hkeys|split]].
  - split.
    + intro Hne. destruct rest as [|[k ds] rest]; [congruence|]. destruct (Hr k (or_introl eq_refl)) as (y & _ & Hy). eauto.
    + intros (x & Hx) ->. assert (item data x) as Hix.
      { apply clos_trans_tn1 in Hx. inversion Hx as [? Hd|? ? Hd]; subst; eapply Hdep, Hd. }
      apply Hi in Hix. rewrite app_nil_r in Hix. apply (Hg x Hix). exists x. split; [apply rt_refl | exact Hx].
  - intros x ds Hx y. destruct (P3 x ds Hx) as [_ Hd]. rewrite Hd, Hkeys. split; [tauto|]. intros [H1 H2]. eauto.
  - intro x. split; [intro Hx; split; [apply Hi, in_or_app; auto | apply Hg, Hx]|].
    intros [Hx Hc]. apply Hi in Hx. apply in_app_or in Hx as [Hx|Hx]; [exact Hx | exfalso; apply Hc, Hr, Hx].
Qed.
Example C26_witness : toposort (fun l => l) [(1, [2]); (2, [1]); (3, [1; 4]); (5, [4; 5])] = ([[4]; [5]], [(1, [2]); (2, [1]); (3, [1])]).
Proof. reflexivity. Qed.

(** ** The order in which rules are considered

    Rules that record being considered: every rule is enabled, its condition appends the rule
    to the state and is false. *)
Definition recorder : behav (list nat) unit :=
  Behav (fun _ => true) (fun r st => (st ++ [r], Ok tt)) (fun _ st _ => (st, Ok tt)) (fun _ => false).
Lemma exec_recorder l st : exec recorder l st = (st ++ l, Ok []).
Proof.
  revert st. induction l as [|r l IH]; intro st; simpl; [rewrite app_nil_r; reflexivity|].
  unfold execute_rule. simpl. rewrite IH, <- app_assoc. reflexivity.
Qed.
Lemma recorder_schedule env perm rules l r :
  execute_all_rules env perm recorder rules [] = (l, r) <->
  schedule env perm rules = (l, match r with Ok _ => Ok tt | Err e => Err e end) /\ (r = Ok [] \/ exists e, r = Err e).
Proof.
  unfold execute_all_rules. destruct (schedule env perm rules) as [l0 [[]|e]]; rewrite exec_recorder; simpl; split.
  - intro E. injection E as <- <-. auto.
  - intros [E [->|(e & ->)]]; [|discriminate]. injection E as ->. reflexivity.
  - intro E. injection E as <- <-. eauto.
  - intros [E [->|(e' & ->)]]; [discriminate|]. injection E as -> ->. reflexivity.
Qed.

(** ** C27 *)
Theorem C27_order : forall env perm rules order ret,
  iteration_order perm -> class_prio env -> instances_local env rules ->
  execute_all_rules env perm recorder rules [] = (order, Ok ret) ->
  exists layer : nat -> nat,
    (* the layer of a rule: 0 without dependency, otherwise one more than its deepest dependency *)
    (forall a b, waits_for env rules a b -> layer b < layer a)
    /\ (forall a n, In a rules -> layer a = S n -> exists b, waits_for env rules a b /\ layer b = n)
    /\ StronglySorted (fun a b =>
         (r_prio env a > r_prio env b)%Z
         \/ r_prio env a = r_prio env b /\ (layer a < layer b \/ layer a = layer b /\ before rules a b)) order.
Proof.
  intros env perm rules order ret Hp Hc Hl E. apply recorder_schedule in E as [E _].
  pose proof (schedule_nodup Hc E) as Hn. destruct (schedule_order Hp Hl Hn E) as (_ & layer & L1 & L2 & L3).
  exists layer. auto.
Qed.

(** ** C28 *)
Theorem C28_each_once_partial : forall env perm rules order ret,
  iteration_order perm -> class_prio env -> instances_local env rules ->
  execute_all_rules env perm recorder rules [] = (order, Ok ret) ->
  Permutation order rules /\ NoDup order.
Proof.
  intros env perm rules order ret Hp Hc Hl E. apply recorder_schedule in E as [E _].
  pose proof (schedule_nodup Hc E) as Hn. destruct (schedule_order Hp Hl Hn E) as (P & _). split; [exact P|].
  eapply Permutation_NoDup; [symmetry; exact P|]. eapply NoDup_map_inv, Hn.
Qed.
(** it completes iff no class is registered twice and no rule waits for itself *)
Theorem C28_completes : forall env perm rules,
  iteration_order perm -> class_prio env -> instances_local env rules ->
  ((exists order, execute_all_rules env perm recorder rules [] = (order, Ok [])) <->
   NoDup (map (r_class env) rules) /\ forall a, ~ clos_trans nat (waits_for env rules) a a).
Proof.
  intros env perm rules Hp Hc Hl. split.
  - intros (order & E). apply recorder_schedule in E as [E _]. pose proof (schedule_nodup Hc E) as Hn. split; [exact Hn|].
    apply (schedule_completes Hp Hl Hn). rewrite E. reflexivity.
  - intros [Hn Ha]. destruct (schedule_completes Hp Hl Hn) as [[_ H] _]. specialize (H Ha).
    destruct (schedule env perm rules) as [l r] eqn:E. simpl in H. subst r. exists l. apply recorder_schedule. rewrite E. auto.
Qed.

(** Full statement refuted: with a dependency declared as a rule object of another priority the
    rule runs twice; with an object that is not registered the execution fails. *)
Definition env28 : renv :=
  REnv (fun r => r) (fun r => if r =? 1 then 10%Z else 0%Z) (fun r => if r =? 0 then [DInst 1] else []).
Theorem C28_refuted :
  class_prio env28
  /\ execute_all_rules env28 (fun l => l) recorder [0; 1] [] = ([1; 1; 0], Ok [])
  /\ execute_all_rules env28 (fun l => l) recorder [0] [] = ([], Err ValueError).
Proof. split; [|split; reflexivity]. intros a b E. simpl in E. subst. reflexivity. Qed.

(** a non-trivial case: priorities, two layers, registration order *)
Definition env27 : renv :=
  REnv (fun r => r) (fun r => if r =? 4 then 10%Z else 0%Z)
       (fun r => if r =? 0 then [DClass 3; DClass 4] else if r =? 2 then [DInst 3] else []).
Example C27_witness :
  iteration_order (@rev nat) /\ class_prio env27 /\ instances_local env27 [0; 1; 2; 3; 4]
  /\ execute_all_rules env27 (@rev nat) recorder [0; 1; 2; 3; 4] [] = ([4; 1; 3; 0; 2], Ok [])
  /\ waits_for env27 [0; 1; 2; 3; 4] 0 3 /\ waits_for env27 [0; 1; 2; 3; 4] 2 3.
Proof.
  split; [intro l; apply Permutation_rev|]. split; [intros a b E; simpl in E; subst; reflexivity|].
  split; [|split; [reflexivity|]].
  - intros a i Ha Hi. exists 3. simpl in Ha. destruct Ha as [<-|[<-|[<-|[<-|[<-|[]]]]]]; simpl in Hi; try contradiction.
    + destruct Hi as [Hi|[Hi|[]]]; discriminate.
    + destruct Hi as [Hi|[]]. injection Hi as <-. simpl. intuition.
  - split; unfold waits_for; simpl; intuition (try discriminate). right. exists 3. auto.
Qed.

(** ** C29 *)
Theorem C29_rule_order : forall (St R : Type) env (bh : behav St R) perm1 perm2 rules st,
  iteration_order perm1 -> iteration_order perm2 ->
  execute_all_rules env perm1 bh rules st = execute_all_rules env perm2 bh rules st.
Proof. intros St R env bh p1 p2 rules st H1 H2. unfold execute_all_rules. rewrite (schedule_perm env rules H1 H2). reflexivity. Qed.

(** ** C30 *)
Section C30spec.
  Context {St R : Type} (bh : behav St R).
  (** what considering a rule does: nothing if it is disabled; its condition, then its
      consequence on the response if that is truthy *)
  Inductive consider (r : nat) (s : St) : St -> option R -> Prop :=
  | not_enabled : b_enabled bh r = false -> consider r s s None
  | not_triggered s1 resp : b_enabled bh r = true -> b_when bh r s = (s1, Ok resp) -> b_truthy bh resp = false -> consider r s s1 None
  | triggered s1 resp s2 : b_enabled bh r = true -> b_when bh r s = (s1, Ok resp) -> b_truthy bh resp = true ->
      b_then bh r s1 resp = (s2, Ok tt) -> consider r s s2 (Some resp).
  (** considering the rules of a list one after the other, and the responses obtained *)
  Inductive consider_all : list nat -> St -> St -> list (nat * R) -> Prop :=
  | all_nil s : consider_all [] s s []
  | all_skip r l s s1 s2 ret : consider r s s1 None -> consider_all l s1 s2 ret -> consider_all (r :: l) s s2 ret
  | all_trig r l s s1 s2 resp ret : consider r s s1 (Some resp) -> consider_all l s1 s2 ret -> consider_all (r :: l) s s2 ((r, resp) :: ret).
  (** a rule raises [e] *)
  Inductive raises (r : nat) (s : St) : St -> exn -> Prop :=
  | when_raises s1 e : b_enabled bh r = true -> b_when bh r s = (s1, Err e) -> raises r s s1 e
  | then_raises s1 resp s2 e : b_enabled bh r = true -> b_when bh r s = (s1, Ok resp) -> b_truthy bh resp = true ->
      b_then bh r s1 resp = (s2, Err e) -> raises r s s2 e.
End C30spec.
Lemma execute_rule_spec St R (bh : behav St R) r s :
  match execute_rule bh r s with
  | (s', Ok o) => consider bh r s s' o
  | (s', Err e) => raises bh r s s' e
  end.
Proof.
  unfold execute_rule. destruct (b_enabled bh r) eqn:E; [|constructor; exact E].
  destruct (b_when bh r s) as [s1 [resp|e]] eqn:Ew; [|econstructor; eassumption].
  destruct (b_truthy bh resp) eqn:Et; [|econstructor; eassumption].
  destruct (b_then bh r s1 resp) as [s2 [[]|e]] eqn:En; [econstructor | eapply then_raises]; eassumption.
Qed.
Lemma exec_spec St R (bh : behav St R) l : forall s,
  match exec bh l s with
  | (s', Ok ret) => consider_all bh l s s' ret
  | (s', Err e) => exists l1 r l2 s1 ret, l = l1 ++ r :: l2 /\ consider_all bh l1 s s1 ret /\ raises bh r s1 s' e
  end.
Proof.
  induction l as [|r l IH]; intro s; simpl; [constructor|].
  pose proof (execute_rule_spec bh r s) as H. destruct (execute_rule bh r s) as [s1 [o|e]].
  - specialize (IH s1). destruct (exec bh l s1) as [s2 [ret|e]].
    + destruct o; econstructor; eassumption.
    + destruct IH as (l1 & r' & l2 & s3 & ret & -> & H1 & H2). exists (r :: l1), r', l2, s3.
      destruct o as [resp|]; eexists; (split; [reflexivity | split; [|exact H2]]); econstructor; eassumption.
  - exists [], r, l, s, []. split; [reflexivity|]. split; [constructor | exact H].
Qed.
Theorem C30_execution : forall (St R : Type) env perm (bh : behav St R) rules order fin st st' res,
  execute_all_rules env perm recorder rules [] = (order, fin) ->
  execute_all_rules env perm bh rules st = (st', res) ->
  match res with
  | Ok ret => fin = Ok [] /\ consider_all bh order st st' ret
  | Err e =>
      (fin = Err e /\ exists ret, consider_all bh order st st' ret)
      \/ exists l1 r l2 s1 ret, order = l1 ++ r :: l2 /\ consider_all bh l1 st s1 ret /\ raises bh r s1 st' e
  end.
Proof.
  intros St R env perm bh rules order fin st st' res E1 E2. apply recorder_schedule in E1 as [E1 Hf].
  unfold execute_all_rules in E2. rewrite E1 in E2. pose proof (exec_spec bh order st) as H.
  destruct (exec bh order st) as [s' [ret|e]].
  - destruct Hf as [->|(e & ->)]; injection E2 as <- <-; [auto | left; eauto].
  - injection E2 as <- <-. right. exact H.
Qed.
(** considering is deterministic, so this fixes the result *)
Theorem C30_deterministic : forall (St R : Type) (bh : behav St R) order st s1 r1 s2 r2,
  consider_all bh order st s1 r1 -> consider_all bh order st s2 r2 -> s1 = s2 /\ r1 = r2.
Proof.
  intros St R bh order st s1 r1 s2 r2 H. revert s2 r2.
  assert (forall r s t o t' o', consider bh r s t o -> consider bh r s t' o' -> t = t' /\ o = o') as D.
  { intros r s t o t' o' A B. destruct A; inversion B; subst; split; congruence. }
  induction H as [s|r l s sa sb ret H1 H2 IH|r l s sa sb resp ret H1 H2 IH]; intros s2 r2 B; inversion B; subst; [auto|..];
    match goal with X : consider _ _ _ _ _ |- _ => destruct (D _ _ _ _ _ _ H1 X) as [Q1 Q2] end; try discriminate;
    try injection Q2 as <-; subst; match goal with X : consider_all _ l _ _ _ |- _ => destruct (IH _ _ X) as [-> ->] end; auto.
Qed.

(** rule 1 disabled, rule 2 not triggered, rule 3 triggered: it sees the state left by rule 0 *)
Definition bh30 : behav nat nat :=
  Behav (fun r => negb (r =? 1)) (fun r st => (st, Ok (if r =? 2 then 0 else st + r))) (fun r st resp => (st + resp, Ok tt)) (fun n => negb (n =? 0)).
Definition env30 : renv := REnv (fun r => r) (fun _ => 0%Z) (fun _ => []).
Example C30_witness : execute_all_rules env30 (fun l => l) bh30 [0; 1; 2; 3] 5 = (23, Ok [(0, 5); (3, 13)]).
Proof. reflexivity. Qed.

Print Assumptions C25_layers. Print Assumptions C26_cyclic. Print Assumptions C27_order. Print Assumptions C28_completes.
Print Assumptions C29_rule_order. Print Assumptions C30_execution.
