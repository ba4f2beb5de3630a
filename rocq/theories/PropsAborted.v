(** * C125 What has run when the rule engine fails

    C114 tells what runs when the execution completes.  Here: what has run when it raises because of
    the way rules are registered and declared (exceptions raised by rules themselves: C30). *)
From Verif Require Import Base BaseFacts Topo TopoFacts Rules RulesFacts PropsRules PropsBorrow.
From Coq Require Import Permutation Sorting.Sorted Relation_Operators Operators_Properties.
Set Implicit Arguments.
Unset Strict Implicit.
Open Scope nat_scope.

(** ** Specification *)
Section Spec.
  Variable env : renv.
  Variable rules : list nat.
  Notation cls := (r_class env).
  (** the rule needs, directly or not, a rule that needs itself *)
  Definition blocked (p : Z) (x : nat) : Prop :=
    exists a, clos_refl_trans nat (needs env rules p) x a /\ clos_trans nat (needs env rules p) a a.
  (** [l] is a run of the priority [p] cut at the cycle: the registered and borrowed rules that are not
      blocked, once each, in the order of [one_run] *)
  Definition cut_run (p : Z) (l : list nat) : Prop :=
    NoDup (map cls l)
    /\ (forall x, In x l <-> (registered env rules p x \/ borrowed env rules p x) /\ ~ blocked p x)
    /\ exists layer : nat -> nat,
         (forall a b, In a l -> In b l -> needs env rules p a b -> layer b < layer a)
         /\ (forall a n, In a l -> layer a = S n -> exists b, In b l /\ needs env rules p a b /\ layer b = n)
         /\ StronglySorted (fun a b => layer a < layer b \/ layer a = layer b /\ place env rules (cls a) < place env rules (cls b)) l.
  (** the rules of priority [p] fail with [e] once those of [l] have run *)
  Definition fails (p : Z) (l : list nat) (e : exn) : Prop :=
    (e = ValueError /\ l = []
       /\ (~ NoDup (map cls (filter (fun r => Z.eqb p (r_prio env r)) rules))
           \/ exists x, In x (declared_objects env rules p) /\ ~ In (cls x) (map cls rules)))
    \/ (e = CyclicDependency /\ (exists a, clos_trans nat (needs env rules p) a a) /\ cut_run p l).
End Spec.

Section Group.
  Variable env : renv.
  Notation cls := (r_class env).
  Notation prio := (r_prio env).
  Variable perm : list nat -> list nat.
  Hypothesis Hperm : forall l, Permutation l (perm l).
  Variable rules : list nat.
  Variable p : Z.
  Notation g := (filter (fun r => Z.eqb p (prio r)) rules).
  Hypothesis Hg : NoDup (map cls g).
  Lemma depends_needs c d : clos_trans nat (depends (group_graph env g)) c d -> forall a, registered env rules p a -> cls a = c ->
    forall b, registered env rules p b -> cls b = d -> clos_trans nat (needs env rules p) a b.
  Proof.
    intro Ht. apply clos_trans_t1n in Ht. induction Ht as [c d Hd | c e d Hd Ht IH]; intros a Ha Ec b Hb Eb.
    - apply t_step. apply gdepends in Hd as (a' & Ha' & E1 & N & H). assert (a' = a) as -> by (refine (runs_unique Hg _ _ _); auto; congruence).
      subst c d. unfold needs. auto.
    - assert (exists a2, registered env rules p a2 /\ cls a2 = e) as (a2 & Ha2 & E2).
      { inversion Ht as [? Hs | ? ? Hs]; subst; apply gdepends in Hs as (z & Z1 & Z2 & _); eauto. }
      apply gdepends in Hd as (a' & Ha' & E1 & N & H). assert (a' = a) as -> by (refine (runs_unique Hg _ _ _); auto; congruence).
      eapply t_trans; [apply t_step | exact (IH a2 Ha2 E2 b Hb Eb)]. subst c e. unfold needs. auto.
  Qed.
  Lemma needs_depends a b : clos_trans nat (needs env rules p) a b -> clos_trans nat (depends (group_graph env g)) (cls a) (cls b).
  Proof.
    intro Ht. induction Ht as [a b (Ha & N & H) | a b c H1 IH1 H2 IH2]; [|eapply t_trans; eauto]. apply t_step, gdepends. exists a. auto.
  Qed.
  Lemma rt_cases {A} (R : A -> A -> Prop) x y : clos_refl_trans A R x y -> x = y \/ clos_trans A R x y.
  Proof.
    induction 1 as [x y H | x | x y z H1 IH1 H2 IH2]; [right; apply t_step, H | left; reflexivity|].
    destruct IH1 as [-> |IH1]; [exact IH2|]. destruct IH2 as [<- |IH2]; [right; exact IH1|]. right. eapply t_trans; eauto.
  Qed.
  Lemma t_rt {A} (R : A -> A -> Prop) x y : clos_trans A R x y -> clos_refl_trans A R x y.
  Proof. induction 1; [apply rt_step; assumption | eapply rt_trans; eauto]. Qed.
  Lemma cycle_registered a : clos_trans nat (needs env rules p) a a -> registered env rules p a.
  Proof. intro Ha. apply clos_trans_t1n in Ha. inversion Ha as [? Hw | ? ? Hw]; subst; apply Hw. Qed.
  Lemma blocked_reaches x : registered env rules p x \/ borrowed env rules p x ->
    (reaches_cycle (group_graph env g) (cls x) <-> blocked env rules p x).
  Proof.
    intro Hx. split.
    - intros (y & Hxy & Hy). apply (gcycle _ Hg) in Hy as (a & <- & Ha). pose proof (cycle_registered Ha) as Ra.
      apply rt_cases in Hxy as [E|E].
      + assert (x = a) as -> by (refine (runs_unique Hg _ _ _); eauto). exists a. split; [apply rt_refl | exact Ha].
      + destruct Hx as [Hx|Hx].
        * exists a. split; [apply t_rt, (depends_needs E Hx eq_refl Ra eq_refl) | exact Ha].
        * exfalso. apply clos_trans_t1n in E. assert (exists z, registered env rules p z /\ cls z = cls x) as (z & Hz & Ez).
          { inversion E as [? Hs | ? ? Hs]; subst; apply gdepends in Hs as (z & Z1 & Z2 & _); eauto. }
          exact (proj1 Hx z Hz Ez).
    - intros (a & Hxa & Ha). exists (cls a). split; [|apply gcycle; eauto].
      apply rt_cases in Hxa as [-> |H]; [apply rt_refl | apply t_rt, needs_depends, H].
  Qed.

  Lemma run_layers_cases layers cyc l e : run_layers env rules g layers cyc = (l, Err e) ->
    (e = ValueError /\ exists n c, in_group layers n c /\ ~ In c (map cls rules) /\ (n = 0 -> l = []))
    \/ (e = CyclicDependency /\ cyc = true /\ forall c, In c (concat layers) -> In c (map cls rules)).
  Proof.
    revert l. induction layers as [|x t IH]; intros l H; cbn [run_layers] in H.
    - right. destruct cyc; [|discriminate]. injection H as _ <-. repeat split. intros c [].
    - destruct (forallb _ x) eqn:F.
      + destruct (run_layers env rules g t cyc) as [l' r] eqn:R. injection H as <- ->.
        assert (forall c, In c x -> In c (map cls rules)) as Hx.
        { intros c Hc. rewrite forallb_forall in F. specialize (F c Hc). apply rindex_In. destruct (rindex env rules c); [eauto | discriminate]. }
        destruct (IH l' eq_refl) as [(-> & n & c & (y & Hn & Hc) & Hni & _) | (-> & -> & Hin)].
        * left. split; [reflexivity|]. exists (S n), c. split; [exists y; auto|]. split; [exact Hni | discriminate].
        * right. split; [reflexivity|]. split; [reflexivity|]. intros c Hc. cbn [concat] in Hc. apply in_app_or in Hc as [Hc|Hc]; auto.
      + injection H as <- <-. left. split; [reflexivity|].
        assert (exists c, In c x /\ rindex env rules c = None) as (c & Hc & Hi).
        { clear -F. induction x as [|c x IH]; [discriminate|]. cbn [forallb] in F. destruct (rindex env rules c) eqn:E; [|exists c; split; [left; reflexivity | exact E]].
          destruct (IH F) as (c' & H1 & H2). exists c'. split; [right; exact H1 | exact H2]. }
        exists 0, c. split; [exists x; split; [reflexivity | exact Hc]|]. split; [|reflexivity].
        intro Hin. apply rindex_In in Hin as (i & Hi'). congruence.
  Qed.

  Lemma group_fails l e : run_group env perm rules g = (l, Err e) -> fails env rules p l e.
  Proof.
    intro H. unfold run_group in H. rewrite (proj2 (dup_class_spec env [] g)) in H by (split; [exact Hg | intros ? _ []]).
    assert (NoDup (map fst (group_graph env g))) as Hk by (rewrite gkeys; exact Hg).
    destruct (toposort perm (group_graph env g)) as [layers rest] eqn:E.
    destruct (toposort_spec Hperm Hk E) as (P1 & P2 & P3 & P4 & P5 & P6).
    assert (forall c, In c (concat layers) \/ In c (map fst rest) <-> item (group_graph env g) c) as Hit.
    { intro c. rewrite <- (complete_item (perm := perm) Hperm), <- in_app_iff. split; apply Permutation_in; [|symmetry]; exact P1. }
    apply run_layers_cases in H as Hc. destruct Hc as [(-> & n & c & Hn & Hni & Hl) | (-> & Hr & Hin)].
    - left. assert (In c (concat layers)) as Hcl by (apply in_group_concat; eauto).
      assert (forall b, registered env rules p b -> cls b <> c) as Hnr by (intros b [Hb _] Eb; apply Hni; rewrite <- Eb; apply in_map, Hb).
      assert (n = 0) as ->.
      { destruct n as [|n]; [reflexivity|]. exfalso. destruct (P5 n c Hn) as (y & Hy & _). apply gdepends in Hy as (a & Ha & Ea & _). exact (Hnr a Ha Ea). }
      split; [reflexivity|]. split; [apply Hl; reflexivity|]. right.
      assert (item (group_graph env g) c) as Hi by (apply Hit; left; exact Hcl).
      apply gitem in Hi as [(b & Hb & Eb) | (x & Hx & Ex)]; [exfalso; exact (Hnr b Hb Eb)|]. exists x. split; [exact Hx | rewrite Ex; exact Hni].
    - right. split; [reflexivity|]. destruct rest as [|kv rest]; [discriminate|].
      assert (reaches_cycle (group_graph env g) (fst kv)) as (y & _ & Hy) by (apply (rest_reaches_cycle Hperm Hk E); left; reflexivity).
      split; [apply (gcycle _ Hg) in Hy as (a & _ & Ha); eauto|]. clear y Hy Hr.
      rewrite (@run_layers_all env rules g layers true Hin) in H. injection H as <-.
      assert (NoDup (concat layers)) as Hnd.
      { assert (NoDup (concat layers ++ map fst (kv :: rest))) as X by (eapply Permutation_NoDup; [symmetry; exact P1 | apply (complete_wf Hperm Hk)]).
        clear -X. induction (concat layers) as [|x l IH]; [constructor|]. cbn [app] in X. inversion X as [|? ? X1 X2]; subst. constructor; [|exact (IH X2)].
        intro Hx. apply X1, in_or_app. left. exact Hx. }
      assert (forall c, In c (concat layers) <-> item (group_graph env g) c /\ ~ reaches_cycle (group_graph env g) c) as Hem.
      { intro c. split.
        - intro Hc. split; [apply Hit; left; exact Hc|]. apply in_group_concat in Hc as (n & Hn). exact (emitted_no_cycle Hperm Hk E Hn).
        - intros [Hi Hno]. apply Hit in Hi as [Hi|Hi]; [exact Hi|]. exfalso. apply Hno. exact (rest_reaches_cycle Hperm Hk E Hi). }
      assert (Permutation (concat (map (sort_by (idx_lt env rules)) layers)) (concat layers)) as Hs.
      { clear. induction layers as [|l t IH]; simpl; [reflexivity|]. apply Permutation_app; [apply sort_by_perm | exact IH]. }
      assert (forall c, In c (concat (map (sort_by (idx_lt env rules)) layers)) -> cls (rep env g c) = c /\ (registered env rules p (rep env g c) \/ borrowed env rules p (rep env g c)) /\ ~ blocked env rules p (rep env g c)) as Hrep.
      { intros c Hc. apply (Permutation_in _ Hs), Hem in Hc as [Hc Hno]. destruct (grep_spec Hc) as [R1 R2]. split; [exact R1|]. split; [exact R2|].
        intro Hb. apply (blocked_reaches R2) in Hb. rewrite R1 in Hb. exact (Hno Hb). }
      assert (forall x, (registered env rules p x \/ borrowed env rules p x) -> ~ blocked env rules p x -> In (cls x) (concat (map (sort_by (idx_lt env rules)) layers)) /\ rep env g (cls x) = x) as Hx.
      { intros x Hx Hb. assert (In (cls x) (concat (map (sort_by (idx_lt env rules)) layers))) as Hc.
        { apply (Permutation_in _ (Permutation_sym Hs)), Hem. split; [|intro Hr; apply Hb, (blocked_reaches Hx), Hr].
          apply gitem. destruct Hx as [Hx | (_ & l1 & l2 & El & _)]; [left; eauto | right]. exists x. split; [rewrite El; apply in_elt | reflexivity]. }
        split; [exact Hc|]. destruct (Hrep _ Hc) as (R1 & R2 & _). refine (runs_unique Hg _ _ _); auto. }
      set (cs := concat (map (sort_by (idx_lt env rules)) layers)) in *.
      assert (forall x, In x (map (rep env g) cs) <-> (registered env rules p x \/ borrowed env rules p x) /\ ~ blocked env rules p x) as Hl.
      { intro x. rewrite in_map_iff. split.
        - intros (c & <- & Hc). apply (Hrep c Hc).
        - intros [H H']. destruct (Hx x H H') as [H1 H2]. eauto. }
      assert (map cls (map (rep env g) cs) = cs) as Hcs.
      { rewrite map_map. transitivity (map (fun c => c) cs); [|apply map_id]. apply map_ext_in. intros c Hc. apply (Hrep c Hc). }
      split; [rewrite Hcs; eapply Permutation_NoDup; [symmetry; exact Hs | exact Hnd]|]. split; [exact Hl|].
      assert (forall x, In x (map (rep env g) cs) -> exists n, in_group layers n (cls x)) as Hgr.
      { intros x H. apply in_group_concat, (Permutation_in _ Hs). apply Hl in H as [H H']. exact (proj1 (Hx x H H')). }
      exists (fun x => layer_no layers (cls x)). split; [|split].
      + intros a b Ha Hb (Na & Ne & Nd). destruct (Hgr a Ha) as (n & Hn). destruct (P4 n (cls a) (cls b) Hn) as (m & Hm & Hmb); [apply gdepends; exists a; auto|].
        rewrite (layer_no_in_group Hnd Hn), (layer_no_in_group Hnd Hmb). exact Hm.
      + intros a n Ha El. destruct (Hgr a Ha) as (k & Hka). rewrite (layer_no_in_group Hnd Hka) in El. subst k.
        destruct (P5 n (cls a) Hka) as (d & Hd & Hdn). apply gdepends in Hd as (a' & Ha' & Ea & Ne & Nd).
        assert (a' = a) as -> by (refine (runs_unique Hg _ _ _); auto; apply Hl, Ha).
        assert (In d cs) as Hdc by (apply (Permutation_in _ (Permutation_sym Hs)), in_group_concat; eauto).
        destruct (Hrep d Hdc) as (R1 & R2 & R3). exists (rep env g d). split; [apply Hl; auto|]. unfold needs. rewrite R1. split; [auto|].
        apply (layer_no_in_group Hnd Hdn).
      + apply StronglySorted_map. eapply StronglySorted_NoDup_strict.
        * eapply Permutation_NoDup; [symmetry; exact Hs | exact Hnd].
        * apply (@layers_sorted (idx_lt env rules)); [apply idx_lt_trans | apply idx_lt_asym | exact Hnd].
        * intros c d Hc Hd Hne. destruct (Hrep c Hc) as [-> _], (Hrep d Hd) as [-> _]. intros [H | [H1 H2]]; [left; exact H|]. right. split; [exact H1|].
          apply (Permutation_in _ Hs), Hin in Hc. apply (Permutation_in _ Hs), Hin in Hd. unfold idx_lt in H2. apply Nat.ltb_ge in H2.
          rewrite !place_idx in H2 by assumption. assert (place env rules c <> place env rules d) by (intro Ep; apply Hne; exact (place_inj Hc Hd Ep)). lia.
  Qed.
End Group.

Lemma run_groups_err env perm rules gs : forall l e, run_groups env perm rules gs = (l, Err e) ->
  exists gs1 g gs2 ls l', gs = gs1 ++ g :: gs2 /\ Forall2 (fun g l => run_group env perm rules g = (l, Ok tt)) gs1 ls
    /\ run_group env perm rules g = (l', Err e) /\ l = concat ls ++ l'.
Proof.
  induction gs as [|g gs IH]; intros l e E; cbn [run_groups] in E; [discriminate|].
  destruct (run_group env perm rules g) as [l1 [[]|e1]] eqn:E1.
  - destruct (run_groups env perm rules gs) as [l2 r] eqn:E2. injection E as <- ->.
    destruct (IH _ _ eq_refl) as (gs1 & g' & gs2 & ls & l' & -> & H1 & H2 & ->).
    exists (g :: gs1), g', gs2, (l1 :: ls), l'. split; [reflexivity|]. split; [constructor; assumption|]. split; [exact H2|]. cbn [concat]. now rewrite app_assoc.
  - injection E as <- <-. exists [], g, gs, [], l1. repeat split; auto.
Qed.

(** ** C125 *)
Theorem C125_before_the_error : forall env perm rules order e,
  iteration_order perm -> execute_all_rules env perm recorder rules [] = (order, Err e) ->
  exists (runs : list (Z * list nat)) p l,
    order = concat (map snd runs) ++ l
    /\ StronglySorted (fun p q => (p > q)%Z) (map fst runs)
    /\ (forall q, In q (map fst runs) <-> (q > p)%Z /\ exists r, registered env rules q r)
    /\ (forall q l, In (q, l) runs -> one_run env rules q l)
    /\ (exists r, registered env rules p r)
    /\ fails env rules p l e.
Proof.
  intros env perm rules order e Hp E. apply recorder_schedule in E as [E _]. unfold schedule in E.
  destruct (@prio_groups env rules) as (ps & Hs & Hps & Eg). rewrite Eg in E.
  apply run_groups_err in E as (gs1 & g & gs2 & ls & l' & E0 & H & Hf & ->).
  assert (exists ps1 p ps2, ps = ps1 ++ p :: ps2 /\ gs1 = map (fun p => filter (fun r => Z.eqb p (r_prio env r)) rules) ps1 /\ g = filter (fun r => Z.eqb p (r_prio env r)) rules) as (ps1 & p & ps2 & -> & -> & ->).
  { clear -E0. revert gs1 E0. induction ps as [|q ps IH]; intros gs1 E0; cbn [map] in E0; [destruct gs1; discriminate|].
    destruct gs1 as [|g1 gs1]; cbn [app] in E0; injection E0 as E1 E0.
    - exists [], q, ps. auto.
    - destruct (IH gs1 E0) as (ps1 & p & ps2 & -> & -> & ->). exists (q :: ps1), p, ps2. cbn [map app]. rewrite E1. auto. }
  assert (exists runs, map fst runs = ps1 /\ map snd runs = ls /\ forall q l, In (q, l) runs -> run_group env perm rules (filter (fun r => Z.eqb q (r_prio env r)) rules) = (l, Ok tt)) as (runs & R1 & R2 & R3).
  { clear -H. revert ls H. induction ps1 as [|q ps1 IH]; intros ls H; inversion H as [|? l1 ? ls' E1 H1]; subst.
    - exists []. repeat split. intros ? ? [].
    - destruct (IH ls' H1) as (runs & R1 & R2 & R3). exists ((q, l1) :: runs). cbn [map fst snd]. split; [now rewrite R1|]. split; [now rewrite R2|].
      intros q' l [Q|Q]; [injection Q as <- <-; exact E1 | auto]. }
  exists runs, p, l'. split; [now rewrite R2|]. rewrite R1.
  assert (StronglySorted (fun p q => (p > q)%Z) ps1 /\ (forall q, In q ps1 -> (q > p)%Z) /\ (forall q, In q ps2 -> (p > q)%Z)) as (S1 & S2 & S3).
  { clear -Hs. induction ps1 as [|q ps1 IH]; cbn [app] in Hs; inversion Hs as [|? ? S F]; subst.
    - split; [constructor|]. split; [intros q []|]. rewrite Forall_forall in F. exact F.
    - destruct (IH S) as (I1 & I2 & I3). rewrite Forall_forall in F. split; [constructor; [exact I1|]; apply Forall_forall; intros z Hz; apply F, in_or_app; left; exact Hz|].
      split; [|exact I3]. intros z [<-|Hz]; [apply F, in_elt | auto]. }
  split; [exact S1|]. split; [|split; [|split]].
  - intro q. unfold registered. rewrite <- Hps. rewrite in_app_iff. cbn [In]. split; [intro Hq; auto|]. intros [Hgt [Hq|[<-|Hq]]]; [exact Hq | lia | apply S3 in Hq; lia].
  - intros q l Hl. exact (proj1 (group_runs Hp (R3 q l Hl))).
  - unfold registered. apply Hps, in_elt.
  - destruct (dup_class env [] (filter (fun r => Z.eqb p (r_prio env r)) rules)) eqn:Ed.
    + unfold run_group in Hf. rewrite Ed in Hf. injection Hf as <- <-. left. split; [reflexivity|]. split; [reflexivity|]. left.
      intro Hn. rewrite (proj2 (dup_class_spec env [] _)) in Ed by (split; [exact Hn | intros ? _ []]). discriminate.
    + apply dup_class_spec in Ed as [Hn _]. exact (group_fails Hp Hn Hf).
Qed.
(** Three priorities: rule 0 (priority 9) runs; at priority 5 rules 1 and 2 need each other, rule 3
    needs none and runs, rule 4 needs rule 1; rule 5 (priority 0) never runs. *)
Definition env125 : renv := {|
  r_class := fun r => r;
  r_prio := fun r => match r with 0%nat => 9%Z | 5%nat => 0%Z | _ => 5%Z end;
  r_deps := fun r => match r with 1 => [DClass 2] | 2 => [DClass 1] | 4 => [DClass 1] | _ => [] end |}.
Example C125_example :
  execute_all_rules env125 (fun l => l) recorder [0; 1; 2; 3; 4; 5] [] = ([0; 3], Err CyclicDependency)
  /\ blocked env125 [0; 1; 2; 3; 4; 5] 5 4.
Proof.
  split; [reflexivity|]. assert (needs env125 [0; 1; 2; 3; 4; 5] 5 1 2) as H1.
  { split; [split; [cbn; tauto | reflexivity]|]. split; [discriminate|]. right. split; [left; reflexivity|]. exists 2. split; [split; [cbn; tauto | reflexivity] | reflexivity]. }
  assert (needs env125 [0; 1; 2; 3; 4; 5] 5 2 1) as H2.
  { split; [split; [cbn; tauto | reflexivity]|]. split; [discriminate|]. right. split; [left; reflexivity|]. exists 1. split; [split; [cbn; tauto | reflexivity] | reflexivity]. }
  exists 1. split; [apply rt_step|].
  - split; [split; [cbn; tauto | reflexivity]|]. split; [discriminate|]. right. split; [left; reflexivity|]. exists 1. split; [split; [cbn; tauto | reflexivity] | reflexivity].
  - eapply t_trans; apply t_step; eassumption.
Qed.
