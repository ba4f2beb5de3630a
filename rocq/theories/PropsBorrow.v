(** * C114 What the rule engine runs, whatever is registered and declared

    C27 and C28 suppose that rule objects are declared as dependencies only of registered rules of the
    same priority, and that priorities are those of classes.  Here nothing is supposed. *)
From Verif Require Import Base BaseFacts Topo TopoFacts Rules RulesFacts PropsRules.
From Coq Require Import Permutation Sorting.Sorted Relation_Operators Operators_Properties.
Set Implicit Arguments.
Unset Strict Implicit.
Open Scope nat_scope.

(** ** Specification *)
Section Spec.
  Variable env : renv.
  Variable rules : list nat.
  Notation cls := (r_class env).
  (** [x] is registered with priority [p] *)
  Definition registered (p : Z) (x : nat) : Prop := In x rules /\ r_prio env x = p.
  (** the rule objects declared as dependencies by the registered rules of priority [p], in order *)
  Definition declared_objects (p : Z) : list nat :=
    flat_map (fun r => if Z.eqb (r_prio env r) p then flat_map (fun d => match d with DInst i => [i] | DClass _ => [] end) (r_deps env r) else []) rules.
  (** [x] is declared by a rule of priority [p], no rule of its class is registered with this priority,
      and it is the first of its class so declared *)
  Definition borrowed (p : Z) (x : nat) : Prop :=
    (forall b, registered p b -> cls b <> cls x)
    /\ exists l1 l2, declared_objects p = l1 ++ x :: l2 /\ forall y, In y l1 -> cls y <> cls x.
  (** the rule [a] of priority [p] declares a rule object of the class of [b], or the class of [b] when
      a rule of this class is registered with the same priority *)
  Definition needs (p : Z) (a b : nat) : Prop :=
    registered p a /\ cls a <> cls b
    /\ ((exists i, In (DInst i) (r_deps env a) /\ cls i = cls b)
        \/ In (DClass (cls b)) (r_deps env a) /\ exists b', registered p b' /\ cls b' = cls b).
  (** the place of the first registered rule of class [c] *)
  Fixpoint place (l : list nat) (c : nat) : nat :=
    match l with
    | [] => 0
    | r :: t => if cls r =? c then 0 else S (place t c)
    end.
  (** [l] is a run of the priority [p]: the registered rules of this priority and the borrowed ones, once
      each; first those that need none, then those that need only these, and so on; in the order of
      registration of their classes among those of the same layer *)
  Definition one_run (p : Z) (l : list nat) : Prop :=
    NoDup (map cls l)
    /\ (forall x, In x l <-> registered p x \/ borrowed p x)
    /\ exists layer : nat -> nat,
         (forall a b, In a l -> In b l -> needs p a b -> layer b < layer a)
         /\ (forall a n, In a l -> layer a = S n -> exists b, In b l /\ needs p a b /\ layer b = n)
         /\ StronglySorted (fun a b => layer a < layer b \/ layer a = layer b /\ place rules (cls a) < place rules (cls b)) l.
End Spec.

(** ** One priority *)
Section Group.
  Variable env : renv.
  Notation cls := (r_class env).
  Notation prio := (r_prio env).
  Variable perm : list nat -> list nat.
  Hypothesis Hperm : forall l, Permutation l (perm l).
  Variable rules : list nat.
  Variable p : Z.
  Notation g := (filter (fun r => Z.eqb p (prio r)) rules).
  Lemma mine r : In r g <-> registered env rules p r.
  Proof. unfold registered. rewrite filter_In, Z.eqb_eq. intuition congruence. Qed.
  Lemma mine_cls c : In c (map cls g) <-> exists b, registered env rules p b /\ cls b = c.
  Proof. rewrite in_map_iff. split; intros (b & H1 & H2); exists b; [rewrite <- mine | rewrite mine]; auto. Qed.

  Lemma gdepends c d : depends (group_graph env g) c d <->
    exists a, registered env rules p a /\ cls a = c /\ c <> d
      /\ ((exists i, In (DInst i) (r_deps env a) /\ cls i = d) \/ In (DClass d) (r_deps env a) /\ exists b, registered env rules p b /\ cls b = d).
  Proof.
    unfold depends, group_graph. split.
    - intros (ds & Hds & Hd & Hne). apply in_map_iff in Hds as (a & E & Ha). injection E as <- <-. apply mine in Ha.
      exists a. split; [exact Ha|]. split; [reflexivity|]. split; [exact Hne|]. apply dep_classes_In in Hd as [[H1 H2] | H]; [right|left; exact H].
      split; [exact H1 | apply mine_cls, H2].
    - intros (a & Ha & <- & Hne & H). exists (dep_classes env g a). split; [apply in_map_iff; exists a; split; [reflexivity | apply mine, Ha]|]. split; [|exact Hne].
      apply dep_classes_In. destruct H as [H | [H1 H2]]; [right; exact H | left; split; [exact H1 | apply mine_cls, H2]].
  Qed.
  Lemma gneeds a b : registered env rules p a -> (needs env rules p a b <-> cls a <> cls b /\
     ((exists i, In (DInst i) (r_deps env a) /\ cls i = cls b) \/ In (DClass (cls b)) (r_deps env a) /\ exists b', registered env rules p b' /\ cls b' = cls b)).
  Proof. intro Ha. unfold needs. tauto. Qed.
  Lemma gkeys : map fst (group_graph env g) = map cls g.
  Proof. unfold group_graph. rewrite map_map. reflexivity. Qed.
  Lemma declared_in x : In x (declared_objects env rules p) <-> exists a, registered env rules p a /\ In (DInst x) (r_deps env a).
  Proof.
    unfold declared_objects, registered. rewrite in_flat_map. split.
    - intros (a & Ha & Hx). destruct (Z.eqb_spec (prio a) p) as [E|]; [|contradiction]. apply in_flat_map in Hx as (d & Hd & Hx). destruct d as [|i]; [contradiction|].
      destruct Hx as [-> | []]. eauto.
    - intros (a & (Ha & Hp) & Hx). exists a. split; [exact Ha|]. rewrite (proj2 (Z.eqb_eq _ _) Hp). apply in_flat_map. exists (DInst x). split; [exact Hx | left; reflexivity].
  Qed.
  Lemma declared_instances : instance_deps env g = declared_objects env rules p.
  Proof.
    unfold instance_deps, declared_objects. induction rules as [|r t IH]; [reflexivity|]. cbn [filter flat_map]. rewrite <- IH, (Z.eqb_sym (prio r) p).
    destruct (Z.eqb p (prio r)); reflexivity.
  Qed.
  Lemma gitem c : item (group_graph env g) c <-> (exists b, registered env rules p b /\ cls b = c) \/ exists x, In x (declared_objects env rules p) /\ cls x = c.
  Proof.
    unfold item. rewrite gkeys, mine_cls. split.
    - intros [H | (k & ds & Hk & Hc & Hne)]; [left; exact H|]. assert (depends (group_graph env g) k c) as D by (exists ds; auto).
      apply gdepends in D as (a & Ha & _ & _ & [(i & Hi & <-) | [_ H]]); [right; exists i; split; [apply declared_in; eauto | reflexivity] | left; exact H].
    - intros [H | (x & Hx & <-)]; [left; exact H|]. apply declared_in in Hx as (a & Ha & Hx). destruct (Nat.eq_dec (cls a) (cls x)) as [E|E]; [left; eauto|].
      right. assert (depends (group_graph env g) (cls a) (cls x)) as (ds & D1 & D2 & D3) by (apply gdepends; exists a; repeat split; eauto; apply Ha).
      exists (cls a), ds. auto.
  Qed.
  Lemma find_first {A} (f : A -> bool) l x : find f l = Some x -> exists l1 l2, l = l1 ++ x :: l2 /\ f x = true /\ forall y, In y l1 -> f y = false.
  Proof.
    induction l as [|a l IH]; cbn [find]; [discriminate|]. destruct (f a) eqn:E.
    - intro H. injection H as <-. exists [], l. split; [reflexivity|]. split; [exact E | intros y []].
    - intro H. destruct (IH H) as (l1 & l2 & -> & H1 & H2). exists (a :: l1), l2. split; [reflexivity|]. split; [exact H1|]. intros y [<-|Hy]; auto.
  Qed.
  Lemma grep_spec c : item (group_graph env g) c -> cls (rep env g c) = c /\ (registered env rules p (rep env g c) \/ borrowed env rules p (rep env g c)).
  Proof.
    intro Hc. unfold rep. rewrite declared_instances. destruct (find (fun r => cls r =? c) g) as [r|] eqn:E.
    - apply find_some in E as [E1 E2]. apply Nat.eqb_eq in E2. split; [exact E2|]. left. apply mine, E1.
    - assert (forall b, registered env rules p b -> cls b <> c) as N by (intros b Hb Eb; apply mine in Hb; pose proof (find_none _ _ E b Hb) as C; cbn beta in C; rewrite Eb, Nat.eqb_refl in C; discriminate).
      apply gitem in Hc as [(b & Hb & Eb) | (x & Hx & Ex)]; [exfalso; exact (N b Hb Eb)|].
      destruct (find (fun r => cls r =? c) (declared_objects env rules p)) as [r|] eqn:F.
      + apply find_first in F as (l1 & l2 & F1 & F2 & F3). apply Nat.eqb_eq in F2. split; [exact F2|]. right. split; [intros b Hb; rewrite F2; auto|].
        exists l1, l2. split; [exact F1|]. intros y Hy. rewrite F2. specialize (F3 y Hy). now apply Nat.eqb_neq.
      + exfalso. pose proof (find_none _ _ F x Hx) as C. cbn beta in C. rewrite Ex, Nat.eqb_refl in C. discriminate.
  Qed.
  Lemma place_idx c l : In c (map cls l) -> idx_key env l c = place env l c.
  Proof.
    unfold idx_key, rindex. induction l as [|r t IH]; cbn [map place index_of]; [contradiction|]. intro H. destruct (Nat.eqb_spec (cls r) c) as [E|E]; [reflexivity|].
    destruct H as [H|H]; [congruence|]. specialize (IH H). destruct (proj1 (rindex_In env t c) H) as (i & Hi). unfold rindex in Hi. rewrite Hi in *. cbn. now rewrite IH.
  Qed.
  Lemma place_inj l : forall c d, In c (map cls l) -> In d (map cls l) -> place env l c = place env l d -> c = d.
  Proof.
    induction l as [|r t IH]; intros c d; cbn [map place]; [contradiction|]. intros Hc Hd.
    destruct (Nat.eqb_spec (cls r) c) as [E1|E1], (Nat.eqb_spec (cls r) d) as [E2|E2]; try congruence; try discriminate.
    intro H. injection H as H. destruct Hc; [congruence|]. destruct Hd; [congruence|]. auto.
  Qed.
  (** the two objects of one class that may run are the same *)
  Lemma runs_unique x y : NoDup (map cls g) -> (registered env rules p x \/ borrowed env rules p x) -> (registered env rules p y \/ borrowed env rules p y) -> cls x = cls y -> x = y.
  Proof.
    intros Hg [X|X] [Y|Y] E.
    - apply (NoDup_map_inj Hg); [apply mine, X | apply mine, Y | exact E].
    - exfalso. exact (proj1 Y x X E).
    - exfalso. exact (proj1 X y Y (eq_sym E)).
    - destruct X as (_ & l1 & l2 & E1 & N1), Y as (_ & k1 & k2 & E2 & N2). rewrite E1 in E2. clear E1. revert k1 E2 N2. induction l1 as [|a l1 IH]; intros k1 E2 N2.
      + destruct k1 as [|b k1]; cbn [app] in E2; injection E2 as <- _; [reflexivity|]. exfalso. exact (N2 x (or_introl eq_refl) E).
      + destruct k1 as [|b k1]; cbn [app] in E2; injection E2 as -> E2.
        * exfalso. exact (N1 y (or_introl eq_refl) (eq_sym E)).
        * apply (IH (fun z Hz => N1 z (or_intror Hz)) k1 E2). intros z Hz. apply N2. right. exact Hz.
  Qed.
  Lemma gcycle c : NoDup (map cls g) -> (on_cycle (group_graph env g) c <-> exists a, cls a = c /\ clos_trans nat (needs env rules p) a a).
  Proof.
    intro Hg. unfold on_cycle. split.
    - intro Ht.
      assert (forall c d, clos_trans nat (depends (group_graph env g)) c d -> forall a, registered env rules p a -> cls a = c ->
                forall b, registered env rules p b -> cls b = d -> clos_trans nat (needs env rules p) a b) as F.
      { clear c Ht. intros c d Ht. apply clos_trans_t1n in Ht. induction Ht as [c d Hd | c e d Hd Ht IH]; intros a Ha Ec b Hb Eb.
        - apply t_step. apply gdepends in Hd as (a' & Ha' & E1 & N & H). assert (a' = a) as -> by (apply runs_unique; auto; congruence).
          subst c d. unfold needs. auto.
        - assert (exists a2, registered env rules p a2 /\ cls a2 = e) as (a2 & Ha2 & E2).
          { inversion Ht as [? Hs | ? ? Hs]; subst; apply gdepends in Hs as (z & Z1 & Z2 & _); eauto. }
          apply gdepends in Hd as (a' & Ha' & E1 & N & H). assert (a' = a) as -> by (apply runs_unique; auto; congruence).
          eapply t_trans; [apply t_step | exact (IH a2 Ha2 E2 b Hb Eb)]. subst c e. unfold needs. auto. }
      assert (exists a, registered env rules p a /\ cls a = c) as (a & Ha & Ea).
      { pose proof (proj1 (clos_trans_t1n_iff _ _ _ _) Ht) as Ht'. inversion Ht' as [? Hs | ? ? Hs]; subst; apply gdepends in Hs as (z & Z1 & Z2 & _); eauto. }
      exists a. split; [exact Ea|]. exact (F c c Ht a Ha Ea a Ha Ea).
    - intros (a & <- & Ht).
      assert (forall a b, clos_trans nat (needs env rules p) a b -> clos_trans nat (depends (group_graph env g)) (cls a) (cls b)) as G.
      { clear a Ht. intros a b Ht. induction Ht as [a b (Ha & N & H) | a b c H1 IH1 H2 IH2]; [|eapply t_trans; eauto]. apply t_step, gdepends. exists a. auto. }
      apply G, Ht.
  Qed.
  Lemma run_layers_ok rs h layers cyc l : run_layers env rs h layers cyc = (l, Ok tt) -> cyc = false /\ forall c, In c (concat layers) -> In c (map cls rs).
  Proof.
    revert l. induction layers as [|x t IH]; intros l H; cbn [run_layers] in H.
    - destruct cyc; [discriminate|]. split; [reflexivity | intros c []].
    - destruct (forallb _ x) eqn:F; [|discriminate]. destruct (run_layers env rs h t cyc) as [l' r] eqn:R. injection H as _ ->.
      destruct (IH l' eq_refl) as [-> H]. split; [reflexivity|]. intros c Hc. cbn [concat] in Hc. apply in_app_or in Hc as [Hc|Hc]; [|auto].
      rewrite forallb_forall in F. specialize (F c Hc). apply rindex_In. destruct (rindex env rs c); [eauto | discriminate].
  Qed.

  (** the run of the group *)
  Lemma group_runs l : run_group env perm rules g = (l, Ok tt) -> one_run env rules p l
    /\ (forall x, In x (declared_objects env rules p) -> In (cls x) (map cls rules)) /\ forall a, ~ clos_trans nat (needs env rules p) a a.
  Proof.
    intro H. assert (NoDup (map cls g)) as Hg.
    { unfold run_group in H. destruct (dup_class env [] g) eqn:E; [discriminate|]. apply dup_class_spec in E. tauto. }
    unfold run_group in H. rewrite (proj2 (dup_class_spec env [] g)) in H by (split; [exact Hg | intros ? _ []]).
    assert (NoDup (map fst (group_graph env g))) as Hk by (rewrite gkeys; exact Hg).
    destruct (toposort perm (group_graph env g)) as [layers rest] eqn:E.
    destruct (toposort_spec Hperm Hk E) as (P1 & P2 & P3 & P4 & P5 & P6).
    destruct (run_layers_ok H) as [Hr Hin]. destruct rest as [|kv rest]; [|discriminate]. clear Hr.
    rewrite (@run_layers_all env rules g layers false Hin) in H. injection H as <-. rewrite app_nil_r in P1.
    assert (NoDup (concat layers)) as Hnd by (eapply Permutation_NoDup; [symmetry; exact P1 | apply (complete_wf Hperm Hk)]).
    assert (forall c, In c (concat layers) <-> item (group_graph env g) c) as Hit.
    { intro c. rewrite <- (complete_item (perm := perm) Hperm). split; apply Permutation_in; [|symmetry]; exact P1. }
    assert (Permutation (concat (map (sort_by (idx_lt env rules)) layers)) (concat layers)) as Hs.
    { clear. induction layers as [|l t IH]; simpl; [reflexivity|]. apply Permutation_app; [apply sort_by_perm | exact IH]. }
    assert (forall c, In c (concat (map (sort_by (idx_lt env rules)) layers)) -> cls (rep env g c) = c /\ (registered env rules p (rep env g c) \/ borrowed env rules p (rep env g c))) as Hrep.
    { intros c Hc. apply grep_spec, Hit, (Permutation_in _ Hs), Hc. }
    assert (forall x, registered env rules p x \/ borrowed env rules p x -> In (cls x) (concat (map (sort_by (idx_lt env rules)) layers)) /\ rep env g (cls x) = x) as Hx.
    { intros x Hx. assert (In (cls x) (concat (map (sort_by (idx_lt env rules)) layers))) as Hc.
      { apply (Permutation_in _ (Permutation_sym Hs)), Hit, gitem. destruct Hx as [Hx | (_ & l1 & l2 & El & _)]; [left; eauto | right]. exists x. split; [rewrite El; apply in_elt | reflexivity]. }
      split; [exact Hc|]. destruct (Hrep _ Hc) as [R1 R2]. apply runs_unique; auto. }
    set (cs := concat (map (sort_by (idx_lt env rules)) layers)) in *.
    assert (forall x, In x (map (rep env g) cs) <-> registered env rules p x \/ borrowed env rules p x) as Hl.
    { intro x. rewrite in_map_iff. split.
      - intros (c & <- & Hc). apply (Hrep c Hc).
      - intro H. destruct (Hx x H) as [H1 H2]. eauto. }
    assert (map cls (map (rep env g) cs) = cs) as Hcs.
    { rewrite map_map. transitivity (map (fun c => c) cs); [|apply map_id]. apply map_ext_in. intros c Hc. apply (Hrep c Hc). }
    split; [|split].
    - split; [rewrite Hcs; eapply Permutation_NoDup; [symmetry; exact Hs | exact Hnd]|]. split; [exact Hl|].
      assert (forall x, In x (map (rep env g) cs) -> exists n, in_group layers n (cls x)) as Hgr.
      { intros x H. apply in_group_concat, (Permutation_in _ Hs), Hx, Hl, H. }
      exists (fun x => layer_no layers (cls x)). split; [|split].
      + intros a b Ha Hb (Na & Ne & Nd). destruct (Hgr a Ha) as (n & Hn). destruct (P4 n (cls a) (cls b) Hn) as (m & Hm & Hmb); [apply gdepends; exists a; auto|].
        rewrite (layer_no_in_group Hnd Hn), (layer_no_in_group Hnd Hmb). exact Hm.
      + intros a n Ha El. destruct (Hgr a Ha) as (k & Hka). rewrite (layer_no_in_group Hnd Hka) in El. subst k.
        destruct (P5 n (cls a) Hka) as (d & Hd & Hdn). apply gdepends in Hd as (a' & Ha' & Ea & Ne & Nd).
        assert (a' = a) as -> by (apply runs_unique; auto; apply Hl, Ha).
        assert (In d cs) as Hdc by (apply (Permutation_in _ (Permutation_sym Hs)), in_group_concat; eauto).
        destruct (Hrep d Hdc) as [R1 R2]. exists (rep env g d). split; [apply Hl, R2|]. unfold needs. rewrite R1. split; [auto|].
        apply (layer_no_in_group Hnd Hdn).
      + apply StronglySorted_map. eapply StronglySorted_NoDup_strict.
        * eapply Permutation_NoDup; [symmetry; exact Hs | exact Hnd].
        * apply (@layers_sorted (idx_lt env rules)); [apply idx_lt_trans | apply idx_lt_asym | exact Hnd].
        * intros c d Hc Hd Hne. destruct (Hrep c Hc) as [-> _], (Hrep d Hd) as [-> _]. intros [H | [H1 H2]]; [left; exact H|]. right. split; [exact H1|].
          apply (Permutation_in _ Hs), Hin in Hc. apply (Permutation_in _ Hs), Hin in Hd. unfold idx_lt in H2. apply Nat.ltb_ge in H2.
          rewrite !place_idx in H2 by assumption. assert (place env rules c <> place env rules d) by (intro Ep; apply Hne; exact (place_inj Hc Hd Ep)). lia.
    - intros x H. apply Hin, Hit, gitem. right. eauto.
    - intros a Ha. assert (on_cycle (group_graph env g) (cls a)) as Hcy by (apply gcycle; eauto).
      assert (registered env rules p a) as Ra by (apply clos_trans_t1n in Ha; inversion Ha as [? Hw | ? ? Hw]; subst; apply Hw).
      destruct (proj1 (in_group_concat layers (cls a))) as (n & Hn); [apply Hit, gitem; left; eauto|].
      apply (emitted_no_cycle Hperm Hk E Hn). exists (cls a). split; [apply rt_refl | exact Hcy].
  Qed.
  Lemma group_completes : NoDup (map cls g) -> (forall x, In x (declared_objects env rules p) -> In (cls x) (map cls rules)) ->
    (forall a, ~ clos_trans nat (needs env rules p) a a) -> exists l, run_group env perm rules g = (l, Ok tt).
  Proof.
    intros Hg Hin Hno. unfold run_group. rewrite (proj2 (dup_class_spec env [] g)) by (split; [exact Hg | intros ? _ []]).
    assert (NoDup (map fst (group_graph env g))) as Hk by (rewrite gkeys; exact Hg).
    destruct (toposort perm (group_graph env g)) as [layers rest] eqn:E.
    destruct (toposort_spec Hperm Hk E) as (P1 & P2 & P3 & P4 & P5 & P6).
    assert (rest = []) as ->.
    { destruct rest as [|[c ds] rest]; [reflexivity|]. exfalso. destruct (rest_reaches_cycle Hperm Hk E (x := c)) as (d & _ & Hd); [left; reflexivity|].
      apply (gcycle d Hg) in Hd as (a & _ & Ha). exact (Hno a Ha). }
    rewrite run_layers_all; [eauto|]. intros c Hc. assert (item (group_graph env g) c) as Hi.
    { apply (complete_item (perm := perm) Hperm). eapply Permutation_in; [exact P1 | apply in_or_app; auto]. }
    apply gitem in Hi as [(b & (Hb & _) & <-) | (x & Hx & <-)]; [apply in_map, Hb | apply Hin, Hx].
  Qed.
End Group.

(** ** C114: an execution that completes is, priority after priority from the highest, one run of each *)
Theorem C114_what_runs : forall env perm rules order ret,
  iteration_order perm -> execute_all_rules env perm recorder rules [] = (order, Ok ret) ->
  exists runs : list (Z * list nat),
    order = concat (map snd runs)
    /\ StronglySorted (fun p q => (p > q)%Z) (map fst runs)
    /\ (forall p, In p (map fst runs) <-> exists r, registered env rules p r)
    /\ (forall p l, In (p, l) runs -> one_run env rules p l).
Proof.
  intros env perm rules order ret Hp E. apply recorder_schedule in E as [E _]. unfold schedule in E.
  destruct (@prio_groups env rules) as (ps & Hs & Hps & Eg). rewrite Eg in E. apply run_groups_inv in E as (ls & H & ->).
  assert (exists runs, map fst runs = ps /\ map snd runs = ls /\ forall p l, In (p, l) runs -> run_group env perm rules (filter (fun r => Z.eqb p (r_prio env r)) rules) = (l, Ok tt)) as (runs & R1 & R2 & R3).
  { clear Eg Hs Hps. revert ls H. induction ps as [|p ps IH]; intros ls H; inversion H as [|? l1 ? ls' E1 H1]; subst.
    - exists []. repeat split. intros ? ? [].
    - destruct (IH ls' H1) as (runs & R1 & R2 & R3). exists ((p, l1) :: runs). cbn [map fst snd]. split; [now rewrite R1|]. split; [now rewrite R2|].
      intros q l [Q|Q]; [injection Q as <- <-; exact E1 | auto]. }
  exists runs. split; [now rewrite R2|]. split; [rewrite R1; exact Hs|]. split; [rewrite R1; exact Hps|].
  intros p l Hl. exact (proj1 (group_runs Hp (R3 p l Hl))).
Qed.
(** and it completes iff no class is registered twice with one priority, every class of which an object
    is declared is registered with some priority, and no rule needs itself *)
Theorem C114_completes : forall env perm rules, iteration_order perm ->
  ((exists order ret, execute_all_rules env perm recorder rules [] = (order, Ok ret)) <->
   (forall p a b, registered env rules p a -> registered env rules p b -> r_class env a = r_class env b -> a = b)
   /\ (forall p, NoDup (filter (fun r => Z.eqb p (r_prio env r)) rules))
   /\ (forall a i, In a rules -> In (DInst i) (r_deps env a) -> exists b, In b rules /\ r_class env b = r_class env i)
   /\ forall p a, ~ clos_trans nat (needs env rules p) a a).
Proof.
  intros env perm rules Hp. destruct (@prio_groups env rules) as (ps & Hs & Hps & Eg). split.
  - intros (order & ret & E). apply recorder_schedule in E as [E _]. unfold schedule in E. rewrite Eg in E. apply run_groups_inv in E as (ls & H & _).
    assert (forall p, (exists r, registered env rules p r) -> exists l, run_group env perm rules (filter (fun r => Z.eqb p (r_prio env r)) rules) = (l, Ok tt)) as K.
    { intros p Hr. apply Hps in Hr. clear -H Hr. revert ls H. induction ps as [|q ps IH]; intros ls H; [contradiction|]. inversion H as [|? l1 ? ls' E1 H1]; subst.
      destruct Hr as [-> |Hr]; [eauto | eapply IH; eauto]. }
    split; [|split; [|split]].
    + intros p a b Ha Hb Ec. destruct (K p (ex_intro _ a Ha)) as (l & El). apply run_group_ok_nodup in El. apply (NoDup_map_inj El); [apply mine, Ha | apply mine, Hb | exact Ec].
    + intro p. destruct (filter (fun r => Z.eqb p (r_prio env r)) rules) as [|r t] eqn:F; [constructor|]. rewrite <- F.
      destruct (K p) as (l & El); [exists r; apply mine; rewrite F; left; reflexivity|]. apply run_group_ok_nodup in El. eapply NoDup_map_inv, El.
    + intros a i Ha Hi. destruct (K (r_prio env a)) as (l & El); [exists a; split; auto|]. destruct (group_runs Hp El) as (_ & D & _).
      assert (In (r_class env i) (map (r_class env) rules)) as Hc by (apply D, declared_in; exists a; split; [split; auto | exact Hi]).
      apply in_map_iff in Hc as (b & Eb & Hb). eauto.
    + intros p a Ha. destruct (K p) as (l & El); [|exact (proj2 (proj2 (group_runs Hp El)) a Ha)].
      exists a. apply clos_trans_t1n in Ha. inversion Ha as [? Hw | ? ? Hw]; subst; apply Hw.
  - intros (H1 & H2 & H3 & H4).
    assert (forall p, exists l, run_group env perm rules (filter (fun r => Z.eqb p (r_prio env r)) rules) = (l, Ok tt)) as K.
    { intro p. apply (group_completes Hp).
      - specialize (H2 p). assert (forall a b, In a (filter (fun r => Z.eqb p (r_prio env r)) rules) -> In b (filter (fun r => Z.eqb p (r_prio env r)) rules) -> r_class env a = r_class env b -> a = b) as I by (intros a b Ha Hb; apply mine in Ha, Hb; eauto).
        clear -H2 I. induction H2 as [|x l N D IH]; cbn [map]; constructor.
        + intro Hc. apply in_map_iff in Hc as (y & Ey & Hy). assert (y = x) as -> by (apply I; [right; exact Hy | left; reflexivity | exact Ey]). contradiction.
        + apply IH. intros a b Ha Hb. apply I; right; assumption.
      - intros x Hx. apply declared_in in Hx as (a & (Ha & _) & Hx). destruct (H3 a x Ha Hx) as (b & Hb & Eb). rewrite <- Eb. apply in_map, Hb.
      - apply H4. }
    assert (exists l, schedule env perm rules = (l, Ok tt)) as (l & El).
    { unfold schedule. rewrite Eg. clear Eg Hs Hps. induction ps as [|p ps (l & IH)]; cbn [map run_groups]; [eauto|]. destruct (K p) as (l1 & ->). rewrite IH. eauto. }
    exists l, []. apply recorder_schedule. auto.
Qed.
(** C28's witness is such a case: rule 1 of priority 10 is declared by rule 0 of priority 0 *)
Example C114_example :
  borrowed env28 [0; 1] 0%Z 1
  /\ execute_all_rules env28 (fun l => l) recorder [0; 1] [] = (concat (map snd [(10%Z, [1]); (0%Z, [1; 0])]), Ok []).
Proof.
  split; [|reflexivity]. split.
  - intros b [[<-|[<-|[]]] Hb]; [discriminate | discriminate Hb].
  - exists [], []. split; [reflexivity | intros y []].
Qed.
Print Assumptions C114_what_runs.
Print Assumptions C114_completes.
