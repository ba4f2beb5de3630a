(** * Facts about the rule engine *)
From Verif Require Import Base BaseFacts Topo TopoFacts Rules.
From Coq Require Import Permutation Sorting.Sorted Relation_Operators Operators_Properties.
Set Implicit Arguments.
Unset Strict Implicit.
Open Scope nat_scope.

(** ** Lists *)
Lemma StronglySorted_app {A} (R : A -> A -> Prop) l1 l2 :
  StronglySorted R l1 -> StronglySorted R l2 -> (forall x y, In x l1 -> In y l2 -> R x y) -> StronglySorted R (l1 ++ l2).
Proof.
  intros H1 H2 H. induction H1 as [|x l1 H1 IH Hf]; simpl; [exact H2|]. constructor.
  - apply IH. intros; apply H; [right|]; assumption.
  - apply Forall_app. split; [exact Hf|]. apply Forall_forall. intros y Hy. apply H; [left; reflexivity | exact Hy].
Qed.
Lemma StronglySorted_impl {A} (R S : A -> A -> Prop) l :
  StronglySorted R l -> (forall x y, In x l -> In y l -> R x y -> S x y) -> StronglySorted S l.
Proof.
  intro H. induction H as [|x l H IH Hf]; intro Hi; constructor.
  - apply IH. intros; apply Hi; auto; right; assumption.
  - rewrite Forall_forall in *. intros y Hy. apply Hi; [left; reflexivity | right; exact Hy | apply Hf, Hy].
Qed.
Lemma StronglySorted_NoDup_strict {A} (R S : A -> A -> Prop) l :
  NoDup l -> StronglySorted R l -> (forall x y, In x l -> In y l -> x <> y -> R x y -> S x y) -> StronglySorted S l.
Proof.
  intros Hn H. induction H as [|x l H IH Hf]; intro Hi; constructor; inversion Hn; subst.
  - apply IH; [assumption|]. intros; apply Hi; auto; right; assumption.
  - rewrite Forall_forall in *. intros y Hy. apply Hi; [left; reflexivity | right; exact Hy | congruence | apply Hf, Hy].
Qed.
Lemma StronglySorted_map {A B} (f : A -> B) (R : B -> B -> Prop) l :
  StronglySorted (fun x y => R (f x) (f y)) l -> StronglySorted R (map f l).
Proof.
  induction 1 as [|x l H IH Hf]; simpl; constructor; [exact IH|]. apply Forall_map. exact Hf.
Qed.
(** two sorted permutations of each other are equal when the order is antisymmetric *)
Lemma sorted_unique {A} (R : A -> A -> Prop) (l1 l2 : list A) :
  (forall x y, In x l1 -> In y l1 -> R x y -> R y x -> x = y) ->
  StronglySorted R l1 -> StronglySorted R l2 -> Permutation l1 l2 -> l1 = l2.
Proof.
  intros Ha H1. revert l2 Ha. induction H1 as [|x l1 H1 IH Hf]; intros l2 Ha H2 Hp.
  - apply Permutation_nil in Hp. congruence.
  - destruct l2 as [|y l2]; [symmetry in Hp; apply Permutation_nil in Hp; discriminate|].
    inversion H2 as [|? ? H2' Hf2]; subst. rewrite Forall_forall in Hf, Hf2.
    assert (x = y) as ->.
    { assert (In y (x :: l1)) as Hy by (eapply Permutation_in; [symmetry; exact Hp | left; reflexivity]).
      assert (In x (y :: l2)) as Hx by (eapply Permutation_in; [exact Hp | left; reflexivity]).
      destruct Hy as [|Hy]; [assumption|]. destruct Hx as [|Hx]; [congruence|].
      apply Ha; [left; reflexivity | right; exact Hy | apply Hf, Hy | apply Hf2, Hx]. }
    f_equal. apply IH; auto.
    + intros; apply Ha; auto; right; assumption.
    + eapply Permutation_cons_inv, Hp.
Qed.

Section GroupbyFacts.
  Context {A K : Type} `{EK : Eqb K} (key : A -> K).
  Lemma groupby_concat l : concat (map snd (groupby key l)) = l.
  Proof.
    induction l as [|x l IH]; simpl; [reflexivity|].
    destruct (groupby key l) as [|[k g] t]; simpl in *; [subst l; reflexivity|].
    destruct (eqb (key x) k); simpl; rewrite <- IH; reflexivity.
  Qed.
  (** the keys of a list sorted by a strict order on keys (up to equality) are strictly sorted *)
  Lemma groupby_sorted (lt : K -> K -> Prop) l :
    (forall x y z, lt x y -> lt y z -> lt x z) ->
    StronglySorted (fun x y => lt (key x) (key y) \/ key x = key y) l ->
    StronglySorted lt (map fst (groupby key l)) .
  Proof.
    intros Ht H. induction H as [|x l H IH Hf]; simpl; [constructor|].
    assert (forall k, In k (map fst (groupby key l)) -> lt (key x) k \/ key x = k) as Hk.
    { intros k Hk. apply groupby_keys in Hk as (y & Hy & <-). rewrite Forall_forall in Hf. apply Hf, Hy. }
    destruct (groupby key l) as [|[k g] t]; simpl in *; [constructor; constructor|].
    inversion IH as [|? ? Hs Hl]; subst. rewrite Forall_forall in Hl.
    destruct (eqb (key x) k) eqn:E; simpl; [exact IH|]. apply eqb_neq in E. constructor; [exact IH|].
    destruct (Hk k (or_introl eq_refl)) as [Hlt|]; [|congruence]. constructor; [exact Hlt|].
    apply Forall_forall. intros k' Hk'. eapply Ht; [exact Hlt | apply Hl, Hk'].
  Qed.
  (** with distinct keys, each group is the elements with its key, in order *)
  Lemma groupby_group l k g : NoDup (map fst (groupby key l)) -> In (k, g) (groupby key l) -> g = filter (fun x => eqb k (key x)) l.
  Proof.
    rewrite <- pick_groupby. generalize (groupby key l) as gs. induction gs as [|[k0 g0] gs IH]; simpl; [contradiction|].
    intros Hn [E|Hg]; inversion Hn; subst.
    - injection E as -> ->. rewrite eqb_refl.
      assert (forall gs' : list (K * list A), ~ In k (map fst gs') -> pick k gs' = []) as N.
      { induction gs' as [|[k1 g1] gs' IH']; simpl; [reflexivity|]. intro Hn'. rewrite IH' by tauto.
        destruct (eqb k k1) eqn:E1; [apply eqb_eq in E1; subst; tauto | reflexivity]. }
      rewrite N by assumption. symmetry. apply app_nil_r.
    - destruct (eqb k k0) eqn:E; [apply eqb_eq in E; subst k0; exfalso; apply H1; apply in_map_iff; exists (k, g); auto|].
      simpl. apply IH; assumption.
  Qed.
End GroupbyFacts.

(** ** Independence from the iteration order of sets *)
Section PermIndep.
  Context {K : Type} `{EK : Eqb K}.
  Variables perm1 perm2 : list K -> list K.
  Hypothesis Hp1 : forall l, Permutation l (perm1 l).
  Hypothesis Hp2 : forall l, Permutation l (perm2 l).
  Lemma inb_perm (x : K) l l' : Permutation l l' -> inb x l = inb x l'.
  Proof.
    intro P. destruct (inb x l') eqn:E.
    - apply inb_In. apply inb_In in E. eapply Permutation_in; [symmetry; exact P | exact E].
    - apply inb_false. apply inb_false in E. intro C. apply E. eapply Permutation_in; eauto.
  Qed.
  Lemma filter_perm {B} (f : B -> bool) l l' : Permutation l l' -> Permutation (filter f l) (filter f l').
  Proof.
    induction 1; simpl; auto.
    - destruct (f x); auto.
    - destruct (f x), (f y); auto using perm_swap.
    - eapply Permutation_trans; eauto.
  Qed.
  Lemma ready_perm (d d' : graph K) : Permutation d d' -> Permutation (ready d) (ready d').
  Proof. intro P. unfold ready. apply Permutation_map, filter_perm, P. Qed.
  Lemma strip_perm o o' (d d' : graph K) : Permutation o o' -> Permutation d d' -> Permutation (strip o d) (strip o' d').
  Proof.
    intros Po Pd. unfold strip.
    assert (forall kv : K * list K, (fst kv, filter (fun y => negb (inb y o')) (snd kv)) = (fst kv, filter (fun y => negb (inb y o)) (snd kv))) as E1.
    { intro kv. f_equal. apply filter_ext. intro y. rewrite (inb_perm y Po). reflexivity. }
    rewrite (map_ext _ _ E1). apply Permutation_map.
    rewrite (filter_ext (fun kv : K * list K => negb (inb (fst kv) o')) (fun kv => negb (inb (fst kv) o))).
    - apply filter_perm, Pd.
    - intro kv. rewrite (inb_perm (fst kv) Po). reflexivity.
  Qed.
  Lemma topo_loop_perm : forall fuel (d d' : graph K), Permutation d d' ->
    Forall2 (@Permutation K) (fst (topo_loop perm1 fuel d)) (fst (topo_loop perm2 fuel d'))
    /\ Permutation (snd (topo_loop perm1 fuel d)) (snd (topo_loop perm2 fuel d')).
  Proof.
    induction fuel as [|fuel IH]; intros d d' P; simpl; [auto|].
    pose proof (ready_perm P) as Pr. destruct (ready d) as [|r rs] eqn:E1; destruct (ready d') as [|r' rs'] eqn:E2.
    - simpl. auto.
    - apply Permutation_nil in Pr. discriminate.
    - symmetry in Pr. apply Permutation_nil in Pr. discriminate.
    - specialize (IH _ _ (strip_perm Pr P)).
      destruct (topo_loop perm1 fuel (strip (r :: rs) d)) as [g1 r1], (topo_loop perm2 fuel (strip (r' :: rs') d')) as [g2 r2].
      simpl in *. destruct IH as [I1 I2]. split; [|exact I2]. constructor; [|exact I1].
      rewrite <- Hp1, <- Hp2. exact Pr.
  Qed.
  Lemma toposort_perm (d : graph K) :
    Forall2 (@Permutation K) (fst (toposort perm1 d)) (fst (toposort perm2 d))
    /\ Permutation (snd (toposort perm1 d)) (snd (toposort perm2 d)).
  Proof.
    unfold toposort. destruct d as [|kv d]; [simpl; auto|].
    assert (Permutation (complete perm1 (no_self (kv :: d))) (complete perm2 (no_self (kv :: d)))) as P.
    { unfold complete. apply Permutation_app_head, Permutation_map. rewrite <- Hp1, <- Hp2. reflexivity. }
    cbv zeta. rewrite (Permutation_length P). apply topo_loop_perm, P.
  Qed.
End PermIndep.

Section Sched.
  Variable env : renv.
  Notation cls := (r_class env).
  Notation prio := (r_prio env).

  Lemma idx_lt_trans rules x y z : idx_lt env rules y x = false -> idx_lt env rules z y = false -> idx_lt env rules z x = false.
  Proof. unfold idx_lt. rewrite !Nat.ltb_ge. lia. Qed.
  Lemma idx_lt_asym rules x y : idx_lt env rules x y = true -> idx_lt env rules y x = false.
  Proof. unfold idx_lt. rewrite Nat.ltb_ge, Nat.ltb_lt. lia. Qed.
  Lemma rindex_Some rules c i : rindex env rules c = Some i -> exists r, nth_error rules i = Some r /\ cls r = c.
  Proof. unfold rindex. intro E. apply index_of_Some in E as (r & H1 & H2 & _). apply Nat.eqb_eq in H2. eauto. Qed.
  Lemma rindex_In rules c : In c (map cls rules) <-> exists i, rindex env rules c = Some i.
  Proof.
    unfold rindex. destruct (index_of (fun r => cls r =? c) rules) as [i|] eqn:E.
    - split; [eauto|]. intros _. apply index_of_Some in E as (r & H1 & H2 & _). apply Nat.eqb_eq in H2. subst c.
      apply in_map. eapply nth_error_In, H1.
    - split; [|intros (i & Hi); discriminate]. intro H. apply in_map_iff in H as (r & <- & Hr).
      pose proof (proj1 (index_of_None _ _) E r Hr) as Hc. simpl in Hc. rewrite Nat.eqb_refl in Hc. discriminate.
  Qed.
  Lemma sort_layer_perm rules l l' : Permutation l l' ->
    forallb (fun c => match rindex env rules c with Some _ => true | None => false end) l = true ->
    sort_by (idx_lt env rules) l = sort_by (idx_lt env rules) l'.
  Proof.
    intros P Hall. rewrite forallb_forall in Hall.
    apply (@sorted_unique _ (le (idx_lt env rules))).
    - intros x y Hx Hy H1 H2. apply sort_by_in in Hx, Hy. apply Hall in Hx, Hy. unfold le, idx_lt, idx_key in *.
      destruct (rindex env rules x) as [i|] eqn:Ei; [|discriminate]. destruct (rindex env rules y) as [j|] eqn:Ej; [|discriminate].
      apply Nat.ltb_ge in H1, H2. assert (i = j) as -> by lia.
      apply rindex_Some in Ei as (a & A1 & A2), Ej as (b & B1 & B2). congruence.
    - apply sort_by_sorted; [apply idx_lt_trans | apply idx_lt_asym].
    - apply sort_by_sorted; [apply idx_lt_trans | apply idx_lt_asym].
    - rewrite !sort_by_perm. exact P.
  Qed.
  Lemma run_layers_perm rules g gs gs' cyc : Forall2 (@Permutation nat) gs gs' ->
    run_layers env rules g gs cyc = run_layers env rules g gs' cyc.
  Proof.
    induction 1 as [|l l' gs gs' P H IH]; simpl; [reflexivity|]. rewrite <- IH.
    set (p := fun c => match rindex env rules c with Some _ => true | None => false end).
    assert (forallb p l' = forallb p l) as ->.
    { destruct (forallb p l) eqn:E.
      - rewrite forallb_forall in *. intros x Hx. apply E. eapply Permutation_in; [symmetry; exact P | exact Hx].
      - destruct (forallb p l') eqn:E'; [|reflexivity]. rewrite <- E. symmetry. rewrite forallb_forall in *.
        intros x Hx. apply E'. eapply Permutation_in; eauto. }
    destruct (forallb p l) eqn:E; [|reflexivity]. rewrite (@sort_layer_perm rules l l' P E). reflexivity.
  Qed.
End Sched.

Lemma schedule_perm env perm1 perm2 rules :
  (forall l, Permutation l (perm1 l)) -> (forall l, Permutation l (perm2 l)) ->
  schedule env perm1 rules = schedule env perm2 rules.
Proof.
  intros H1 H2. unfold schedule. generalize (map snd (groupby (r_prio env) (sorted_rules env rules))) as gs.
  induction gs as [|g gs IH]; simpl; [reflexivity|]. rewrite IH. replace (run_group env perm1 rules g) with (run_group env perm2 rules g); [reflexivity|].
  unfold run_group. destruct (dup_class env [] g); [reflexivity|].
  destruct (toposort_perm H1 H2 (group_graph env g)) as [P1 P2].
  destruct (toposort perm1 (group_graph env g)) as [g1 r1], (toposort perm2 (group_graph env g)) as [g2 r2]. simpl in *.
  rewrite (run_layers_perm env rules g _ P1). f_equal.
  destruct r1, r2; try reflexivity; [apply Permutation_nil in P2 | symmetry in P2; apply Permutation_nil in P2]; discriminate.
Qed.

(** ** The layers of a priority group *)
Section Layers.
  Variable lt : nat -> nat -> bool.
  Hypothesis lt_trans : forall x y z, lt y x = false -> lt z y = false -> lt z x = false.
  Hypothesis lt_asym : forall x y, lt x y = true -> lt y x = false.
  (** the number of the layer of [c] *)
  Definition layer_no (layers : list (list nat)) (c : nat) : nat :=
    match index_of (inb c) layers with Some n => n | None => 0 end.
  Lemma layer_no_in_group layers c n : NoDup (concat layers) -> in_group layers n c -> layer_no layers c = n.
  Proof.
    unfold layer_no. revert n. induction layers as [|l t IH]; intros n Hn (g & Hg & Hc); [destruct n; discriminate|].
    simpl. destruct n as [|n]; simpl in Hg.
    - injection Hg as ->. rewrite (proj2 (inb_In c g) Hc). reflexivity.
    - simpl in Hn. assert (In c (concat t)) as Ht by (apply in_concat; exists g; split; [eapply nth_error_In, Hg | exact Hc]).
      assert (inb c l = false) as ->.
      { apply inb_false. intro Hl. clear -Hn Hl Ht. induction l as [|x l IHl]; [contradiction|]. simpl in Hn. inversion Hn; subst.
        destruct Hl as [->|Hl]; [apply H1; apply in_or_app; auto | apply IHl; assumption]. }
      assert (NoDup (concat t)) as Hnt by (clear -Hn; induction l; [exact Hn | inversion Hn; auto]).
      specialize (IH n Hnt (ex_intro _ g (conj Hg Hc))). destruct (index_of (inb c) t) as [m|] eqn:E; [congruence|].
      rewrite index_of_None in E. specialize (E g (nth_error_In _ _ Hg)). apply inb_false in E. contradiction.
  Qed.
  Lemma in_group_concat (layers : list (list nat)) c : In c (concat layers) <-> exists n, in_group layers n c.
  Proof.
    rewrite in_concat. split.
    - intros (g & Hg & Hc). apply In_nth_error in Hg as (n & Hn). exists n, g. auto.
    - intros (n & g & Hg & Hc). exists g. split; [eapply nth_error_In, Hg | exact Hc].
  Qed.
  Lemma layers_sorted layers : NoDup (concat layers) ->
    StronglySorted (fun c d => layer_no layers c < layer_no layers d \/ layer_no layers c = layer_no layers d /\ lt d c = false)
      (concat (map (sort_by lt) layers)).
  Proof.
    induction layers as [|l t IH]; intro Hn; simpl; [constructor|].
    assert (NoDup (concat t)) as Hnt by (clear -Hn; simpl in Hn; induction l; [exact Hn | inversion Hn; auto]).
    assert (forall c, In c (sort_by lt l) -> layer_no (l :: t) c = 0) as H0.
    { intros c Hc. apply sort_by_in in Hc. apply (layer_no_in_group (n := 0) Hn). exists l. auto. }
    assert (forall c, In c (concat (map (sort_by lt) t)) -> layer_no (l :: t) c = S (layer_no t c)) as H1.
    { intros c Hc. assert (In c (concat t)) as Hc'.
      { apply in_concat in Hc as (x & Hx & Hc). apply in_map_iff in Hx as (y & <- & Hy). apply sort_by_in in Hc. apply in_concat. eauto. }
      apply in_group_concat in Hc' as (n & Hc'). rewrite (layer_no_in_group Hnt Hc').
      apply (layer_no_in_group Hn). destruct Hc' as (g & Hg & Hcg). exists g. auto. }
    apply StronglySorted_app.
    - eapply StronglySorted_impl; [apply (@sort_by_sorted _ lt lt_trans lt_asym)|]. intros x y Hx Hy Hle. right. rewrite !H0 by assumption. auto.
    - eapply StronglySorted_impl; [apply IH, Hnt|]. intros x y Hx Hy. cbv beta. rewrite !H1 by assumption. intros [?|[? ?]]; [left | right; split]; auto; lia.
    - intros x y Hx Hy. left. rewrite H0, H1 by assumption. lia.
  Qed.
End Layers.

Section Group.
  Variable env : renv.
  Notation cls := (r_class env).
  Notation prio := (r_prio env).
  Variable perm : list nat -> list nat.
  Hypothesis Hperm : forall l, Permutation l (perm l).

  Lemma dup_class_spec seen rs : dup_class env seen rs = false <-> NoDup (map cls rs) /\ forall r, In r rs -> ~ In (cls r) seen.
  Proof.
    revert seen. induction rs as [|r t IH]; intro seen; simpl; [split; [intros _; split; [constructor | tauto] | reflexivity]|].
    rewrite orb_false_iff, inb_false, IH. split.
    - intros (H1 & H2 & H3). split; [constructor; [|exact H2] | intros r' [<-|Hr]; [exact H1|]].
      + intro Hc. apply in_map_iff in Hc as (r' & E & Hr). apply (H3 r' Hr). left. congruence.
      + intro Hc. apply (H3 r' Hr). right. exact Hc.
    - intros (H1 & H2). inversion H1; subst. split; [apply H2; auto|]. split; [assumption|].
      intros r' Hr [E|Hs]; [apply H3; rewrite E; apply in_map, Hr | eapply H2; eauto].
  Qed.
  Lemma dep_classes_In g r c : In c (dep_classes env g r) <->
    (In (DClass c) (r_deps env r) /\ In c (map cls g)) \/ exists i, In (DInst i) (r_deps env r) /\ cls i = c.
  Proof.
    unfold dep_classes. change (fold_left (@set_add nat _) ?l []) with (set_union (@nil nat) l). rewrite set_union_In, in_flat_map. split.
    - intros [[]|([d|i] & Hd & Hc)].
      + destruct (inb d (map cls g)) eqn:E; [|contradiction]. destruct Hc as [<-|[]]. apply inb_In in E. auto.
      + destruct Hc as [<-|[]]. eauto.
    - intros [[H1 H2]|(i & H1 & <-)]; right.
      + exists (DClass c). split; [exact H1|]. rewrite (proj2 (inb_In c (map cls g)) H2). left. reflexivity.
      + exists (DInst i). split; [exact H1|]. left. reflexivity.
  Qed.
  Lemma NoDup_map_inj {A B} (f : A -> B) l x y : NoDup (map f l) -> In x l -> In y l -> f x = f y -> x = y.
  Proof.
    induction l as [|z l IH]; simpl; [contradiction|]. intros Hn Hx Hy E. inversion Hn; subst.
    destruct Hx as [->|Hx], Hy as [->|Hy]; auto.
    - exfalso. apply H1. rewrite E. apply in_map, Hy.
    - exfalso. apply H1. rewrite <- E. apply in_map, Hx.
  Qed.
  Lemma rep_cls g a : NoDup (map cls g) -> In a g -> rep env g (cls a) = a.
  Proof.
    intros Hn Ha. unfold rep. destruct (find (fun r => cls r =? cls a) g) as [b|] eqn:E.
    - apply find_some in E as [Hb E]. apply Nat.eqb_eq in E. eapply NoDup_map_inj; eauto.
    - pose proof (find_none _ _ E a Ha) as C. simpl in C. rewrite Nat.eqb_refl in C. discriminate.
  Qed.
  Lemma run_layers_all rules g layers cyc : (forall c, In c (concat layers) -> In c (map cls rules)) ->
    run_layers env rules g layers cyc
    = (map (rep env g) (concat (map (sort_by (idx_lt env rules)) layers)), if cyc then Err CyclicDependency else Ok tt).
  Proof.
    induction layers as [|l t IH]; intro H; simpl; [destruct cyc; reflexivity|].
    rewrite (proj2 (forallb_forall _ _)).
    - rewrite IH by (intros; apply H, in_or_app; right; assumption). rewrite map_app. reflexivity.
    - intros c Hc. assert (In c (map cls rules)) as Hi by (apply H, in_or_app; left; exact Hc).
      apply rindex_In in Hi as (i & ->). reflexivity.
  Qed.
  Lemma before_idx rules a b : NoDup (map cls rules) -> In a rules -> In b rules ->
    idx_key env rules (cls a) < idx_key env rules (cls b) -> before rules a b.
  Proof.
    intros Hn Ha Hb. unfold idx_key.
    destruct (proj1 (rindex_In env rules (cls a)) (in_map _ _ _ Ha)) as (i & Ei).
    destruct (proj1 (rindex_In env rules (cls b)) (in_map _ _ _ Hb)) as (j & Ej).
    rewrite Ei, Ej. intro Hlt. apply rindex_Some in Ei as (a' & A1 & A2), Ej as (b' & B1 & B2).
    assert (a' = a) by (eapply NoDup_map_inj; eauto; eapply nth_error_In; eauto).
    assert (b' = b) by (eapply NoDup_map_inj; eauto; eapply nth_error_In; eauto). subst. exists i, j. auto.
  Qed.
  Lemma idx_inj rules a b : In a rules -> In b rules -> idx_key env rules (cls a) = idx_key env rules (cls b) -> cls a = cls b.
  Proof.
    intros Ha Hb. unfold idx_key.
    destruct (proj1 (rindex_In env rules (cls a)) (in_map _ _ _ Ha)) as (i & Ei).
    destruct (proj1 (rindex_In env rules (cls b)) (in_map _ _ _ Hb)) as (j & Ej).
    rewrite Ei, Ej. intros ->. apply rindex_Some in Ei as (a' & A1 & A2), Ej as (b' & B1 & B2). congruence.
  Qed.

  Variable rules : list nat.
  Hypothesis Hloc : instances_local env rules.
  Variable p : Z.
  Notation g := (filter (fun r => Z.eqb p (prio r)) rules).
  Lemma g_In r : In r g <-> In r rules /\ prio r = p.
  Proof. rewrite filter_In, Z.eqb_eq. intuition congruence. Qed.
  Hypothesis Hg : NoDup (map cls g).

  Lemma graph_keys : map fst (group_graph env g) = map cls g.
  Proof. unfold group_graph. rewrite map_map. reflexivity. Qed.
  Lemma graph_depends c d : depends (group_graph env g) c d <->
    exists a b, waits_for env rules a b /\ prio a = p /\ cls a = c /\ cls b = d.
  Proof.
    unfold depends, group_graph. split.
    - intros (ds & Hds & Hd & Hne). apply in_map_iff in Hds as (a & E & Ha). injection E as <- <-.
      apply g_In in Ha as [Ha Hp]. apply dep_classes_In in Hd as [[H1 H2]|(i & H1 & <-)].
      + apply in_map_iff in H2 as (b & <- & Hb). apply g_In in Hb as [Hb Hpb].
        exists a, b. unfold waits_for. repeat split; auto. congruence.
      + destruct (Hloc Ha H1) as (b & Hb & Hc & Hpb). exists a, b. rewrite Hc. unfold waits_for. rewrite Hc. repeat split; auto. right. eauto.
    - intros (a & b & (Ha & Hb & Hp & Hne & Hd) & Hpa & <- & <-). exists (dep_classes env g a). split; [|split; [|exact Hne]].
      + apply in_map_iff. exists a. split; [reflexivity|]. apply g_In. auto.
      + apply dep_classes_In. destruct Hd as [Hd|(i & Hi & E)]; [left; split; [exact Hd|] | right; eauto].
        apply in_map, g_In. split; [exact Hb | congruence].
  Qed.
  Lemma graph_item c : item (group_graph env g) c <-> In c (map cls g).
  Proof.
    unfold item. rewrite graph_keys. split; [|auto]. intros [H|(k & ds & Hk & Hc & Hne)]; [exact H|].
    assert (depends (group_graph env g) k c) as D by (exists ds; auto).
    apply graph_depends in D as (a & b & (Ha & Hb & Hp & _) & Hpa & _ & <-). apply in_map, g_In. split; [exact Hb | congruence].
  Qed.
  Lemma graph_cycle c : on_cycle (group_graph env g) c <-> exists a, prio a = p /\ cls a = c /\ clos_trans nat (waits_for env rules) a a.
  Proof.
    assert (forall a c d, In a g -> cls a = c -> clos_trans nat (depends (group_graph env g)) c d ->
              exists b, In b g /\ cls b = d /\ clos_trans nat (waits_for env rules) a b) as F.
    { intros a c0 d Ha Ec Ht. revert a Ha Ec. apply clos_trans_t1n in Ht. induction Ht as [c0 d Hd|c0 e d Hd Ht IH]; intros a Ha Ec.
      - apply graph_depends in Hd as (a' & b & Hw & Hp & E1 & E2). pose proof Hw as (W1 & W2 & W3 & _).
        assert (a' = a) as -> by (apply (NoDup_map_inj Hg); [apply g_In; auto | exact Ha | congruence]).
        exists b. split; [apply g_In; split; [exact W2 | congruence]|]. split; [exact E2 | apply t_step, Hw].
      - apply graph_depends in Hd as (a' & b & Hw & Hp & E1 & E2). pose proof Hw as (W1 & W2 & W3 & _).
        assert (a' = a) as -> by (apply (NoDup_map_inj Hg); [apply g_In; auto | exact Ha | congruence]).
        destruct (IH b) as (b' & B1 & B2 & B3); [apply g_In; split; [exact W2 | congruence] | exact E2|].
        exists b'. split; [exact B1|]. split; [exact B2|]. eapply t_trans; [apply t_step, Hw | exact B3]. }
    unfold on_cycle. split.
    - intro Ht. assert (exists a, In a g /\ cls a = c) as (a & Ha & Ea).
      { apply clos_trans_t1n in Ht. inversion Ht as [d Hd|d e Hd]; subst; apply graph_depends in Hd as (a & b & (W1 & _) & Hp & E & _);
          exists a; (split; [apply g_In; auto | exact E]). }
      destruct (F a c c Ha Ea Ht) as (b & B1 & B2 & B3). assert (b = a) as -> by (apply (NoDup_map_inj Hg); congruence).
      exists a. apply g_In in Ha as [_ Hp]. auto.
    - intros (a & Hp & <- & Ht).
      assert (forall a b, clos_trans nat (waits_for env rules) a b -> prio a = p -> prio b = p /\ clos_trans nat (depends (group_graph env g)) (cls a) (cls b)) as G.
      { clear a Hp Ht. intros a b Ht. induction Ht as [a b Hw|a b e H1 IH1 H2 IH2]; intro Hp.
        - split; [destruct Hw as (_ & _ & E & _); congruence|]. apply t_step, graph_depends. exists a, b. auto.
        - destruct (IH1 Hp) as [P1 T1], (IH2 P1) as [P2 T2]. split; [exact P2 | eapply t_trans; eauto]. }
      apply G; assumption.
  Qed.

  Lemma group_run : exists l r layers, run_group env perm rules g = (l, r)
    /\ (r = Ok tt <-> forall a, In a g -> ~ clos_trans nat (waits_for env rules) a a)
    /\ (r = Ok tt \/ r = Err CyclicDependency)
    /\ (r = Ok tt -> l = map (rep env g) (concat (map (sort_by (idx_lt env rules)) layers))
         /\ NoDup (concat layers) /\ Permutation (concat layers) (map cls g)
         /\ (forall n c d, in_group layers n c -> depends (group_graph env g) c d -> exists m, m < n /\ in_group layers m d)
         /\ (forall n c, in_group layers (S n) c -> exists d, depends (group_graph env g) c d /\ in_group layers n d)).
  Proof.
    assert (NoDup (map fst (group_graph env g))) as Hk by (rewrite graph_keys; exact Hg).
    unfold run_group. rewrite (proj2 (dup_class_spec [] g)) by (split; [exact Hg | intros ? _ []]).
    destruct (toposort perm (group_graph env g)) as [layers rest] eqn:E.
    destruct (toposort_spec Hperm Hk E) as (P1 & P2 & P3 & P4 & P5 & P6).
    assert (forall c, In c (concat layers) -> In c (map cls g)) as Hin.
    { intros c Hc. apply graph_item. apply (complete_item (perm := perm) Hperm). eapply Permutation_in; [exact P1 | apply in_or_app; auto]. }
    rewrite run_layers_all.
    2:{ intros c Hc. apply Hin in Hc. apply in_map_iff in Hc as (a & <- & Ha). apply in_map. apply g_In in Ha. tauto. }
    eexists _, _, layers. split; [reflexivity|]. split; [|split].
    - assert (rest = [] <-> forall a, In a g -> ~ clos_trans nat (waits_for env rules) a a) as Hr.
      { split.
        - intros -> a Ha Hc. apply g_In in Ha as [Ha Hp].
          assert (on_cycle (group_graph env g) (cls a)) as Hcy by (apply graph_cycle; exists a; auto).
          assert (In (cls a) (concat layers)) as Hl.
          { rewrite app_nil_r in P1. eapply Permutation_in; [symmetry; exact P1|].
            apply (complete_item (perm := perm) Hperm). apply graph_item. apply in_map, g_In. auto. }
          apply in_group_concat in Hl as (n & Hl). apply (emitted_no_cycle Hperm Hk E Hl).
          exists (cls a). split; [apply rt_refl | exact Hcy].
        - intro Hno. destruct rest as [|[c ds] rest]; [reflexivity|]. exfalso.
          destruct (rest_reaches_cycle Hperm Hk E (x := c)) as (d & _ & Hd); [left; reflexivity|].
          pose proof Hd as Hd0. apply graph_cycle in Hd as (a & Hp & _ & Hc). apply (Hno a); [|exact Hc].
          apply g_In. split; [|exact Hp]. apply clos_trans_t1n in Hc. inversion Hc as [? Hw|? ? Hw]; subst; apply Hw. }
      rewrite <- Hr. destruct rest; split; congruence.
    - destruct rest; auto.
    - destruct rest as [|kv rest]; [|discriminate]. intros _. rewrite app_nil_r in P1.
      assert (NoDup (concat layers)) as Hnd by (eapply Permutation_NoDup; [symmetry; exact P1 | apply (complete_wf Hperm Hk)]).
      split; [reflexivity|]. split; [exact Hnd|]. split; [|split; [exact P4 | exact P5]].
      apply NoDup_Permutation; [exact Hnd | exact Hg|]. intro c. split; [apply Hin|]. intro Hc.
      eapply Permutation_in; [symmetry; exact P1|]. apply (complete_item (perm := perm) Hperm). apply graph_item, Hc.
  Qed.

  (** order inside one priority *)
  Definition in_order (layer : nat -> nat) (a b : nat) : Prop :=
    layer a < layer b \/ layer a = layer b /\ before rules a b.
  Lemma group_order l : NoDup (map cls rules) -> run_group env perm rules g = (l, Ok tt) ->
    Permutation l g /\ exists layer : nat -> nat,
      (forall a b, prio a = p -> waits_for env rules a b -> layer b < layer a)
      /\ (forall a n, In a g -> layer a = S n -> exists b, waits_for env rules a b /\ layer b = n)
      /\ StronglySorted (in_order layer) l.
  Proof.
    intros Hn E. destruct group_run as (l' & r & layers & E' & _ & _ & Hr). rewrite E in E'. injection E' as <- <-.
    destruct (Hr eq_refl) as (-> & Hnd & Hpc & P4 & P5). clear Hr E.
    assert (Permutation (concat (map (sort_by (idx_lt env rules)) layers)) (concat layers)) as Hs.
    { clear. induction layers as [|l t IH]; simpl; [reflexivity|]. apply Permutation_app; [apply sort_by_perm | exact IH]. }
    assert (map (rep env g) (map cls g) = g) as Hrep.
    { rewrite map_map. transitivity (map (fun a => a) g); [|apply map_id]. apply map_ext_in. intros a Ha. apply rep_cls; assumption. }
    assert (forall c, In c (map cls g) -> In (rep env g c) g /\ cls (rep env g c) = c) as Hrc.
    { intros c Hc. apply in_map_iff in Hc as (a & <- & Ha). rewrite rep_cls by assumption. auto. }
    split.
    - rewrite Hs, Hpc, Hrep. reflexivity.
    - exists (fun a => layer_no layers (cls a)).
      assert (forall a, In a g -> exists n, in_group layers n (cls a)) as Hgr.
      { intros a Ha. apply in_group_concat. eapply Permutation_in; [symmetry; exact Hpc | apply in_map, Ha]. }
      split; [|split].
      + intros a b Hp Hw. pose proof Hw as (W1 & W2 & W3 & _).
        destruct (Hgr a) as (n & Hna); [apply g_In; auto|].
        destruct (P4 n (cls a) (cls b) Hna) as (m & Hm & Hmb); [apply graph_depends; exists a, b; auto|].
        rewrite (layer_no_in_group Hnd Hna), (layer_no_in_group Hnd Hmb). exact Hm.
      + intros a n Ha El. destruct (Hgr a Ha) as (k & Hk). rewrite (layer_no_in_group Hnd Hk) in El. subst k.
        destruct (P5 n (cls a) Hk) as (d & Hd & Hdn). apply graph_depends in Hd as (a' & b & Hw & Hp & Ea & <-).
        assert (a' = a) as -> by (apply (NoDup_map_inj Hg); [apply g_In; split; [apply Hw | exact Hp] | exact Ha | exact Ea]).
        exists b. split; [exact Hw | apply (layer_no_in_group Hnd Hdn)].
      + apply StronglySorted_map. eapply StronglySorted_NoDup_strict.
        * eapply Permutation_NoDup; [symmetry; exact Hs | exact Hnd].
        * apply (@layers_sorted (idx_lt env rules)); [apply idx_lt_trans | apply idx_lt_asym | exact Hnd].
        * intros c d Hc Hd Hne. simpl.
          assert (In c (map cls g)) as Hc' by (rewrite <- Hpc, <- Hs; exact Hc).
          assert (In d (map cls g)) as Hd' by (rewrite <- Hpc, <- Hs; exact Hd).
          destruct (Hrc c Hc') as [C1 C2], (Hrc d Hd') as [D1 D2]. unfold in_order. rewrite C2, D2.
          intros [?|[He Hlt]]; [auto|]. right. split; [exact He|].
          apply g_In in C1 as [C1 _], D1 as [D1 _]. apply before_idx; auto.
          unfold idx_lt in Hlt. apply Nat.ltb_ge in Hlt. rewrite C2, D2.
          assert (idx_key env rules c <> idx_key env rules d); [|lia].
          intro Ei. apply Hne. rewrite <- C2, <- D2 in Ei. pose proof (idx_inj C1 D1 Ei) as F. rewrite C2, D2 in F. exact F.
  Qed.
End Group.

(** ** All priorities *)
Section All.
  Variable env : renv.
  Notation cls := (r_class env).
  Notation prio := (r_prio env).
  Variable perm : list nat -> list nat.
  Hypothesis Hperm : forall l, Permutation l (perm l).
  Variable rules : list nat.
  Hypothesis Hloc : instances_local env rules.

  Lemma prio_groups : exists ps,
    StronglySorted (fun p q => (p > q)%Z) ps /\ (forall p, In p ps <-> exists r, In r rules /\ prio r = p)
    /\ map snd (groupby prio (sorted_rules env rules)) = map (fun p => filter (fun r => Z.eqb p (prio r)) rules) ps.
  Proof.
    set (lt := fun a b => (prio a >? prio b)%Z).
    assert (forall x y z, lt y x = false -> lt z y = false -> lt z x = false) as Ht.
    { unfold lt. intros x y z. rewrite !Z.gtb_ltb, !Z.ltb_ge. lia. }
    assert (forall x y, lt x y = true -> lt y x = false) as Ha.
    { unfold lt. intros x y. rewrite !Z.gtb_ltb, Z.ltb_ge, Z.ltb_lt. lia. }
    pose proof (@sort_by_sorted _ lt Ht Ha rules) as Hs. fold lt in Hs. change (sort_by lt rules) with (sorted_rules env rules) in Hs.
    assert (StronglySorted (fun p q => (p > q)%Z) (map fst (groupby prio (sorted_rules env rules)))) as Hk.
    { apply groupby_sorted; [lia|]. eapply StronglySorted_impl; [exact Hs|]. unfold le, lt. intros x y _ _ E.
      rewrite Z.gtb_ltb, Z.ltb_ge in E. lia. }
    exists (map fst (groupby prio (sorted_rules env rules))). split; [exact Hk|]. split.
    - intro p. rewrite groupby_keys. unfold sorted_rules. setoid_rewrite sort_by_in. reflexivity.
    - rewrite map_map. apply map_ext_in. intros [p g] Hg. simpl.
      assert (NoDup (map fst (groupby prio (sorted_rules env rules)))) as Hn.
      { clear -Hk. induction Hk as [|p ps Hk IH Hf]; constructor; [|exact IH]. rewrite Forall_forall in Hf. intro Hp. apply Hf in Hp. lia. }
      rewrite (groupby_group Hn Hg). unfold sorted_rules. apply (@sort_by_stable _ lt Ht Ha).
      intros x y Ex Ey. unfold lt. change (eqb p (prio x)) with (Z.eqb p (prio x)) in Ex. change (eqb p (prio y)) with (Z.eqb p (prio y)) in Ey.
      rewrite Z.gtb_ltb, Z.ltb_ge. lia.
  Qed.

  Lemma NoDup_groups : class_prio env -> (forall p, NoDup (map cls (filter (fun r => Z.eqb p (prio r)) rules))) -> NoDup (map cls rules).
  Proof.
    intros Hc. clear Hloc. induction rules as [|r t IH]; intro H; simpl; [constructor|]. constructor.
    - intro Hi. apply in_map_iff in Hi as (r' & E & Hr). specialize (H (prio r)). simpl in H. rewrite Z.eqb_refl in H. simpl in H.
      inversion H; subst. apply H2. rewrite <- E. apply in_map. apply filter_In. split; [exact Hr|].
      apply Z.eqb_eq. apply Hc. congruence.
    - apply IH. intro p. specialize (H p). simpl in H. destruct (Z.eqb p (prio r)); [|exact H]. inversion H; assumption.
  Qed.
  Lemma NoDup_group_of p : NoDup (map cls rules) -> NoDup (map cls (filter (fun r => Z.eqb p (prio r)) rules)).
  Proof.
    clear Hloc. induction rules as [|r t IH]; intro H; simpl; [constructor|]. simpl in H. inversion H; subst.
    destruct (Z.eqb p (prio r)); [|apply IH; assumption]. simpl. constructor; [|apply IH; assumption].
    intro C. apply H2. apply in_map_iff in C as (x & <- & Hx). apply filter_In in Hx as [Hx _]. apply in_map, Hx.
  Qed.
  Lemma run_groups_inv gs l : run_groups env perm rules gs = (l, Ok tt) ->
    exists ls, Forall2 (fun g l => run_group env perm rules g = (l, Ok tt)) gs ls /\ l = concat ls.
  Proof.
    revert l. induction gs as [|g gs IH]; intros l E; simpl in E.
    - injection E as <-. exists []. auto.
    - destruct (run_group env perm rules g) as [l1 [[]|e]] eqn:E1; [|discriminate].
      destruct (run_groups env perm rules gs) as [l2 r] eqn:E2. injection E as <- ->.
      destruct (IH _ eq_refl) as (ls & H1 & ->). exists (l1 :: ls). split; [constructor; assumption | reflexivity].
  Qed.
  Lemma run_group_ok_nodup g l : run_group env perm rules g = (l, Ok tt) -> NoDup (map cls g).
  Proof.
    unfold run_group. destruct (dup_class env [] g) eqn:E; [discriminate|]. intros _. apply dup_class_spec in E. tauto.
  Qed.

  Lemma schedule_nodup l : class_prio env -> schedule env perm rules = (l, Ok tt) -> NoDup (map cls rules).
  Proof.
    intros Hc E. unfold schedule in E. apply run_groups_inv in E as (ls & H & _).
    destruct prio_groups as (ps & _ & Hps & E). rewrite E in H. clear E. apply NoDup_groups; [exact Hc|]. intro p.
    destruct (in_dec Z.eq_dec p ps) as [Hp|Hp].
    - assert (exists l', run_group env perm rules (filter (fun r => Z.eqb p (prio r)) rules) = (l', Ok tt)) as (l' & E).
      { clear -H Hp. revert ls H. induction ps as [|q ps IH]; intros ls H; [contradiction|]. inversion H as [|? l1 ? ls' E1 H1]; subst.
        destruct Hp as [->|Hp]; [eauto | eapply IH; eauto]. }
      eapply run_group_ok_nodup, E.
    - replace (filter (fun r => Z.eqb p (prio r)) rules) with (@nil nat); [constructor|]. symmetry.
      destruct (filter (fun r => Z.eqb p (prio r)) rules) as [|r t] eqn:E; [reflexivity|]. exfalso. apply Hp, Hps. exists r.
      assert (In r (filter (fun r => Z.eqb p (prio r)) rules)) as Hr by (rewrite E; left; reflexivity).
      apply filter_In in Hr as [H1 H2]. split; [exact H1 | lia].
  Qed.

  Definition run_before (layer : nat -> nat) (a b : nat) : Prop :=
    (prio a > prio b)%Z \/ prio a = prio b /\ (layer a < layer b \/ layer a = layer b /\ before rules a b).

  Lemma schedule_order l : NoDup (map cls rules) -> schedule env perm rules = (l, Ok tt) ->
    Permutation l rules /\ exists layer : nat -> nat,
      (forall a b, waits_for env rules a b -> layer b < layer a)
      /\ (forall a n, In a rules -> layer a = S n -> exists b, waits_for env rules a b /\ layer b = n)
      /\ StronglySorted (run_before layer) l.
  Proof.
    intros Hn E. unfold schedule in E. apply run_groups_inv in E as (ls & H & ->).
    destruct prio_groups as (ps & Hs & Hps & E).
    assert (Permutation (concat (map (fun p => filter (fun r => Z.eqb p (prio r)) rules) ps)) rules) as Hall.
    { rewrite <- E, groupby_concat. apply sort_by_perm. }
    rewrite E in H. clear E.
    assert (forall ps' ls', StronglySorted (fun p q => (p > q)%Z) ps' ->
              Forall2 (fun g l => run_group env perm rules g = (l, Ok tt)) (map (fun p => filter (fun r => Z.eqb p (prio r)) rules) ps') ls' ->
              Permutation (concat ls') (concat (map (fun p => filter (fun r => Z.eqb p (prio r)) rules) ps'))
              /\ exists layer : nat -> nat,
                   (forall a b, In (prio a) ps' -> waits_for env rules a b -> layer b < layer a)
                   /\ (forall a n, In a rules -> In (prio a) ps' -> layer a = S n -> exists b, waits_for env rules a b /\ layer b = n)
                   /\ StronglySorted (run_before layer) (concat ls')) as G.
    { clear H Hs Hps Hall ps ls. induction ps' as [|p ps IH]; intros ls Hs H; inversion H as [|? l1 ? ls' E1 H1]; subst; simpl.
      - split; [reflexivity|]. exists (fun _ => 0). repeat split; try contradiction. constructor.
      - inversion Hs as [|? ? Hs' Hf]; subst. rewrite Forall_forall in Hf.
        destruct (IH _ Hs' H1) as (P & lay & L1 & L2 & L3).
        destruct (@group_order env perm Hperm rules Hloc p (NoDup_group_of p Hn) l1 Hn E1) as (P' & lay' & M1 & M2 & M3).
        split; [apply Permutation_app; assumption|].
        assert (~ In p ps) as Hp by (intro C; apply Hf in C; lia).
        exists (fun a => if Z.eqb p (prio a) then lay' a else lay a). split; [|split].
        + intros a b Hi Hw. assert (prio a = prio b) as Ep by apply Hw. rewrite <- Ep. destruct (Z.eqb_spec p (prio a)) as [Ea|Ea].
          * apply M1; [congruence | exact Hw].
          * apply L1; [destruct Hi; [congruence | assumption] | exact Hw].
        + intros a n Ha Hi. destruct (Z.eqb_spec p (prio a)) as [Ea|Ea]; intro El.
          * destruct (M2 a n) as (b & Hw & Hb); [apply g_In; auto | exact El|]. exists b. split; [exact Hw|].
            assert (prio a = prio b) as Ep by apply Hw. rewrite <- Ep, <- Ea, Z.eqb_refl. exact Hb.
          * destruct (L2 a n) as (b & Hw & Hb); [exact Ha | destruct Hi; [congruence | assumption] | exact El|]. exists b. split; [exact Hw|].
            assert (prio a = prio b) as Ep by apply Hw. rewrite <- Ep. destruct (Z.eqb_spec p (prio a)); [congruence | exact Hb].
        + assert (forall a, In a l1 -> prio a = p) as Hl1.
          { intros a Ha. apply (Permutation_in _ P') in Ha. apply g_In in Ha. tauto. }
          assert (forall a, In a (concat ls') -> In (prio a) ps) as Hl2.
          { intros a Ha. apply (Permutation_in _ P) in Ha. apply in_concat in Ha as (x & Hx & Ha). apply in_map_iff in Hx as (q & <- & Hq).
            apply g_In in Ha as [_ ->]. exact Hq. }
          apply StronglySorted_app.
          * eapply StronglySorted_impl; [exact M3|]. intros a b Ha Hb Ho. right. rewrite (Hl1 a Ha), (Hl1 b Hb), Z.eqb_refl. split; [reflexivity | exact Ho].
          * eapply StronglySorted_impl; [exact L3|]. intros a b Ha Hb [Ho|[Ep Ho]]; [left; exact Ho|]. right. split; [exact Ep|].
            apply Hl2 in Ha, Hb. destruct (Z.eqb_spec p (prio a)); [congruence|]. destruct (Z.eqb_spec p (prio b)); [congruence | exact Ho].
          * intros a b Ha Hb. left. rewrite (Hl1 a Ha). apply Hf, Hl2, Hb. }
    destruct (G ps ls Hs H) as (P & lay & L1 & L2 & L3). split; [rewrite P; exact Hall|]. exists lay. split; [|split; [|exact L3]].
    - intros a b Hw. apply L1; [|exact Hw]. apply Hps. exists a. split; [apply Hw | reflexivity].
    - intros a n Ha. apply L2; [exact Ha|]. apply Hps. eauto.
  Qed.

  (** when the schedule completes *)
  Lemma schedule_completes : NoDup (map cls rules) ->
    (snd (schedule env perm rules) = Ok tt <-> forall a, ~ clos_trans nat (waits_for env rules) a a)
    /\ (snd (schedule env perm rules) = Ok tt \/ snd (schedule env perm rules) = Err CyclicDependency).
  Proof.
    intro Hn. unfold schedule. destruct prio_groups as (ps & _ & Hps & ->).
    assert (forall a, clos_trans nat (waits_for env rules) a a -> In (prio a) ps) as Hc.
    { intros a Ha. apply Hps. exists a. split; [|reflexivity]. apply clos_trans_t1n in Ha. inversion Ha as [? Hw|? ? Hw]; subst; apply Hw. }
    assert (forall ps', let r := snd (run_groups env perm rules (map (fun p => filter (fun r => Z.eqb p (prio r)) rules) ps')) in
              (r = Ok tt <-> forall a, In (prio a) ps' -> ~ clos_trans nat (waits_for env rules) a a) /\ (r = Ok tt \/ r = Err CyclicDependency)) as G.
    { clear Hps Hc ps. induction ps' as [|p ps IH]; simpl; [split; [split; [intros _ ? [] | reflexivity] | auto]|].
      destruct (@group_run env perm Hperm rules Hloc p (NoDup_group_of p Hn)) as (l & r & layers & E & Hr & Hor & _). rewrite E.
      destruct IH as [IH IH']. destruct r as [[]|e].
      - destruct (run_groups env perm rules (map (fun p => filter (fun r => Z.eqb p (prio r)) rules) ps)) as [l2 r2]. simpl in *.
        split; [|exact IH']. rewrite IH. split.
        + intros H a [Ha|Ha]; [|apply H, Ha]. intro C. apply (proj1 Hr eq_refl a); [|exact C]. apply g_In. split; [|auto].
          apply clos_trans_t1n in C. inversion C as [? Hw|? ? Hw]; subst; apply Hw.
        + intros H a Ha. apply H. auto.
      - simpl. split; [|destruct Hor as [|]; [discriminate | auto]]. split; [discriminate|]. intro H. exfalso.
        assert (Err e = Ok tt) as X; [|discriminate]. apply Hr. intros a Ha. apply H. left. apply g_In in Ha. symmetry; tauto. }
    destruct (G ps) as [G1 G2]. split; [|exact G2]. rewrite G1. split; [intros H a Ha; exact (H a (Hc a Ha) Ha) | intros H a _; apply H].
  Qed.
End All.
