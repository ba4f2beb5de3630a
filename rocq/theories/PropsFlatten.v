(** * Property C122: toposort_flatten *)
From Verif Require Import Base BaseFacts Topo TopoFacts Rules RulesFacts PropsRules.
From Coq Require Import Permutation Sorting.Sorted Relation_Operators Lia.
Set Implicit Arguments.
Unset Strict Implicit.
Open Scope nat_scope.

(** toposort.py:64-80 [toposort_flatten]; [order] is [None] for [sort=False], otherwise the [<] of the items.
    Items without [<] (TypeError) are not modelled. *)
Definition toposort_flatten {K} `{Eqb K} (perm : list K -> list K) (order : option (K -> K -> bool)) (data : graph K) : res (list K) :=
  let '(groups, rest) := toposort perm data in
  match rest with
  | [] => Ok (flat_map (fun g => match order with Some lt => sort_by lt g | None => g end) groups)
  | _ => Err CyclicDependency
  end.

(** ** Specification *)
Record total_order {K} (lt : K -> K -> bool) : Prop := {
  to_irrefl : forall x, lt x x = false;
  to_trans : forall x y z, lt x y = true -> lt y z = true -> lt x z = true;
  to_total : forall x y, x <> y -> lt x y = true \/ lt y x = true }.
Definition any_order {K} (order : option (K -> K -> bool)) : Prop := match order with Some lt => total_order lt | None => True end.

(** ** Proofs *)
Lemma order_le K (EK : Eqb K) (lt : K -> K -> bool) : total_order lt -> (forall x y z, lt y x = false -> lt z y = false -> lt z x = false) /\ (forall x y, lt x y = true -> lt y x = false).
Proof.
  intros [A B C]. split.
  - intros x y z H1 H2. destruct (lt z x) eqn:E; [|reflexivity]. destruct (eqb y z) eqn:E1.
    + apply eqb_eq in E1. subst. congruence.
    + apply eqb_neq in E1. destruct (C y z E1) as [L|L]; [|congruence]. rewrite (B y z x L E) in H1. discriminate.
  - intros x y H. destruct (lt y x) eqn:E; [|reflexivity]. specialize (B x y x H E). rewrite A in B. discriminate.
Qed.
Lemma sorted_unique K (lt : K -> K -> bool) : total_order lt -> forall l l', Permutation l l' -> NoDup l ->
  StronglySorted (le lt) l -> StronglySorted (le lt) l' -> l = l'.
Proof.
  intros [A B C]. induction l as [|x l IH]; intros l' P N S S'; [apply Permutation_nil in P; congruence|].
  destruct l' as [|x' l']; [apply Permutation_sym, Permutation_nil in P; discriminate|].
  inversion S as [|? ? S1 S2]; inversion S' as [|? ? S1' S2']; inversion N as [|? ? N1 N2]; subst. rewrite Forall_forall in *.
  assert (x = x') as ->.
  { assert (In x (x' :: l')) as H1 by (eapply Permutation_in; [exact P|now left]). assert (In x' (x :: l)) as H2 by (eapply Permutation_in; [symmetry; exact P|now left]).
    destruct H1 as [H1|H1]; [now symmetry|]. destruct H2 as [H2|H2]; [assumption|]. specialize (S2 x' H2). specialize (S2' x H1). unfold le in *.
    destruct (C x x') as [L|L]; [intros ->; exact (N1 H2)|congruence|congruence]. }
  f_equal. apply IH; auto. now apply Permutation_cons_inv in P.
Qed.
Lemma flat_perm K (f : list K -> list K) gs : (forall g, Permutation (f g) g) -> Permutation (flat_map f gs) (concat gs).
Proof. intro H. induction gs as [|g gs IH]; simpl; [constructor|]. now apply Permutation_app. Qed.

(** Each key and dependency comes exactly once, after all the items it depends on; fails exactly when there is a cycle. *)
Theorem C122_flatten : forall (K : Type) (EK : Eqb K) (perm : list K -> list K) (order : option (K -> K -> bool)) (data : graph K),
  iteration_order perm -> NoDup (map fst data) -> any_order order ->
  (toposort_flatten perm order data = Err CyclicDependency <-> exists x, on_cycle data x)
  /\ (forall e, toposort_flatten perm order data = Err e -> e = CyclicDependency)
  /\ forall l, toposort_flatten perm order data = Ok l ->
      NoDup l /\ (forall x, In x l <-> item data x) /\ (forall a x b y, l = a ++ x :: b -> depends data x y -> In y a).
Proof.
  intros K EK perm order data Hp Hn Ho. unfold toposort_flatten. destruct (toposort perm data) as [gs rest] eqn:E.
  set (f := fun g => match order with Some lt => sort_by lt g | None => g end).
  assert (forall g, Permutation (f g) g) as Pf. { intro g. unfold f. destruct order as [lt|]; [apply sort_by_perm|reflexivity]. }
  destruct (C26_cyclic Hp Hn E) as (C1 & _). split; [|split].
  - destruct rest as [|k r].
    + split; [discriminate|]. intro H. apply C1 in H. congruence.
    + split; [intros _; apply C1; discriminate|reflexivity].
  - intros e. destruct rest; [discriminate|]. intro H. injection H as <-. reflexivity.
  - intros l. destruct rest as [|k r]; [|discriminate]. intro H. injection H as <-. destruct (C25_layers Hp Hn E) as (_ & L2 & L3 & L4 & _).
    pose proof (flat_perm gs Pf) as P. split; [|split].
    + eapply Permutation_NoDup; [symmetry; exact P|exact L2].
    + intro x. rewrite <- L3. split; apply Permutation_in; [exact P|symmetry; exact P].
    + assert (NoDup (flat_map f gs)) as ND. { eapply Permutation_NoDup; [symmetry; exact P|exact L2]. }
      assert (forall gs0 gs1 a x b y n, gs = gs0 ++ gs1 -> in_group gs n x -> depends data x y -> length gs0 = n -> (exists g, nth_error gs1 0 = Some g /\ In x g) ->
        flat_map f gs = a ++ x :: b -> In y a) as A.
      { intros gs0 gs1 a x b y n Eg G D Ln (g & G1 & G2) El. destruct (L4 n x y G D) as (m & Lm & h & H1 & H2).
        destruct gs1 as [|g' gs1]; [discriminate|]. injection G1 as ->. subst gs.
        rewrite nth_error_app1 in H1 by lia. apply nth_error_In in H1.
        assert (In y (flat_map f gs0)) as Y. { apply in_flat_map. exists h. split; [exact H1|]. eapply Permutation_in; [symmetry; apply Pf|exact H2]. }
        rewrite flat_map_app in El, ND. cbn [flat_map] in El, ND.
        (* x is in f g, hence not before *)
        assert (In x (f g)) as X by (eapply Permutation_in; [symmetry; apply Pf|exact G2]).
        apply in_split in X as (u & v & X). rewrite X in El, ND. rewrite <- app_assoc in El, ND. cbn [app] in El, ND. rewrite app_assoc in El, ND.
        assert (a = flat_map f gs0 ++ u) as ->; [|apply in_or_app; auto].
        clear - El ND. revert a El ND. generalize (flat_map f gs0 ++ u) as p, (v ++ flat_map f gs1) as q. intros p q.
        induction p as [|z p IHp]; intros a El ND; cbn [app] in *.
        - destruct a as [|z a]; [reflexivity|]. cbn [app] in El. injection El as <- El. inversion ND as [|? ? N1 _]; subst. exfalso. apply N1. apply in_or_app. right. now left.
        - inversion ND as [|? ? N1 N2]; subst. destruct a as [|z' a]; cbn [app] in El; injection El as -> El.
          + exfalso. apply N1. apply in_or_app. right. now left.
          + f_equal. now apply IHp. }
      intros a x b y El D. assert (In x (concat gs)) as Hx. { eapply Permutation_in; [exact P|]. rewrite El. apply in_or_app. right. now left. }
      apply in_concat in Hx as (g & Hg & Hx). apply In_nth_error in Hg as (n & Hg). destruct (nth_error_split _ _ Hg) as (gs0 & gs1 & Eg & Ln).
      refine (A gs0 (g :: gs1) a x b y n Eg _ D Ln _ El); [exists g; auto|]. exists g. split; [reflexivity|exact Hx].
Qed.
(** sort=True: the result does not depend on the iteration order of sets *)
Theorem C122_sorted_determined : forall (K : Type) (EK : Eqb K) (perm1 perm2 : list K -> list K) (lt : K -> K -> bool) (data : graph K),
  iteration_order perm1 -> iteration_order perm2 -> NoDup (map fst data) -> total_order lt ->
  toposort_flatten perm1 (Some lt) data = toposort_flatten perm2 (Some lt) data.
Proof.
  intros K EK perm1 perm2 lt data H1 H2 Hn T. unfold toposort_flatten.
  destruct (toposort_perm H1 H2 data) as [P1 P2]. destruct (toposort perm1 data) as [gs1 r1] eqn:E1. destruct (toposort perm2 data) as [gs2 r2] eqn:E2. cbn [fst snd] in *.
  destruct (C26_cyclic H1 Hn E1) as (C1 & _). destruct (C26_cyclic H2 Hn E2) as (C2 & _).
  destruct r1 as [|k1 r1], r2 as [|k2 r2]; [| | |reflexivity].
  - f_equal. destruct (C25_layers H1 Hn E1) as (_ & N & _). destruct (order_le EK T) as [O1 O2]. clear - P1 N T O1 O2.
    induction P1 as [|g1 g2 gs1 gs2 P Q IH]; [reflexivity|]. cbn [concat flat_map] in *. f_equal.
    + apply (sorted_unique T); [|eapply Permutation_NoDup; [symmetry; apply sort_by_perm|]|apply sort_by_sorted; assumption|apply sort_by_sorted; assumption].
      * rewrite !sort_by_perm. exact P.
      * revert N. clear. induction g1 as [|x g IH]; intro N; [constructor|]. cbn [app] in N. inversion N as [|? ? A B]; subst. constructor; [|auto]. intro H. apply A. apply in_or_app. auto.
    + apply IH. clear - N. induction g1 as [|x g IH]; [exact N|]. cbn [app] in N. inversion N. auto.
  - exfalso. assert (k2 :: r2 <> []) as X by discriminate. apply C2 in X. apply C1 in X. congruence.
  - exfalso. assert (k1 :: r1 <> []) as X by discriminate. apply C1 in X. apply C2 in X. congruence.
Qed.
(** sort=True: the items of one group, in ascending order *)
Theorem C122_groups_ascending : forall (K : Type) (EK : Eqb K) (perm : list K -> list K) (lt : K -> K -> bool) (data : graph K) gs l,
  iteration_order perm -> NoDup (map fst data) -> total_order lt -> toposort perm data = (gs, []) -> toposort_flatten perm (Some lt) data = Ok l ->
  forall n a x b y, in_group gs n x -> in_group gs n y -> l = a ++ x :: b -> In y b -> lt x y = true.
Proof.
  intros K EK perm lt data gs l Hp Hn T E H. unfold toposort_flatten in H. rewrite E in H. injection H as <-.
  destruct (C25_layers Hp Hn E) as (_ & N & _). destruct (order_le EK T) as [O1 O2].
  assert (NoDup (flat_map (sort_by lt) gs)) as ND. { eapply Permutation_NoDup; [symmetry; apply flat_perm; intro g; apply sort_by_perm|exact N]. }
  clear E Hn Hp. intros n a x b y (g & G1 & G2) (g' & G3 & G4) El Hy. rewrite G1 in G3. injection G3 as <-.
  destruct (nth_error_split _ _ G1) as (gs0 & gs1 & -> & _). rewrite flat_map_app in El, ND. cbn [flat_map] in El, ND.
  assert (In x (sort_by lt g)) as X by (eapply Permutation_in; [symmetry; apply sort_by_perm|exact G2]).
  assert (In y (sort_by lt g)) as Y by (eapply Permutation_in; [symmetry; apply sort_by_perm|exact G4]).
  apply in_split in X as (u & v & X). pose proof (@sort_by_sorted K lt O1 O2 g) as S. rewrite X in S, Y.
  change (flat_map (fun g : list K => sort_by lt g)) with (flat_map (sort_by lt)) in El. rewrite X in El, ND. rewrite <- app_assoc in El, ND. cbn [app] in El, ND. rewrite app_assoc in El, ND.
  assert (b = v ++ flat_map (sort_by lt) gs1) as ->.
  { clear - El ND. revert a El ND. generalize (flat_map (sort_by lt) gs0 ++ u) as p, (v ++ flat_map (sort_by lt) gs1) as q. intros p q.
    induction p as [|z p IHp]; intros a El ND; cbn [app] in *.
    - destruct a as [|z a]; cbn [app] in El; [now injection El as El|]. injection El as <- El. inversion ND as [|? ? N1 _]; subst. exfalso. apply N1. apply in_or_app. right. now left.
    - inversion ND as [|? ? N1 N2]; subst. destruct a as [|z' a]; cbn [app] in El; injection El as -> El.
      + exfalso. apply N1. apply in_or_app. right. now left.
      + now apply (IHp a). }
  assert (In y v) as Yv.
  { apply in_app_or in Y as [Y|[Y|Y]]; [exfalso|exfalso|exact Y].
    - assert (In y (flat_map (sort_by lt) gs0 ++ u)) as Y' by (apply in_or_app; auto). clear - ND Hy Y'. revert ND Hy Y'. generalize (flat_map (sort_by lt) gs0 ++ u) as p, (v ++ flat_map (sort_by lt) gs1) as q. intros p q.
      induction p as [|z p IHp]; intros ND Hy Y'; [contradiction|]. cbn [app] in ND. inversion ND as [|? ? N1 N2]; subst. destruct Y' as [->|Y']; [|auto]. apply N1. apply in_or_app. right. now right.
    - subst y. apply NoDup_remove_2 in ND. apply ND. apply in_or_app. now right. }
  assert (lt y x = false) as L. { clear - S Yv. induction u as [|z u IH]; cbn [app] in S; inversion S as [|? ? S1 S2]; subst; [|auto]. rewrite Forall_forall in S2. apply (S2 y Yv). }
  destruct (to_total T (x := x) (y := y)) as [Q|Q]; [|exact Q|congruence]. intros ->. apply NoDup_remove_2 in ND. apply ND. apply in_or_app. now right.
Qed.
(** A case; without sorting the result depends on the order of the sets *)
Example C122_case :
  let data := [(2, [11]); (9, [11; 8; 10]); (10, [11; 3]); (11, [7; 5]); (8, [7; 3; 8])] in
  iteration_order (@rev nat) /\ NoDup (map fst data) /\ total_order Nat.ltb
  /\ toposort_flatten (fun l => l) (Some Nat.ltb) data = Ok [3; 5; 7; 8; 11; 2; 10; 9]
  /\ toposort_flatten (@rev nat) (Some Nat.ltb) data = Ok [3; 5; 7; 8; 11; 2; 10; 9]
  /\ toposort_flatten (fun l => l) None data = Ok [3; 7; 5; 11; 8; 2; 10; 9]
  /\ toposort_flatten (@rev nat) None data <> toposort_flatten (fun l => l) None data
  /\ toposort_flatten (fun l => l) None [(1, [2]); (2, [1])] = Err CyclicDependency.
Proof.
  cbv zeta. split; [intro l; apply Permutation_rev|]. split; [repeat constructor; cbn; intuition discriminate|]. split.
  { constructor; [apply PeanoNat.Nat.ltb_irrefl| |].
    - intros x y z. rewrite !PeanoNat.Nat.ltb_lt. lia.
    - intros x y. rewrite !PeanoNat.Nat.ltb_lt. lia. }
  repeat split; try reflexivity. discriminate.
Qed.
