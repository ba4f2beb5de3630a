(** Facts about the Python primitives of Base.v. *)
From Verif Require Import Base.
Set Implicit Arguments.

Lemma eqb_refl {K} `{Eqb K} (x : K) : eqb x x = true.
Proof. apply eqb_eq; reflexivity. Qed.

Lemma eqb_neq {K} `{Eqb K} (x y : K) : eqb x y = false <-> x <> y.
Proof.
  destruct (eqb x y) eqn:E; split; intro Hx; try congruence.
  - apply eqb_eq in E; congruence.
  - intro Hy; apply eqb_eq in Hy; congruence.
Qed.

Lemma eqb_sym {K} `{Eqb K} (x y : K) : eqb x y = eqb y x.
Proof.
  destruct (eqb x y) eqn:E.
  - apply eqb_eq in E; subst; symmetry; apply eqb_refl.
  - symmetry; apply eqb_neq; apply eqb_neq in E; congruence.
Qed.

Ltac eqb_cases x y :=
  let E := fresh "E" in
  destruct (eqb x y) eqn:E; [apply eqb_eq in E | apply eqb_neq in E].

Definition Eqb_dec {K} `{Eqb K} (x y : K) : {x = y} + {x <> y}.
Proof.
  destruct (eqb x y) eqn:E; [left | right].
  - apply eqb_eq; exact E.
  - apply eqb_neq; exact E.
Defined.

Lemma pstr_eqb_eq a b : pstr_eqb a b = true <-> a = b.
Proof. apply list_eqb_spec, N.eqb_eq. Qed.

Lemma pstr_eqb_refl a : pstr_eqb a a = true.
Proof. apply pstr_eqb_eq; reflexivity. Qed.

Lemma opt_pstr_eqb_eq a b : option_eqb pstr_eqb a b = true <-> a = b.
Proof. apply option_eqb_spec, pstr_eqb_eq. Qed.

Lemma mem_spec {A} (eq : A -> A -> bool) x l :
  mem eq x l = true <-> exists y, In y l /\ eq x y = true.
Proof. unfold mem. apply existsb_exists. Qed.

Lemma char_in_In c l : char_in c l = true <-> In c l.
Proof.
  unfold char_in. rewrite existsb_exists. split.
  - intros [y [Hy E]]. apply N.eqb_eq in E. subst; exact Hy.
  - intro Hc. exists c. split; [exact Hc | apply N.eqb_refl].
Qed.

(** ** Values: [==] is equality of canonical forms *)
Fixpoint canon (v : pyval) : pyval :=
  match v with
  | VBool true => VInt 1
  | VBool false => VInt 0
  | VList l => VList (map canon l)
  | _ => v
  end.

Section PyvalInd.
  Variable P : pyval -> Prop.
  Hypothesis HNone : P VNone.
  Hypothesis HBool : forall b, P (VBool b).
  Hypothesis HInt : forall z, P (VInt z).
  Hypothesis HStr : forall v, P (VStr v).
  Hypothesis HObj : forall n, P (VObj n).
  Hypothesis HList : forall l, Forall P l -> P (VList l).
  Fixpoint pyval_rect' (v : pyval) : P v :=
    match v with
    | VNone => HNone
    | VBool b => HBool b
    | VInt z => HInt z
    | VStr x => HStr x
    | VObj n => HObj n
    | VList l => HList ((fix go l : Forall P l :=
                           match l with
                           | [] => Forall_nil _
                           | x :: r => Forall_cons _ (pyval_rect' x) (go r)
                           end) l)
    end.
End PyvalInd.

Lemma py_eqb_canon : forall a b, py_eqb a b = true <-> canon a = canon b.
Proof.
  intro a. induction a as [|x|x|x|x|l IH] using pyval_rect'; intro b.
  - destruct b as [|[]| | | |]; simpl; split; intro H; try congruence; discriminate.
  - destruct x, b as [|[]|z| | |]; simpl; split; intro H; try congruence; try discriminate.
    + destruct z as [|[]|]; try discriminate; reflexivity.
    + inversion H; reflexivity.
    + destruct z as [|[]|]; try discriminate; reflexivity.
    + inversion H; reflexivity.
  - destruct b as [|[]|z| | |]; cbn [py_eqb as_int canon]; split; intro H; try congruence; try discriminate.
    + apply Z.eqb_eq in H; congruence.
    + inversion H; apply Z.eqb_refl.
    + apply Z.eqb_eq in H; congruence.
    + inversion H; apply Z.eqb_refl.
    + apply Z.eqb_eq in H; congruence.
    + inversion H; apply Z.eqb_refl.
  - destruct b as [|[]|z| | |]; simpl; split; intro H; try congruence; try discriminate.
    + apply pstr_eqb_eq in H; congruence.
    + inversion H; apply pstr_eqb_refl.
  - destruct b as [|[]|z| | |]; simpl; split; intro H; try congruence; try discriminate.
    + apply N.eqb_eq in H; congruence.
    + inversion H; apply N.eqb_refl.
  - destruct b as [|[]|z| |r|]; try (simpl; split; intro H; (congruence || discriminate)).
    simpl. revert r. induction IH as [|x l Hx Hl IHl]; intros [|y r]; simpl; split; intro H;
      try congruence; try discriminate.
    + apply andb_true_iff in H as [H1 H2]. apply Hx in H1.
      apply IHl in H2. inversion H2. congruence.
    + inversion H as [[H1 H2]]. apply andb_true_iff; split.
      * apply Hx; exact H1.
      * apply IHl. f_equal; exact H2.
Qed.

Lemma py_eqb_refl a : py_eqb a a = true.
Proof. apply py_eqb_canon; reflexivity. Qed.
Lemma py_eqb_sym a b : py_eqb a b = py_eqb b a.
Proof.
  destruct (py_eqb a b) eqn:E; symmetry.
  - apply py_eqb_canon. apply py_eqb_canon in E. congruence.
  - destruct (py_eqb b a) eqn:E'; [|reflexivity].
    apply py_eqb_canon in E'. symmetry in E'. apply py_eqb_canon in E'. congruence.
Qed.
Lemma py_eqb_trans a b c : py_eqb a b = true -> py_eqb b c = true -> py_eqb a c = true.
Proof. rewrite !py_eqb_canon; congruence. Qed.

(** ** Lists *)
Lemma zlen_nonneg {A} (l : list A) : (0 <= zlen l)%Z.
Proof. unfold zlen; lia. Qed.
Lemma zlen_app {A} (l r : list A) : zlen (l ++ r) = (zlen l + zlen r)%Z.
Proof. unfold zlen; rewrite app_length; lia. Qed.
Lemma zlen_cons {A} (x : A) l : zlen (x :: l) = (1 + zlen l)%Z.
Proof. unfold zlen; simpl length; lia. Qed.
Lemma zlen_nil {A} : zlen (@nil A) = 0%Z.
Proof. reflexivity. Qed.

Lemma py_clip_bounds len i : (0 <= len -> 0 <= py_clip len i <= len)%Z.
Proof. unfold py_clip; destruct (Z.ltb_spec i 0); lia. Qed.

Lemma py_pos_spec {A} (l : list A) i n :
  py_pos l i = Some n <->
  (n < length l)%nat /\ (Z.of_nat n = i \/ Z.of_nat n = i + zlen l)%Z /\ (i < 0 -> Z.of_nat n = i + zlen l)%Z
  /\ (0 <= i -> Z.of_nat n = i)%Z.
Proof.
  unfold py_pos. pose proof (zlen_nonneg l) as Hn. unfold zlen in *.
  destruct (Z.ltb_spec i 0) as [Hi|Hi];
    [destruct (Z.leb_spec 0 (i + Z.of_nat (length l))); destruct (Z.ltb_spec (i + Z.of_nat (length l)) (Z.of_nat (length l)))
    |destruct (Z.leb_spec 0 i); destruct (Z.ltb_spec i (Z.of_nat (length l)))]; simpl; split; intro E; try discriminate; try lia.
  - inversion E; lia.
  - f_equal; lia.
  - inversion E; lia.
  - f_equal; lia.
Qed.

Lemma py_pos_None {A} (l : list A) i :
  py_pos l i = None <-> (i < - zlen l \/ zlen l <= i)%Z.
Proof.
  unfold py_pos. pose proof (zlen_nonneg l) as Hn.
  destruct (Z.ltb_spec i 0) as [Hi|Hi].
  - destruct (Z.leb_spec 0 (i + zlen l)); destruct (Z.ltb_spec (i + zlen l) (zlen l)); simpl; split; intro; try discriminate; try reflexivity; lia.
  - destruct (Z.leb_spec 0 i); destruct (Z.ltb_spec i (zlen l)); simpl; split; intro; try discriminate; try reflexivity; lia.
Qed.

Lemma split_nth {A} (l : list A) n x :
  nth_error l n = Some x -> l = firstn n l ++ x :: skipn (S n) l.
Proof.
  revert n; induction l as [|y l IH]; intros [|n] H; simpl in *; try discriminate.
  - inversion H; reflexivity.
  - f_equal. apply IH; exact H.
Qed.

Lemma py_pos_nth {A} (l : list A) i n : py_pos l i = Some n -> exists x, nth_error l n = Some x.
Proof.
  intro H. apply py_pos_spec in H as [H _].
  destruct (nth_error l n) eqn:E; [eauto|]. apply nth_error_None in E. lia.
Qed.

Lemma skipn_skipn' {A} (l : list A) a b : skipn b (skipn a l) = skipn (a + b) l.
Proof.
  revert l; induction a as [|a IH]; intro l; simpl; [reflexivity|].
  destruct l as [|x l]; [apply skipn_nil | apply IH].
Qed.

Lemma firstn_skipn_nat {A} (l : list A) a b :
  (a <= b)%nat -> l = firstn a l ++ firstn (b - a) (skipn a l) ++ skipn b l.
Proof.
  intro H. rewrite <- (firstn_skipn a l) at 1. f_equal.
  rewrite <- (firstn_skipn (b - a) (skipn a l)) at 1. f_equal.
  rewrite skipn_skipn'. f_equal; lia.
Qed.

Lemma py_slice_unslice {A} (l : list A) i j :
  exists a b, py_unslice l i j = a ++ b /\ l = a ++ py_slice l i j ++ b.
Proof.
  unfold py_unslice, py_slice.
  set (x := match i with None => 0%Z | Some i => py_clip (zlen l) i end).
  set (y := match j with None => zlen l | Some j => py_clip (zlen l) j end).
  assert (0 <= x)%Z as Hx.
  { subst x; destruct i; [apply py_clip_bounds, zlen_nonneg | lia]. }
  exists (firstn (Z.to_nat x) l), (skipn (Z.to_nat (Z.max x y)) l). split; [reflexivity|].
  replace (Z.to_nat (y - x)) with (Z.to_nat (Z.max x y) - Z.to_nat x)%nat by lia.
  apply firstn_skipn_nat. lia.
Qed.

Lemma countb_app {A} (p : A -> bool) l r : countb p (l ++ r) = (countb p l + countb p r)%nat.
Proof. unfold countb. rewrite filter_app, app_length. reflexivity. Qed.
Lemma countb_cons {A} (p : A -> bool) x l : countb p (x :: l) = ((if p x then 1 else 0) + countb p l)%nat.
Proof. unfold countb. simpl. destruct (p x); reflexivity. Qed.

Lemma filter_ext_in' {A} (f g : A -> bool) l : (forall x, In x l -> f x = g x) -> filter f l = filter g l.
Proof. apply filter_ext_in. Qed.

Lemma filter_nil_iff {A} (f : A -> bool) l : filter f l = [] <-> forall x, In x l -> f x = false.
Proof.
  induction l as [|x l IH]; simpl; split; intro H; auto; try contradiction.
  - destruct (f x) eqn:E; [discriminate|]. intros y [<-|Hy]; [exact E | apply IH; assumption].
  - rewrite (H x (or_introl eq_refl)). apply IH. intros y Hy. apply H; right; exact Hy.
Qed.

Lemma filter_filter {A} (f g : A -> bool) l : filter f (filter g l) = filter (fun x => g x && f x) l.
Proof.
  induction l as [|x l IH]; simpl; [reflexivity|].
  destruct (g x); simpl; [destruct (f x)|]; rewrite IH; reflexivity.
Qed.

Lemma filter_all {A} (f : A -> bool) l : (forall x, In x l -> f x = true) -> filter f l = l.
Proof.
  induction l as [|x l IH]; simpl; intro H; [reflexivity|].
  rewrite (H x (or_introl eq_refl)), IH; auto.
Qed.

Lemma filter_map_comm {A B} (f : B -> bool) (g : A -> B) l :
  filter f (map g l) = map g (filter (fun x => f (g x)) l).
Proof. induction l as [|x l IH]; simpl; [reflexivity|]. destruct (f (g x)); simpl; rewrite IH; reflexivity. Qed.

Lemma Permutation_filter {A} (f : A -> bool) l r : Permutation l r -> Permutation (filter f l) (filter f r).
Proof.
  induction 1 as [|x l r H IH|x y l|l1 l2 l3 H1 IH1 H2 IH2]; simpl.
  - constructor.
  - destruct (f x); [constructor; exact IH | exact IH].
  - destruct (f x), (f y); try apply Permutation_refl. constructor.
  - eapply Permutation_trans; eassumption.
Qed.

Lemma existsb_perm {A} (f : A -> bool) l r : Permutation l r -> existsb f l = existsb f r.
Proof.
  intro H. destruct (existsb f l) eqn:E; symmetry.
  - apply existsb_exists in E as [x [Hx Hf]]. apply existsb_exists. exists x; split; auto.
    eapply Permutation_in; eauto.
  - destruct (existsb f r) eqn:E'; [|reflexivity].
    apply existsb_exists in E' as [x [Hx Hf]].
    assert (existsb f l = true); [|congruence]. apply existsb_exists. exists x; split; auto.
    eapply Permutation_in; [apply Permutation_sym|]; eauto.
Qed.

Lemma existsb_false_iff {A} (f : A -> bool) l : existsb f l = false <-> forall x, In x l -> f x = false.
Proof.
  split.
  - intros H x Hx. destruct (f x) eqn:E; [|reflexivity].
    assert (existsb f l = true) by (apply existsb_exists; eauto). congruence.
  - intro H. destruct (existsb f l) eqn:E; [|reflexivity].
    apply existsb_exists in E as [x [Hx Hf]]. rewrite (H x Hx) in Hf; discriminate.
Qed.

Lemma remove_first_Some {A} (p : A -> bool) l r :
  remove_first p l = Some r <->
  exists a x b, l = a ++ x :: b /\ p x = true /\ (forall y, In y a -> p y = false) /\ r = a ++ b.
Proof.
  revert r; induction l as [|y l IH]; intro r; simpl.
  - split; [discriminate|]. intros (a & x & b & E & _). destruct a; discriminate.
  - destruct (p y) eqn:Ey.
    + split.
      * intro H; inversion H; subst. exists [], y, r. repeat split; auto. simpl; tauto.
      * intros (a & x & b & E & Hx & Ha & ->). destruct a as [|z a]; inversion E; subst; [reflexivity|].
        rewrite (Ha z (or_introl eq_refl)) in Ey; discriminate.
    + destruct (remove_first p l) as [r'|] eqn:E'.
      * split.
        -- intro H; inversion H; subst. destruct (proj1 (IH r') eq_refl) as (a & x & b & -> & Hx & Ha & ->).
           exists (y :: a), x, b. repeat split; auto. intros z [<-|Hz]; auto.
        -- intros (a & x & b & E & Hx & Ha & ->). destruct a as [|z a]; inversion E; subst; [congruence|].
           f_equal. assert (Some r' = Some (a ++ b)) as Hr.
           { apply IH. exists a, x, b. repeat split; auto. intros w Hw; apply Ha; right; exact Hw. }
           inversion Hr; reflexivity.
      * split; [discriminate|]. intros (a & x & b & E & Hx & Ha & ->).
        destruct a as [|z a]; inversion E; subst; [congruence|].
        assert (None = Some (a ++ b)) as Hr; [|discriminate].
        apply IH. exists a, x, b. repeat split; auto. intros w Hw; apply Ha; right; exact Hw.
Qed.

Lemma remove_first_None {A} (p : A -> bool) l : remove_first p l = None <-> forall x, In x l -> p x = false.
Proof.
  induction l as [|y l IH]; simpl.
  - split; [tauto|reflexivity].
  - destruct (p y) eqn:Ey.
    + split; [discriminate|]. intro H. rewrite (H y (or_introl eq_refl)) in Ey; discriminate.
    + destruct (remove_first p l) eqn:E.
      * split; [discriminate|]. intro H. assert (Some l0 = None); [|discriminate]. apply IH. intros; apply H; right; assumption.
      * split; [|reflexivity]. intros _ x [<-|Hx]; [exact Ey|]. apply IH; auto.
Qed.

Lemma index_of_Some {A} (p : A -> bool) l n :
  index_of p l = Some n -> exists x, nth_error l n = Some x /\ p x = true /\ forall y, In y (firstn n l) -> p y = false.
Proof.
  revert n; induction l as [|y l IH]; intro n; simpl; [discriminate|].
  destruct (p y) eqn:Ey.
  - intro H; inversion H; subst. exists y. simpl; tauto.
  - destruct (index_of p l) as [k|]; [|discriminate]. intro H; inversion H; subst.
    destruct (IH k eq_refl) as (x & Hx & Hp & Hf). exists x. simpl. repeat split; auto.
    intros z [<-|Hz]; auto.
Qed.

Lemma index_of_None {A} (p : A -> bool) l : index_of p l = None <-> forall x, In x l -> p x = false.
Proof.
  induction l as [|y l IH]; simpl.
  - split; [tauto|reflexivity].
  - destruct (p y) eqn:Ey.
    + split; [discriminate|]. intro H. rewrite (H y (or_introl eq_refl)) in Ey; discriminate.
    + destruct (index_of p l) eqn:E.
      * split; [discriminate|]. intro H. assert (Some n = None); [|discriminate]. apply IH. intros; apply H; right; assumption.
      * split; [|reflexivity]. intros _ x [<-|Hx]; [exact Ey|]. apply IH; auto.
Qed.

(** Removing by position of the first hit is [remove_first]. *)
Lemma remove_first_index {A} (p : A -> bool) l :
  remove_first p l = match index_of p l with Some n => Some (remove_nth n l) | None => None end.
Proof.
  induction l as [|y l IH]; simpl; [reflexivity|].
  destruct (p y); [reflexivity|]. rewrite IH. destruct (index_of p l); reflexivity.
Qed.

(** ** [range] *)
Lemma zrange_nil a b : (b <= a)%Z -> zrange a b = [].
Proof. intro H. unfold zrange. replace (Z.to_nat (b - a)) with 0%nat by lia. reflexivity. Qed.

Lemma zrange_cons a b : (a < b)%Z -> zrange a b = a :: zrange (a + 1) b.
Proof.
  intro H. unfold zrange. replace (Z.to_nat (b - a)) with (S (Z.to_nat (b - (a + 1)))) by lia.
  simpl. f_equal; [lia|]. rewrite <- seq_shift, map_map. apply map_ext. intro; lia.
Qed.

Lemma zrange_snoc a b : (a <= b)%Z -> zrange a (b + 1) = zrange a b ++ [b].
Proof.
  intro H. unfold zrange. replace (Z.to_nat (b + 1 - a)) with (Z.to_nat (b - a) + 1)%nat by lia.
  rewrite seq_app, map_app. simpl. repeat f_equal. lia.
Qed.

Lemma zrange_app a b c : (a <= b <= c)%Z -> zrange a c = zrange a b ++ zrange b c.
Proof.
  intro H. unfold zrange. replace (Z.to_nat (c - a)) with (Z.to_nat (b - a) + Z.to_nat (c - b))%nat by lia.
  rewrite seq_app, map_app. f_equal.
  replace (0 + Z.to_nat (b - a))%nat with (Z.to_nat (b - a) + 0)%nat by lia.
  generalize 0%nat as k. generalize (Z.to_nat (c - b)) as n.
  induction n as [|n IH]; intro k; simpl; [reflexivity|]. f_equal; [lia|].
  rewrite <- IH. f_equal. f_equal. lia.
Qed.

Lemma in_zrange a b x : In x (zrange a b) <-> (a <= x < b)%Z.
Proof.
  unfold zrange. rewrite in_map_iff. split.
  - intros (i & <- & Hi). apply in_seq in Hi. lia.
  - intro H. exists (Z.to_nat (x - a)). split; [lia|]. apply in_seq. lia.
Qed.

Lemma NoDup_zrange a b : NoDup (zrange a b).
Proof. apply FinFun.Injective_map_NoDup; [intros x y E; lia | apply seq_NoDup]. Qed.

Lemma countb_NoDup {K} `{Eqb K} (k : K) l : NoDup l -> countb (eqb k) l = if existsb (eqb k) l then 1 else 0.
Proof.
  induction 1 as [|x l Hx Hl IH]; simpl; [reflexivity|].
  rewrite countb_cons, IH. eqb_cases k x; simpl; [|reflexivity].
  subst. assert (existsb (eqb x) l = false) as ->; [|reflexivity].
  apply existsb_false_iff. intros y Hy. apply eqb_neq. intros ->. contradiction.
Qed.

(** ** Stable sort *)
Section Sort.
  Context {A : Type} (lt : A -> A -> bool).
  Hypothesis lt_trans : forall x y z, lt y x = false -> lt z y = false -> lt z x = false.  (* <= transitive *)
  Hypothesis lt_asym : forall x y, lt x y = true -> lt y x = false.

  Definition le (x y : A) : Prop := lt y x = false.

  Lemma insert_by_perm x l : Permutation (insert_by lt x l) (x :: l).
  Proof.
    induction l as [|y l IH]; simpl; [reflexivity|].
    destruct (lt x y); [reflexivity|].
    eapply Permutation_trans; [apply perm_skip, IH | apply perm_swap].
  Qed.

  Lemma sort_fold_perm l acc : Permutation (fold_left (fun acc x => insert_by lt x acc) l acc) (l ++ acc).
  Proof.
    revert acc; induction l as [|x l IH]; intro acc; simpl; [reflexivity|].
    rewrite IH, insert_by_perm. symmetry. apply Permutation_middle.
  Qed.
  Lemma sort_by_perm l : Permutation (sort_by lt l) l.
  Proof. unfold sort_by. rewrite sort_fold_perm, app_nil_r. reflexivity. Qed.

  Lemma insert_by_sorted x l : StronglySorted le l -> StronglySorted le (insert_by lt x l).
  Proof.
    induction l as [|y l IH]; intro H; simpl.
    - repeat constructor.
    - inversion H as [|? ? Hs Hf]; subst. destruct (lt x y) eqn:E.
      + constructor; [exact H|]. constructor; [apply lt_asym; exact E|].
        rewrite Forall_forall in *. intros z Hz. unfold le in *.
        apply (lt_trans (y := y)); [apply lt_asym, E | apply Hf, Hz].
      + constructor; [apply IH, Hs|]. rewrite Forall_forall in *. intros z Hz.
        apply (Permutation_in _ (insert_by_perm x l)) in Hz. destruct Hz as [<-|Hz]; [exact E | apply Hf, Hz].
  Qed.

  Lemma sort_by_sorted l : StronglySorted le (sort_by lt l).
  Proof.
    unfold sort_by. assert (StronglySorted le []) as H by constructor.
    revert H. generalize (@nil A) as acc. induction l as [|x l IH]; intros acc H; simpl; [exact H|].
    apply IH, insert_by_sorted, H.
  Qed.

  (** Stability: the elements selected by a predicate whose elements are pairwise
      not less than one another keep their order. *)
  Lemma insert_by_filter_out (p : A -> bool) x l : p x = false -> filter p (insert_by lt x l) = filter p l.
  Proof.
    intro Hx. induction l as [|y l IH]; simpl.
    - rewrite Hx; reflexivity.
    - destruct (lt x y); simpl; [rewrite Hx; reflexivity | rewrite IH; reflexivity].
  Qed.

  Lemma insert_by_filter_in (p : A -> bool) x l :
    StronglySorted le l -> p x = true -> (forall y, p y = true -> lt x y = false) ->
    filter p (insert_by lt x l) = filter p l ++ [x].
  Proof.
    intros Hs Hx Hp. induction Hs as [|y l Hs IH Hf]; simpl.
    - rewrite Hx; reflexivity.
    - destruct (lt x y) eqn:E; simpl.
      + rewrite Hx. destruct (p y) eqn:Ey; [rewrite (Hp y Ey) in E; discriminate|].
        assert (filter p l = []) as ->; [|reflexivity].
        apply filter_nil_iff. intros z Hz. destruct (p z) eqn:Ez; [|reflexivity].
        apply Hp in Ez. rewrite Forall_forall in Hf. specialize (Hf z Hz). unfold le in Hf.
        (* y <= z, x < y, not x < z *) exfalso.
        (* le z x : lt x z = false ; le y z : lt z y = false -> le y x *)
        assert (lt x y = false); [|congruence]. apply (lt_trans (y := z)); assumption.
      + destruct (p y); simpl; rewrite IH; reflexivity.
  Qed.

  Lemma sort_by_stable (p : A -> bool) l :
    (forall x y, p x = true -> p y = true -> lt x y = false) ->
    filter p (sort_by lt l) = filter p l.
  Proof.
    intro Hp. unfold sort_by.
    assert (forall acc, StronglySorted le acc ->
              filter p (fold_left (fun acc x => insert_by lt x acc) l acc) = filter p acc ++ filter p l) as G.
    { induction l as [|x l IH]; intros acc Hs; simpl; [rewrite app_nil_r; reflexivity|].
      rewrite IH by (apply insert_by_sorted, Hs).
      destruct (p x) eqn:E.
      - rewrite insert_by_filter_in; auto. rewrite <- app_assoc. reflexivity.
      - rewrite insert_by_filter_out; auto. }
    rewrite G by constructor. reflexivity.
  Qed.

  Lemma insert_by_last x l : (forall y, In y l -> lt x y = false) -> insert_by lt x l = l ++ [x].
  Proof.
    induction l as [|y l IH]; intro H; simpl; [reflexivity|].
    rewrite (H y (or_introl eq_refl)), IH; auto. intros; apply H; right; assumption.
  Qed.

  Lemma insert_by_filter_comm (p : A -> bool) x l :
    StronglySorted le l ->
    filter p (insert_by lt x l) = if p x then insert_by lt x (filter p l) else filter p l.
  Proof.
    intro Hs. induction Hs as [|y l Hs IH Hf]; simpl.
    - destruct (p x); reflexivity.
    - destruct (lt x y) eqn:E; simpl.
      + destruct (p x); [|reflexivity]. destruct (p y); simpl; [rewrite E; reflexivity|].
        (* x is below everything in l *)
        assert (forall z, In z (filter p l) -> lt x z = true) as Hlt.
        { intros z Hz. apply filter_In in Hz as [Hz _]. rewrite Forall_forall in Hf. specialize (Hf z Hz).
          destruct (lt x z) eqn:Ez; [reflexivity|]. unfold le in Hf.
          assert (lt x y = false); [|congruence]. apply (lt_trans (y := z)); assumption. }
        destruct (filter p l) as [|z r]; [reflexivity|]. simpl. rewrite (Hlt z (or_introl eq_refl)). reflexivity.
      + rewrite IH. destruct (p x), (p y); simpl; try rewrite E; reflexivity.
  Qed.

  (** Filtering commutes with sorting. *)
  Lemma sort_by_filter (p : A -> bool) l : filter p (sort_by lt l) = sort_by lt (filter p l).
  Proof.
    unfold sort_by.
    assert (forall acc, StronglySorted le acc ->
       filter p (fold_left (fun acc x => insert_by lt x acc) l acc)
       = fold_left (fun acc x => insert_by lt x acc) (filter p l) (filter p acc)) as G.
    { induction l as [|x l IH]; intros acc Hs; simpl; [reflexivity|].
      rewrite IH by (apply insert_by_sorted, Hs).
      rewrite insert_by_filter_comm by exact Hs. destruct (p x); reflexivity. }
    apply (G []). constructor.
  Qed.

  Lemma sort_by_snoc l x : sort_by lt (l ++ [x]) = insert_by lt x (sort_by lt l).
  Proof. unfold sort_by. rewrite fold_left_app. reflexivity. Qed.

  Lemma sort_by_in x l : In x (sort_by lt l) <-> In x l.
  Proof.
    split; intro H; [eapply Permutation_in; [apply sort_by_perm|exact H]
                    |eapply Permutation_in; [symmetry; apply sort_by_perm|exact H]].
  Qed.

  (** A sorted list is left alone. *)
  Lemma sort_by_id l : StronglySorted le l -> sort_by lt l = l.
  Proof.
    intro H. unfold sort_by.
    assert (forall acc, StronglySorted le (acc ++ l) -> fold_left (fun acc x => insert_by lt x acc) l acc = acc ++ l) as G.
    { clear H. induction l as [|x l IH]; intros acc H; simpl; [rewrite app_nil_r; reflexivity|].
      rewrite insert_by_last.
      - rewrite IH; rewrite <- app_assoc; auto.
      - intros y Hy. clear IH. induction acc as [|z acc IHa]; [destruct Hy|].
        simpl in H. inversion H as [|? ? Hs Hf]; subst. destruct Hy as [<-|Hy].
        + rewrite Forall_forall in Hf. apply Hf. apply in_or_app; right; left; reflexivity.
        + apply IHa; assumption. }
    apply (G []). exact H.
  Qed.
End Sort.

(** ** Dictionaries *)
Section DictFacts.
  Context {K V : Type} `{Eqb K}.
  Implicit Types (d : dict K V).

  Lemma dfind_dset d k v k' : dfind (dset d k v) k' = if eqb k' k then Some v else dfind d k'.
  Proof.
    induction d as [|[k0 v0] d IH]; simpl.
    - reflexivity.
    - eqb_cases k k0; simpl.
      + subst. eqb_cases k' k0; reflexivity.
      + rewrite IH. eqb_cases k' k0; [|reflexivity]. subst. eqb_cases k0 k; [congruence|reflexivity].
  Qed.

  Lemma dmem_In d k : dmem d k = true <-> In k (dkeys d).
  Proof.
    unfold dmem, dkeys. induction d as [|[k0 v0] d IH]; simpl; [split; [discriminate|tauto]|].
    eqb_cases k k0; simpl.
    - subst; split; auto.
    - rewrite IH. split; [auto|]. intros [->|Hk]; [congruence|exact Hk].
  Qed.

  Lemma dfind_None d k : dfind d k = None <-> ~ In k (dkeys d).
  Proof.
    rewrite <- dmem_In. unfold dmem. destruct (dfind d k); split; intro E; congruence.
  Qed.

  Lemma dkeys_dset_In d k v k' : In k' (dkeys (dset d k v)) <-> k' = k \/ In k' (dkeys d).
  Proof.
    rewrite <- !dmem_In. unfold dmem. rewrite dfind_dset. eqb_cases k' k.
    - subst; tauto.
    - tauto.
  Qed.

  Lemma dkeys_dset d k v : dkeys (dset d k v) = if dmem d k then dkeys d else dkeys d ++ [k].
  Proof.
    unfold dmem, dkeys. induction d as [|[k0 v0] d IH]; simpl; [reflexivity|].
    eqb_cases k k0; simpl; [subst; reflexivity|]. rewrite IH. destruct (dfind d k); reflexivity.
  Qed.

  Lemma NoDup_dkeys_dset d k v : NoDup (dkeys d) -> NoDup (dkeys (dset d k v)).
  Proof.
    intro Hd. rewrite dkeys_dset. destruct (dmem d k) eqn:E; [exact Hd|].
    apply Permutation_NoDup with (l := k :: dkeys d).
    - apply Permutation_cons_append.
    - constructor; [|exact Hd]. rewrite <- dmem_In, E. discriminate.
  Qed.

  Lemma dfind_In d k v : dfind d k = Some v -> In (k, v) d.
  Proof.
    induction d as [|[k0 v0] d IH]; simpl; [discriminate|].
    eqb_cases k k0; intro Hv; [inversion Hv; subst; auto | auto].
  Qed.

  Lemma dfind_NoDup_In d k v : NoDup (dkeys d) -> In (k, v) d -> dfind d k = Some v.
  Proof.
    induction d as [|[k0 v0] d IH]; simpl; [tauto|]. intros Hn [E|Hin].
    - inversion E; subst. rewrite eqb_refl. reflexivity.
    - inversion Hn; subst. eqb_cases k k0.
      + subst. exfalso. apply H2. change k0 with (fst (k0, v)). apply in_map, Hin.
      + apply IH; assumption.
  Qed.

  Lemma dfind_dpop d k k' : NoDup (dkeys d) -> dfind (dpop d k) k' = if eqb k' k then None else dfind d k'.
  Proof.
    induction d as [|[k0 v0] d IH]; simpl; intro Hn.
    - destruct (eqb k' k); reflexivity.
    - inversion Hn; subst. eqb_cases k k0.
      + subst. eqb_cases k' k0; [|reflexivity]. subst. apply dfind_None. assumption.
      + simpl. rewrite IH by assumption. eqb_cases k' k0; [|reflexivity].
        subst. eqb_cases k0 k; [congruence|reflexivity].
  Qed.

  Lemma dkeys_dpop_In d k k' : In k' (dkeys (dpop d k)) -> In k' (dkeys d).
  Proof.
    unfold dkeys. induction d as [|[k0 v0] d IH]; simpl; [tauto|].
    destruct (eqb k k0); simpl; tauto.
  Qed.
  Lemma NoDup_dkeys_dpop d k : NoDup (dkeys d) -> NoDup (dkeys (dpop d k)).
  Proof.
    unfold dkeys. induction d as [|[k0 v0] d IH]; simpl; intro Hn; [constructor|].
    inversion Hn; subst. destruct (eqb k k0); [assumption|]. simpl. constructor; [|apply IH; assumption].
    intro Hin. apply (@dkeys_dpop_In d k k0) in Hin. contradiction.
  Qed.
End DictFacts.

Section DDictFacts.
  Context {K V : Type} `{Eqb K}.
  Implicit Types (d : dict K (list V)).

  Lemma dget_dset d k v k' : dget (dset d k v) k' = if eqb k' k then v else dget d k'.
  Proof. unfold dget. rewrite dfind_dset. destruct (eqb k' k); reflexivity. Qed.

  Lemma dget_dtouch d k k' : dget (dtouch d k) k' = dget d k'.
  Proof.
    unfold dtouch. destruct (dfind d k) eqn:E; [reflexivity|].
    rewrite dget_dset. eqb_cases k' k; [|reflexivity]. subst. unfold dget. rewrite E. reflexivity.
  Qed.

  Lemma dkeys_dtouch_In d k k' : In k' (dkeys (dtouch d k)) <-> k' = k \/ In k' (dkeys d).
  Proof.
    unfold dtouch. destruct (dfind d k) eqn:E; [|apply dkeys_dset_In].
    split; [auto|]. intros [->|Hk]; [|exact Hk]. apply dmem_In. unfold dmem. rewrite E. reflexivity.
  Qed.

  Lemma dget_dpush d k v k' : dget (dpush d k v) k' = dget d k' ++ (if eqb k' k then [v] else []).
  Proof.
    unfold dpush. rewrite dget_dset. eqb_cases k' k; [subst; reflexivity | rewrite app_nil_r; reflexivity].
  Qed.

  Lemma dget_dextend d k vs k' : dget (dextend d k vs) k' = dget d k' ++ (if eqb k' k then vs else []).
  Proof.
    unfold dextend. rewrite dget_dset. eqb_cases k' k; [subst; reflexivity | rewrite app_nil_r; reflexivity].
  Qed.

  Lemma dget_In_keys d k : dget d k <> [] -> In k (dkeys d).
  Proof.
    intro Hg. apply dmem_In. unfold dmem, dget in *. destruct (dfind d k); [reflexivity | congruence].
  Qed.

  Lemma dget_fold_push (ks : list K) (v : V) d k :
    dget (fold_left (fun d k => dpush d k v) ks d) k = dget d k ++ repeat v (countb (eqb k) ks).
  Proof.
    revert d; induction ks as [|k0 ks IH]; intro d; simpl; [rewrite app_nil_r; reflexivity|].
    rewrite IH, dget_dpush, <- app_assoc, countb_cons. destruct (eqb k k0); reflexivity.
  Qed.
  Lemma dkeys_fold_push (ks : list K) (v : V) d k :
    In k (dkeys (fold_left (fun d k => dpush d k v) ks d)) <-> In k ks \/ In k (dkeys d).
  Proof.
    revert d; induction ks as [|k0 ks IH]; intro d; simpl; [tauto|].
    rewrite IH. unfold dpush. rewrite dkeys_dset_In. intuition congruence.
  Qed.
End DDictFacts.

Section Groupby.
  Context {A K : Type} `{Eqb K} (key : A -> K).
  Lemma groupby_nil_iff l : groupby key l = [] -> l = [].
  Proof. destruct l as [|x l]; simpl; [reflexivity|]. destruct (groupby key l) as [|[k g] t]; [discriminate|].
         destruct (eqb (key x) k); discriminate. Qed.

  Definition pick (k : K) (gs : list (K * list A)) : list A :=
    flat_map (fun g => if eqb k (fst g) then snd g else []) gs.

  Lemma pick_groupby k l : pick k (groupby key l) = filter (fun x => eqb k (key x)) l.
  Proof.
    induction l as [|x l IH]; simpl; [reflexivity|].
    destruct (groupby key l) as [|[k0 g] t] eqn:E; simpl.
    - apply groupby_nil_iff in E. subst. simpl. destruct (eqb k (key x)); reflexivity.
    - rewrite <- IH. eqb_cases (key x) k0; simpl.
      + subst k0. destruct (eqb k (key x)); reflexivity.
      + destruct (eqb k (key x)); reflexivity.
  Qed.

  Lemma groupby_keys k l : In k (map fst (groupby key l)) <-> exists x, In x l /\ key x = k.
  Proof.
    induction l as [|x l IH]; simpl; [firstorder|].
    destruct (groupby key l) as [|[k0 g] t] eqn:E; simpl in *.
    - apply groupby_nil_iff in E. subst. simpl. firstorder congruence.
    - eqb_cases (key x) k0; simpl; split.
      + intros Hk. apply IH in Hk. destruct Hk as (y & Hy & E'). exists y; auto.
      + intros (y & [<-|Hy] & <-); [left; congruence|]. apply IH. exists y; auto.
      + intros [<-|Hk]; [exists x; auto|]. apply IH in Hk. destruct Hk as (y & Hy & E'). exists y; auto.
      + intros (y & [<-|Hy] & <-); [auto|]. right. apply IH. exists y; auto.
  Qed.
End Groupby.

Lemma dget_fold_extend {A K} `{Eqb K} (gs : list (K * list A)) d k :
  dget (fold_left (fun d g => dextend d (fst g) (snd g)) gs d) k = dget d k ++ pick k gs.
Proof.
  revert d; induction gs as [|[k0 g] gs IH]; intro d; simpl; [rewrite app_nil_r; reflexivity|].
  rewrite IH, dget_dextend, <- app_assoc. reflexivity.
Qed.
Lemma dkeys_fold_extend {A K} `{Eqb K} (gs : list (K * list A)) (d : dict K (list A)) k :
  In k (dkeys (fold_left (fun d g => dextend d (fst g) (snd g)) gs d)) <-> In k (map fst gs) \/ In k (dkeys d).
Proof.
  revert d; induction gs as [|[k0 g] gs IH]; intro d; simpl; [tauto|].
  rewrite IH. unfold dextend. rewrite dkeys_dset_In. simpl. intuition congruence.
Qed.
