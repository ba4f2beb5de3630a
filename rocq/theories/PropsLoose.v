(** * Properties of the utilities: C14, C20, C21, C23, C24, C57, C58 *)
From Verif Require Import Base BaseFacts Match Spec MatchFacts Coll Loose.
From Coq Require Import ZifyBool.
Export Coq.Strings.String.StringSyntax.
Set Implicit Arguments.
Unset Strict Implicit.
Open Scope Z_scope.

(** ** C14 *)
(** [picks l i x]: [x] is [l[i]] with Python indexing, None when out of range *)
Definition picks {A} (l : list A) (i : Z) (x : option A) : Prop :=
  (0 <= i < zlen l /\ x = nth_error l (Z.to_nat i) /\ x <> None)
  \/ (- zlen l <= i < 0 /\ x = nth_error l (Z.to_nat (zlen l + i)) /\ x <> None)
  \/ ((i < - zlen l \/ zlen l <= i) /\ x = None).
Lemma py_nth_picks {A} (l : list A) i : picks l i (py_nth l i).
Proof.
  unfold picks, py_nth. destruct (py_pos l i) as [n|] eqn:E.
  - destruct (py_pos_nth l i E) as [x Hx]. rewrite Hx. unfold py_pos in E.
    pose proof (zlen_nonneg l).
    destruct (i <? 0) eqn:Ei; destruct (_ && _) eqn:Eb in E; try discriminate; injection E as <-.
    + right; left. split; [lia|]. split; [|discriminate]. rewrite <- Hx. f_equal. lia.
    + left. split; [lia|]. split; [|discriminate]. rewrite <- Hx. reflexivity.
  - right; right. split; [|reflexivity]. unfold py_pos in E. pose proof (zlen_nonneg l).
    destruct (i <? 0) eqn:Ei; destruct (_ && _) eqn:Eb in E; try discriminate; lia.
Qed.
Theorem C14_predicate_index : forall {A} (l : list A) f i,
  filter_index l PNone None = Ok (PickList l)
  /\ filter_index l (PFun f) None = Ok (PickList (filter f l))
  /\ (exists x, filter_index l PNone (Some i) = Ok (PickOne x) /\ picks l i x)
  /\ (exists x, filter_index l (PInt i) None = Ok (PickOne x) /\ picks l i x)
  /\ (exists x, filter_index l (PFun f) (Some i) = Ok (PickOne x) /\ picks (filter f l) i x).
Proof.
  intros A l f i. split; [reflexivity|]. split; [reflexivity|].
  split; [|split]; (eexists; split; [reflexivity | apply py_nth_picks]).
Qed.
Example C14_example :
  filter_index [1; 2; 3; 4] (PFun Z.even) (Some (-1)) = Ok (PickOne (Some 4))
  /\ filter_index [1; 2; 3; 4] (PInt 9) None = Ok (PickOne None).
Proof. split; reflexivity. Qed.

(** an integer given as predicate together with an index: it is called on the first object, which
    is a TypeError, except that 0 is falsy and no predicate at all, and that nothing is called on
    an empty result *)
Theorem C14_int_and_index : forall {A} (l : list A) z i,
  (z = 0 -> exists x, filter_index l (PInt z) (Some i) = Ok (PickOne x) /\ picks l i x)
  /\ (z <> 0 -> l <> [] -> filter_index l (PInt z) (Some i) = Err TypeError)
  /\ (l = [] -> filter_index l (PInt z) (Some i) = Ok (PickOne None)).
Proof.
  intros A l z i. cbn. split; [|split].
  - intros ->. eexists. split; [reflexivity | apply py_nth_picks].
  - intros Z L. destruct (Z.eqb_spec z 0); [contradiction|]. destruct l; [contradiction | reflexivity].
  - intros ->. assert (N : @py_nth A [] i = None)
      by (destruct (py_nth_picks (@nil A) i) as [(? & ? & _) | [(? & ? & _) | (_ & ?)]]; [cbn in *; lia | cbn in *; lia | assumption]).
    destruct (z =? 0); now rewrite N.
Qed.
Example C14_int_and_index_case :
  filter_index [1; 2; 3] (PInt (-1)) (Some 1) = Err TypeError /\ filter_index [1; 2; 3] (PInt 0) (Some 1) = Ok (PickOne (Some 2)).
Proof. split; reflexivity. Qed.

(** ** C20 *)
(** [sub] occurs in [str] at position [i] *)
Definition occurs (str sub : pstr) (i : Z) : Prop := exists a b, str = a ++ sub ++ b /\ zlen a = i.
(** the occurrence at [i] lies inside [str[start:en]] *)
Definition inside (str sub : pstr) (start en : option Z) (i : Z) : Prop :=
  (match start with None => 0 | Some a => py_clip (zlen str) a end) <= i
  /\ i + zlen sub <= (match en with None => zlen str | Some b => py_clip (zlen str) b end).
(** greedy left-to-right occurrences *)
Definition greedy (str sub : pstr) (start en : option Z) (l : list Z) : Prop :=
  Forall (fun i => occurs str sub i /\ inside str sub start en i) l
  /\ StronglySorted (fun i j => i + zlen sub <= j) l
  /\ (forall i, occurs str sub i -> inside str sub start en i -> exists j, In j l /\ j <= i < j + zlen sub).

Lemma sub_at_occurs str sub i : 0 <= i -> i + zlen sub <= zlen str -> (sub_at str sub i = true <-> occurs str sub i).
Proof.
  intros H0 H1. unfold sub_at. rewrite pstr_eqb_eq. split.
  - intro E. exists (firstn (Z.to_nat i) str), (skipn (length sub) (skipn (Z.to_nat i) str)). split.
    + rewrite <- E at 1. rewrite firstn_skipn. symmetry. apply firstn_skipn.
    + unfold zlen in *. rewrite firstn_length. lia.
  - intros (a & b & -> & <-). unfold zlen. rewrite Nat2Z.id, skipn_app, skipn_all, Nat.sub_diag. simpl.
    rewrite firstn_app, firstn_all, Nat.sub_diag. simpl. apply app_nil_r.
Qed.
Lemma occurs_bounds str sub i : occurs str sub i -> 0 <= i /\ i + zlen sub <= zlen str.
Proof. intros (a & b & -> & <-). rewrite !zlen_app. pose proof (zlen_nonneg a). pose proof (zlen_nonneg b). lia. Qed.

Lemma find_start_clip (str sub : pstr) start i : sub <> [] -> i + zlen sub <= zlen str ->
  (find_start str start <= i <-> (match start with None => 0 | Some a => py_clip (zlen str) a end) <= i).
Proof.
  intros Hs Hi. assert (0 < zlen sub) by (destruct sub; [congruence | rewrite zlen_cons; pose proof (zlen_nonneg sub); lia]).
  destruct start as [a|]; simpl; [|reflexivity]. unfold py_clip. destruct (a <? 0) eqn:E; lia.
Qed.

Lemma find_first (f : Z -> bool) a b :
  match find f (zrange a b) with
  | Some i => a <= i < b /\ f i = true /\ forall j, a <= j < i -> f j = false
  | None => forall j, a <= j < b -> f j = false
  end.
Proof.
  remember (Z.to_nat (b - a)) as n eqn:En. revert a En. induction n as [|n IH]; intros a En.
  - rewrite zrange_nil by lia. simpl. intros; lia.
  - rewrite zrange_cons by lia. simpl. destruct (f a) eqn:E; [repeat split; auto; lia|].
    specialize (IH (a + 1)). destruct (find f (zrange (a + 1) b)) as [i|].
    + destruct IH as (I1 & I2 & I3); [lia|]. split; [lia|]. split; [exact I2|]. intros j Hj.
      destruct (Z.eq_dec j a) as [->|]; [exact E | apply I3; lia].
    + intros j Hj. destruct (Z.eq_dec j a) as [->|]; [exact E | apply IH; lia].
Qed.

Lemma py_find_spec (str sub : pstr) start en : sub <> [] ->
  (py_find str sub start en = -1 /\ forall i, occurs str sub i -> ~ inside str sub start en i)
  \/ (let i := py_find str sub start en in
      0 <= i /\ occurs str sub i /\ inside str sub start en i /\ forall j, occurs str sub j -> inside str sub start en j -> i <= j).
Proof.
  intro Hs. unfold py_find. pose proof (@find_first (sub_at str sub) (find_start str start) (find_end str en - zlen sub + 1)) as H.
  assert (0 <= find_start str start) as H0.
  { destruct start as [a|]; simpl; [|lia]. destruct (a <? 0) eqn:E; lia. }
  assert (find_end str en <= zlen str) as H1.
  { destruct en as [b|]; simpl; [|lia]. pose proof (@py_clip_bounds (zlen str) b (zlen_nonneg str)). lia. }
  assert (forall i, inside str sub start en i -> occurs str sub i -> find_start str start <= i < find_end str en - zlen sub + 1) as Hin.
  { intros i [I1 I2] Ho. apply occurs_bounds in Ho as [_ Ho]. apply (find_start_clip start Hs Ho) in I1. fold (find_end str en) in I2. lia. }
  destruct (find _ _) as [i|].
  - right. destruct H as (A & B & C). cbv zeta. split; [lia|].
    assert (i + zlen sub <= zlen str) as Hi by lia.
    split; [apply sub_at_occurs; auto; lia|]. split.
    + split; [apply (find_start_clip start Hs Hi); lia | fold (find_end str en); lia].
    + intros j Ho Hj. destruct (Z_lt_ge_dec j i) as [L|]; [|lia]. exfalso.
      specialize (Hin j Hj Ho). apply occurs_bounds in Ho as Hb. 
      pose proof (proj2 (sub_at_occurs (proj1 Hb) (proj2 Hb)) Ho) as E. rewrite (C j) in E by lia. discriminate.
  - left. split; [reflexivity|]. intros i Ho Hi. specialize (Hin i Hi Ho). apply occurs_bounds in Ho as Hb.
    pose proof (proj2 (sub_at_occurs (proj1 Hb) (proj2 Hb)) Ho) as E. rewrite (H i) in E by lia. discriminate.
Qed.

Lemma find_all_greedy (str sub : pstr) en : sub <> [] -> forall n start,
  (Z.to_nat (zlen str - (match start with None => 0 | Some a => py_clip (zlen str) a end)) < n)%nat ->
  exists l, (forall fuel, (n <= fuel)%nat -> find_all_loop fuel str sub start en = Some l) /\ greedy str sub start en l.
Proof.
  intro Hs. assert (0 < zlen sub) as Hp by (destruct sub; [congruence | rewrite zlen_cons; pose proof (zlen_nonneg sub); lia]).
  induction n as [|n IH]; intros start Hn; [lia|].
  destruct (py_find_spec str start en Hs) as [[E H]|(H0 & Ho & Hi & H)].
  - exists []. split.
    + intros [|fuel] Hf; [lia|]. simpl. rewrite E. reflexivity.
    + split; [constructor|]. split; [constructor|]. intros i O I. destruct (H i O I).
  - set (i := py_find str sub start en) in *. pose proof (occurs_bounds Ho) as Hb.
    assert (py_clip (zlen str) (i + zlen sub) = i + zlen sub) as Hc by (unfold py_clip; destruct (i + zlen sub <? 0) eqn:?; lia).
    destruct (IH (Some (i + zlen sub))) as (l & L1 & L2 & L3 & L4).
    { rewrite Hc. destruct Hi as [Hi _]. lia. }
    exists (i :: l). split.
    + intros [|fuel] Hf; [lia|]. simpl. fold i. destruct (i =? -1) eqn:E; [lia|]. rewrite L1 by lia. reflexivity.
    + split; [|split].
      * constructor; [auto|]. eapply Forall_impl; [|exact L2]. cbv beta. intros j (J1 & J2 & J3). split; [exact J1|]. split; [|exact J3].
        rewrite Hc in J2. destruct Hi as [Hi _]. lia.
      * constructor; [exact L3|]. eapply Forall_impl; [|exact L2]. cbv beta. intros j (J1 & J2 & J3). rewrite Hc in J2. exact J2.
      * intros j Oj Ij. specialize (H j Oj Ij). destruct (Z_lt_ge_dec j (i + zlen sub)) as [L|G].
        -- exists i. split; [left; reflexivity | lia].
        -- destruct (L4 j Oj) as (k & K1 & K2); [split; [rewrite Hc; lia | apply Ij]|]. exists k. split; [right; exact K1 | exact K2].
Qed.

Theorem C20_find_all : forall str sub start en, sub <> [] ->
  exists l, (exists n, forall fuel, (n <= fuel)%nat -> find_all_loop fuel str sub start en = Some l) /\ greedy str sub start en l.
Proof.
  intros str sub start en Hs.
  destruct (@find_all_greedy str sub en Hs (S (Z.to_nat (zlen str - (match start with None => 0 | Some a => py_clip (zlen str) a end)))) start) as (l & H1 & H2); [lia|].
  exists l. split; [eauto | exact H2].
Qed.
(** the greedy list is the only one *)
Theorem C20_greedy_unique : forall str sub start en l r, sub <> [] ->
  greedy str sub start en l -> greedy str sub start en r -> l = r.
Proof.
  intros str sub start en l r Hs. assert (0 < zlen sub) as Hp by (destruct sub; [congruence | rewrite zlen_cons; pose proof (zlen_nonneg sub); lia]).
  (* generalised to the occurrences from position [a] on *)
  assert (forall l r a (ok : Z -> Prop),
    (forall i, In i l -> ok i) -> (forall i, In i r -> ok i) ->
    Forall (fun i => a <= i) l -> Forall (fun i => a <= i) r ->
    StronglySorted (fun i j => i + zlen sub <= j) l -> StronglySorted (fun i j => i + zlen sub <= j) r ->
    (forall i, ok i -> a <= i -> exists j, In j l /\ j <= i < j + zlen sub) ->
    (forall i, ok i -> a <= i -> exists j, In j r /\ j <= i < j + zlen sub) -> l = r) as G.
  { clear l r. induction l as [|i l IH]; intros r a ok Hl Hr Al Ar Sl Sr Cl Cr.
    - destruct r as [|j r]; [reflexivity|]. exfalso. inversion Ar; subst.
      destruct (Cl j) as (k & [] & _); [apply Hr; left; reflexivity | assumption].
    - destruct r as [|j r]; [exfalso; inversion Al; subst; destruct (Cr i) as (k & [] & _); [apply Hl; left; reflexivity | assumption]|].
      inversion Al; inversion Ar; inversion Sl; inversion Sr; subst.
      rewrite Forall_forall in *.
      assert (i = j) as ->.
      { destruct (Cr i) as (k & Hk & K); [apply Hl; left; reflexivity | assumption |].
        destruct (Cl j) as (k' & Hk' & K'); [apply Hr; left; reflexivity | assumption |].
        assert (j <= k) by (destruct Hk as [->|Hk]; [lia|]; match goal with X : forall x, In x r -> j + _ <= x |- _ => specialize (X k Hk) end; lia).
        assert (i <= k') by (destruct Hk' as [->|Hk']; [lia|]; match goal with X : forall x, In x l -> i + _ <= x |- _ => specialize (X k' Hk') end; lia).
        lia. }
      f_equal. apply (IH r (j + zlen sub) ok); auto.
      + intros; apply Hl; right; assumption.
      + intros; apply Hr; right; assumption.
      + rewrite Forall_forall; auto.
      + rewrite Forall_forall; auto.
      + intros k Ok Hk. destruct (Cl k) as (x & [<-|Hx] & X); [assumption | lia | lia | eauto].
      + intros k Ok Hk. destruct (Cr k) as (x & [<-|Hx] & X); [assumption | lia | lia | eauto]. }
  intros (L1 & L2 & L3) (R1 & R2 & R3). rewrite Forall_forall in L1, R1.
  apply (G l r 0 (fun i => occurs str sub i /\ inside str sub start en i)); auto.
  - rewrite Forall_forall. intros i Hi. apply L1 in Hi as [Hi _]. apply occurs_bounds in Hi. lia.
  - rewrite Forall_forall. intros i Hi. apply R1 in Hi as [Hi _]. apply occurs_bounds in Hi. lia.
  - intros i [A B] _. auto.
  - intros i [A B] _. auto.
Qed.
Example C20_example :
  find_all_loop 10 (s "aaaaabaa") (s "aa") None None = Some [0; 2; 6]
  /\ find_all_loop 10 (s "aaaaabaa") (s "aa") (Some (-7)) (Some 7) = Some [1; 3].
Proof. split; reflexivity. Qed.

(** ** C21 *)
Theorem C21_terminates_partial : forall lower ignore_case str sub start en,
  (if ignore_case : bool then lower sub <> [] else sub <> []) ->
  exists l n, forall fuel, (n <= fuel)%nat -> find_all_n fuel lower ignore_case str sub start en = Some l.
Proof.
  intros lower ic str sub start en H. unfold find_all_n. destruct ic.
  - destruct (C20_find_all (lower str) start en H) as (l & (n & Hn) & _). eauto.
  - destruct (C20_find_all str start en H) as (l & (n & Hn) & _). eauto.
Qed.
(** C106: exactly when it ends: something is searched for, or the range is turned round. *)
Theorem C106_terminates_iff : forall lower (ignore_case : bool) str sub start en,
  let text := if ignore_case then lower str else str in
  let searched := if ignore_case then lower sub else sub in
  let first := match start with None => 0 | Some i => if i <? 0 then Z.max 0 (zlen text + i) else i end in
  let last := match en with None => zlen text | Some j => Z.min (zlen text) (if j <? 0 then Z.max 0 (zlen text + j) else j) end in
  (exists fuel l, find_all_n fuel lower ignore_case str sub start en = Some l) <-> searched <> [] \/ last < first.
Proof.
  intros lower ic str sub start en text searched first last.
  assert (forall fuel, find_all_n fuel lower ic str sub start en = find_all_loop fuel text searched start en) as E by (intro; unfold find_all_n, text, searched; destruct ic; reflexivity).
  assert (find_start text start = first) as Ef by reflexivity.
  assert (find_end text en = last) as El.
  { unfold find_end, last, py_clip. destruct en as [j|]; [|reflexivity]. pose proof (zlen_nonneg text). destruct (j <? 0) eqn:Ej; lia. }
  assert (forall a, py_find text [] (Some a) en = if 0 <=? a then if a <=? last then a else -1 else py_find text [] (Some a) en) as Pf.
  { intro a. destruct (0 <=? a) eqn:Ea; [|reflexivity]. unfold py_find. rewrite El. cbn [find_start]. assert (a <? 0 = false) as -> by lia. change (zlen (@nil N)) with 0.
    destruct (a <=? last) eqn:Eal; [rewrite zrange_cons by lia; reflexivity | rewrite zrange_nil by lia; reflexivity]. }
  split.
  - intros (fuel & l & H). destruct searched as [|x r] eqn:Es; [|left; discriminate]. right. rewrite E in H. destruct (Z_lt_ge_dec last first) as [Hlt|Hge]; [exact Hlt|exfalso].
    assert (0 <= first) as H0 by (unfold first; destruct start as [a|]; [destruct (a <? 0) eqn:Ea; lia | lia]).
    assert (forall n a r, 0 <= a <= last -> find_all_loop n text [] (Some a) en = Some r -> False) as G.
    { induction n as [|n IH]; intros a r Ha; cbn [find_all_loop]; [discriminate|]. rewrite Pf. assert (0 <=? a = true) as -> by lia. assert (a <=? last = true) as -> by lia.
      assert (a =? -1 = false) as -> by lia. change (zlen (@nil N)) with 0. destruct (find_all_loop n text [] (Some (a + 0)) en) as [r'|] eqn:E'; [|discriminate]. intros _. apply (IH (a + 0) r'); [lia | exact E']. }
    destruct fuel as [|fuel]; [discriminate|]. cbn [find_all_loop] in H. assert (py_find text [] start en = first) as Ep.
    { unfold py_find. rewrite El, Ef. change (zlen (@nil N)) with 0. rewrite zrange_cons by lia. reflexivity. }
    rewrite Ep in H. assert (first =? -1 = false) as Hf by lia. rewrite Hf in H. change (zlen (@nil N)) with 0 in H.
    destruct (find_all_loop fuel text [] (Some (first + 0)) en) as [r|] eqn:Er; [|discriminate]. apply (@G fuel (first + 0) r); [lia | exact Er].
  - intro H. destruct searched as [|x r] eqn:Es.
    + destruct H as [H|H]; [contradiction|]. exists 1%nat, []. rewrite E. cbn [find_all_loop]. unfold py_find. rewrite El, Ef. change (zlen (@nil N)) with 0. rewrite zrange_nil by lia. reflexivity.
    + destruct (@C20_find_all text (x :: r) start en) as (l & (n & Hn) & _); [discriminate|]. exists n, l. rewrite E. apply Hn. lia.
Qed.
Example C106_example :
  find_all_n 3 (fun x => x) false (s "abc") [] (Some 3) (Some (-1)) = Some []
  /\ find_all_n 30 (fun x => x) false (s "abc") [] (Some 3) None = None.
Proof. split; reflexivity. Qed.
(** the empty string is found forever, whatever the text *)
Theorem C21_empty_refuted : forall str fuel, find_all_loop fuel str [] None None = None.
Proof.
  intros str fuel. assert (forall fuel a, 0 <= a <= zlen str -> find_all_loop fuel str [] (Some a) None = None) as G.
  { intro f. induction f as [|f IH]; intros a Ha; [reflexivity|]. simpl.
    assert (py_find str [] (Some a) None = a) as ->.
    { unfold py_find. simpl. destruct (a <? 0) eqn:E; [lia|]. rewrite zlen_nil, zrange_cons by lia. reflexivity. }
    destruct (a =? -1) eqn:E; [lia|]. rewrite zlen_nil, Z.add_0_r, IH by exact Ha. reflexivity. }
  destruct fuel as [|fuel]; [reflexivity|]. simpl.
  assert (py_find str [] None None = 0) as ->.
  { unfold py_find. change (zlen (@nil N)) with 0. cbn [find_start find_end]. pose proof (zlen_nonneg str). rewrite (@zrange_cons 0) by lia. reflexivity. }
  change (0 =? -1) with false. cbv iota. change (0 + zlen (@nil N)) with 0. rewrite G; [reflexivity|]. pose proof (zlen_nonneg str). lia.
Qed.

(** ** C23 *)
Section ExtendSafeFacts.
  Context {A : Type} (eqA : A -> A -> bool) (Hrefl : forall x, eqA x x = true) (hashable : A -> bool).
  Lemma linear_prefix source : forall t, exists x, linear_extend eqA t source = t ++ x.
  Proof.
    induction source as [|e r IH]; intro t; simpl; [exists []; symmetry; apply app_nil_r|].
    unfold linear_extend in *. simpl. destruct (mem eqA e t); [apply IH|].
    destruct (IH (t ++ [e])) as [x ->]. exists (e :: x). rewrite <- app_assoc. reflexivity.
  Qed.
  Lemma mem_app x a b : mem eqA x (a ++ b) = mem eqA x a || mem eqA x b.
  Proof. unfold mem. apply existsb_app. Qed.
  Lemma linear_covered source : forall t x, In x source -> mem eqA x (linear_extend eqA t source) = true.
  Proof.
    induction source as [|e r IH]; intros t x Hx; [contradiction|]; destruct Hx as [->|Hx]; unfold linear_extend; simpl.
    - destruct (mem eqA x t) eqn:E.
      + destruct (linear_prefix r t) as [y Hy]. unfold linear_extend in Hy. rewrite Hy, mem_app, E. reflexivity.
      + destruct (linear_prefix r (t ++ [x])) as [y Hy]. unfold linear_extend in Hy. rewrite Hy, !mem_app. simpl. rewrite Hrefl.
        rewrite orb_true_r. reflexivity.
    - apply IH. exact Hx.
  Qed.
  Lemma linear_known source t : (forall x, In x source -> mem eqA x t = true) -> linear_extend eqA t source = t.
  Proof.
    induction source as [|e r IH]; intro H; unfold linear_extend; simpl; [reflexivity|].
    rewrite H by (left; reflexivity). apply IH. intros; apply H; right; assumption.
  Qed.
  Lemma hashed_linear source : forall t pre, linear_extend eqA t pre = t -> 
    match hashed_extend eqA hashable t t source with
    | (t', true) => t' = linear_extend eqA t source
    | (t', false) => linear_extend eqA t' (pre ++ source) = linear_extend eqA t source
    end.
  Proof.
    induction source as [|e r IH]; intros t pre Hpre; cbn [hashed_extend]; [reflexivity|].
    destruct (hashable e).
    - destruct (mem eqA e t) eqn:E.
      + specialize (IH t (pre ++ [e])). rewrite <- app_assoc in IH. cbn [app] in IH.
        assert (linear_extend eqA t (e :: r) = linear_extend eqA t r) as -> by (unfold linear_extend; simpl; rewrite E; reflexivity).
        apply IH. unfold linear_extend in *. rewrite fold_left_app, Hpre. simpl. rewrite E. reflexivity.
      + specialize (IH (t ++ [e]) (pre ++ [e])). rewrite <- app_assoc in IH. cbn [app] in IH.
        assert (linear_extend eqA t (e :: r) = linear_extend eqA (t ++ [e]) r) as -> by (unfold linear_extend; simpl; rewrite E; reflexivity).
        apply IH. apply linear_known. intros x Hx. rewrite mem_app. apply in_app_iff in Hx as [Hx|[->|[]]].
        * rewrite <- Hpre. rewrite (@linear_covered pre t x Hx). reflexivity.
        * simpl. rewrite Hrefl, orb_true_r. reflexivity.
    - unfold linear_extend in *. rewrite fold_left_app, Hpre. reflexivity.
  Qed.
  Lemma extend_safe_linear t source : extend_safe eqA hashable t source = linear_extend eqA t source.
  Proof.
    unfold extend_safe. destruct (forallb hashable t); [|reflexivity].
    pose proof (@hashed_linear source t [] eq_refl) as H. destruct (hashed_extend _ _ _ _ _) as [t' []]; exact H.
  Qed.
End ExtendSafeFacts.

(** whatever can be hashed, the outcome is: the target, then the elements of the source that
    are not [==] to one already there (in the target or earlier in the source), in order *)
Fixpoint new_elements {A} (eqA : A -> A -> bool) (before source : list A) : list A :=
  match source with
  | [] => []
  | e :: r => (if existsb (eqA e) before then [] else [e])
              ++ new_elements eqA (before ++ (if existsb (eqA e) before then [] else [e])) r
  end.
Theorem C23_extend_safe : forall {A} (eqA : A -> A -> bool), (forall x, eqA x x = true) ->
  forall (hashable : A -> bool) target source,
  let r := extend_safe eqA hashable target source in
  r = target ++ new_elements eqA target source
  /\ (forall e, In e source -> exists x, In x r /\ eqA e x = true)
  /\ (forall e, In e r -> In e target \/ In e source)
  /\ (forall a x b y c, r = a ++ x :: b ++ y :: c -> (length target <= length (a ++ x :: b))%nat -> eqA y x = false).
Proof.
  intros A eqA Hr hashable target source r.
  assert (forall src t, linear_extend eqA t src = t ++ new_elements eqA t src) as L.
  { induction src as [|e src IH]; intro t; unfold linear_extend; simpl; [symmetry; apply app_nil_r|].
    unfold mem. destruct (existsb (eqA e) t) eqn:E; simpl.
    - rewrite app_nil_r. apply IH.
    - unfold linear_extend in IH. rewrite IH, <- app_assoc. reflexivity. }
  assert (r = target ++ new_elements eqA target source) as Er by (unfold r; rewrite extend_safe_linear by exact Hr; apply L).
  split; [exact Er|]. split; [|split].
  - intros e He. unfold r. rewrite extend_safe_linear by exact Hr.
    pose proof (@linear_covered A eqA Hr source target e He) as H. unfold mem in H. apply existsb_exists in H as (x & H1 & H2). eauto.
  - rewrite Er. intros e He. apply in_app_iff in He as [He|He]; [left; exact He|right].
    clear -He. revert target He. induction source as [|x src IH]; intros t He; simpl in *; [contradiction|].
    apply in_app_iff in He as [He|He]; [left; destruct (existsb _ _); simpl in He; tauto | right; eapply IH; exact He].
  - rewrite Er. clear. intros a x b y c E Hlen.
    assert (exists d, a ++ x :: b = target ++ d /\ new_elements eqA target source = d ++ y :: c) as (d & E1 & E2).
    { exists (skipn (length target) (a ++ x :: b)).
      replace (a ++ x :: b ++ y :: c) with ((a ++ x :: b) ++ y :: c) in E by (rewrite <- app_assoc; reflexivity).
      assert (target = firstn (length target) (a ++ x :: b)) as Ht.
      { pose proof (f_equal (firstn (length target)) E) as F. rewrite firstn_app, firstn_all, Nat.sub_diag in F. simpl in F. rewrite app_nil_r in F.
        rewrite firstn_app in F. replace (length target - length (a ++ x :: b))%nat with 0%nat in F by lia. simpl in F. rewrite app_nil_r in F. exact F. }
      split; [rewrite Ht at 1; rewrite firstn_skipn; reflexivity|].
      pose proof (f_equal (skipn (length target)) E) as F. rewrite skipn_app, skipn_all, Nat.sub_diag in F. simpl in F.
      rewrite skipn_app in F. replace (length target - length (a ++ x :: b))%nat with 0%nat in F by lia. exact F. }
    assert (forall src t d, new_elements eqA t src = d ++ y :: c -> existsb (eqA y) (t ++ d) = false) as G.
    { clear. induction src as [|e src IH]; intros t d E; simpl in E; [destruct d; discriminate|].
      destruct (existsb (eqA e) t) eqn:Ee; simpl in E.
      - rewrite app_nil_r in E. apply IH. exact E.
      - destruct d as [|e' d].
        + simpl in E. injection E as -> _. rewrite app_nil_r. exact Ee.
        + simpl in E. injection E as <- E. apply IH in E. rewrite <- app_assoc in E. exact E. }
    apply G in E2. rewrite <- E1 in E2. rewrite existsb_app in E2. apply orb_false_iff in E2 as [_ E2]. simpl in E2.
    apply orb_false_iff in E2. tauto.
Qed.
Example C23_example :
  extend_safe Z.eqb Z.even [2; 4] [6; 4; 6; 7; 8; 7] = [2; 4; 6; 7; 8]
  /\ extend_safe Z.eqb (fun _ => true) [2; 4] [6; 4; 6; 7; 8; 7] = [2; 4; 6; 7; 8].
Proof. split; reflexivity. Qed.

(** ** C24 *)
Definition adds (x : nat) (o : iop) : Prop :=
  match o with IAdd y => x = y | IUpdate ys => In x ys | IDiscard _ => False end.
Definition discards (x : nat) (o : iop) : Prop := match o with IDiscard y => x = y | _ => False end.
Lemma iset_mem_In x t : iset_mem x t = true <-> In x t.
Proof.
  unfold iset_mem. rewrite existsb_exists. split; [intros (y & Hy & E); apply Nat.eqb_eq in E; congruence |].
  intro H; exists x; split; [exact H | apply Nat.eqb_refl].
Qed.
Lemma iset_add_In x y t : In x (iset_add y t) <-> x = y \/ In x t.
Proof.
  unfold iset_add. destruct (iset_mem y t) eqn:E; [apply iset_mem_In in E; split; [tauto | intros [->|]; auto]|].
  rewrite in_app_iff. simpl. split; [intros [|[->|[]]]; auto | intros [->|]; auto].
Qed.
Lemma iset_add_NoDup y t : NoDup t -> NoDup (iset_add y t).
Proof.
  intro H. unfold iset_add. destruct (iset_mem y t) eqn:E; [exact H|].
  eapply Permutation_NoDup; [apply Permutation_cons_append|]. constructor; [|exact H].
  intro Hy. apply iset_mem_In in Hy. congruence.
Qed.
Lemma iset_update_In x ys : forall t, In x (iset_update ys t) <-> In x ys \/ In x t.
Proof.
  induction ys as [|y ys IH]; intro t; simpl; [tauto|]. unfold iset_update in *. simpl. rewrite IH, iset_add_In. intuition congruence.
Qed.
Lemma iset_update_NoDup ys : forall t, NoDup t -> NoDup (iset_update ys t).
Proof. induction ys as [|y ys IH]; intros t H; [exact H|]. apply IH, iset_add_NoDup, H. Qed.
Lemma istep_In x t o : In x (istep t o) <-> adds x o \/ (In x t /\ ~ discards x o).
Proof.
  destruct o as [y|y|ys]; simpl.
  - rewrite iset_add_In. tauto.
  - unfold iset_discard. rewrite filter_In. destruct (Nat.eqb_spec y x); simpl; intuition congruence.
  - rewrite iset_update_In. tauto.
Qed.
Lemma istep_NoDup t o : NoDup t -> NoDup (istep t o).
Proof.
  intro H. destruct o; simpl; [apply iset_add_NoDup, H | apply NoDup_filter, H | apply iset_update_NoDup, H].
Qed.
(** in the set iff initially there or added, and not discarded since; each object once *)
Theorem C24_identity_set : forall items ops,
  let t := irun (iset_init items) ops in
  NoDup t
  /\ forall x, iset_mem x t = true <->
       (In x items /\ Forall (fun o => ~ discards x o) ops)
       \/ exists ops1 o ops2, ops = ops1 ++ o :: ops2 /\ adds x o /\ Forall (fun o => ~ discards x o) ops2.
Proof.
  intros items ops t. split.
  - unfold t, irun. assert (NoDup (iset_init items)) as H by (apply iset_update_NoDup; constructor).
    revert H. generalize (iset_init items). induction ops as [|o ops IH]; intros i H; simpl; [exact H|]. apply IH, istep_NoDup, H.
  - intro x. rewrite iset_mem_In. unfold t, irun.
    assert (In x (iset_init items) <-> In x items) as Hi by (unfold iset_init; rewrite iset_update_In; simpl; tauto).
    induction ops as [|o ops IH] using rev_ind.
    + simpl. rewrite Hi. split; [left; split; [assumption | constructor]|].
      intros [[H _]|(o1 & o & o2 & E & _)]; [exact H | destruct o1; discriminate].
    + rewrite fold_left_app. simpl. rewrite istep_In, IH. split.
      * intros [H|[[[H1 H2]|(o1 & o' & o2 & -> & H1 & H2)] H]].
        -- right. exists ops, o, []. auto.
        -- left. split; [exact H1|]. apply Forall_app. auto.
        -- right. exists o1, o', (o2 ++ [o]). rewrite <- app_assoc. split; [reflexivity|]. split; [exact H1|]. apply Forall_app. auto.
      * intros [[H1 H2]|(o1 & o' & o2 & E & H1 & H2)].
        -- apply Forall_app in H2 as [H2 H3]. inversion H3; subst. right. split; [left; auto | assumption].
        -- destruct o2 as [|z o2'] using rev_ind.
           ++ apply app_inj_tail in E as [-> ->]. left. exact H1.
           ++ clear IHo2'. change (o1 ++ o' :: o2' ++ [z]) with (o1 ++ (o' :: o2') ++ [z]) in E. rewrite app_assoc in E.
              apply app_inj_tail in E as [-> ->]. apply Forall_app in H2 as [H2 H3]. inversion H3; subst. right. split; [right | assumption].
              exists o1, o', o2'. auto.
Qed.
Example C24_example : irun (iset_init [3; 5; 3]%nat) [IAdd 7; IDiscard 3; IUpdate [8; 7]; IDiscard 8; IAdd 3]%nat = [5; 7; 3]%nat.
Proof. reflexivity. Qed.

(** ** C57 *)
Theorem C57_chars : forall chars m str, m_input m = Some str -> 0 <= m_start m -> m_start m <= zlen str -> 0 <= m_end m ->
  exists b a, chars_before chars m = Ok b /\ chars_after chars m = Ok a /\ chars_surround chars m = Ok (b && a)
    /\ (b = true <-> forall ch, 0 < m_start m -> nth_error str (Z.to_nat (m_start m - 1)) = Some ch -> In ch chars)
    /\ (a = true <-> forall ch, nth_error str (Z.to_nat (m_end m)) = Some ch -> In ch chars).
Proof.
  intros chars m str Hin H0 H1 H2.
  assert (forall {B} (l : list B) j, 0 <= j < zlen l -> exists ch, py_nth l j = Some ch /\ nth_error l (Z.to_nat j) = Some ch) as N.
  { intros B l j Hj. unfold py_nth, py_pos. destruct (j <? 0) eqn:Ej; [lia|].
    destruct ((0 <=? j) && (j <? zlen l)) eqn:Eb; [|lia].
    destruct (nth_error l (Z.to_nat j)) as [ch|] eqn:En; [eauto|]. apply nth_error_None in En. unfold zlen in Hj. lia. }
  assert (exists b, chars_before chars m = Ok b /\ (b = true <-> forall ch, 0 < m_start m -> nth_error str (Z.to_nat (m_start m - 1)) = Some ch -> In ch chars)) as (b & B1 & B2).
  { unfold chars_before. destruct (m_start m <=? 0) eqn:E; [exists true; split; [reflexivity|]; split; [intros; lia | reflexivity]|].
    rewrite Hin. destruct (N _ str (m_start m - 1)) as (ch & C1 & C2); [lia|]. rewrite C1. exists (char_in ch chars).
    split; [reflexivity|]. rewrite char_in_In, C2. split; [intros H c _ Hc; injection Hc as <-; exact H | intro H; apply H; [lia | reflexivity]]. }
  assert (exists a, chars_after chars m = Ok a /\ (a = true <-> forall ch, nth_error str (Z.to_nat (m_end m)) = Some ch -> In ch chars)) as (a & A1 & A2).
  { unfold chars_after. rewrite Hin. destruct (m_end m >=? zlen str) eqn:E.
    - exists true. split; [reflexivity|]. split; [|reflexivity]. intros _ ch Hc.
      assert (nth_error str (Z.to_nat (m_end m)) = None) as Hn by (apply nth_error_None; unfold zlen in E; lia). congruence.
    - destruct (N _ str (m_end m)) as (ch & C1 & C2); [lia|]. rewrite C1. exists (char_in ch chars).
      split; [reflexivity|]. rewrite char_in_In, C2. split; [intros H c Hc; injection Hc as <-; exact H | intro H; apply H; reflexivity]. }
  exists b, a. split; [exact B1|]. split; [exact A1|]. split; [|split; assumption].
  unfold chars_surround. rewrite B1, A1. destruct b; reflexivity.
Qed.
(** every outcome, for any match: no text is a TypeError (not needed at position 0 for the character before), a
    position that is no place of the text an IndexError *)
Theorem C57_errors : forall chars m,
  chars_before chars m = (if m_start m <=? 0 then Ok true
    else match m_input m with
         | None => Err TypeError
         | Some str => match nth_error str (Z.to_nat (m_start m - 1)) with Some ch => Ok (char_in ch chars) | None => Err IndexError end
         end)
  /\ chars_after chars m = (match m_input m with
      | None => Err TypeError
      | Some str => if zlen str <=? m_end m then Ok true
                    else match nth_error str (Z.to_nat (if m_end m <? 0 then m_end m + zlen str else m_end m)) with
                         | Some ch => if m_end m <? - zlen str then Err IndexError else Ok (char_in ch chars)
                         | None => Err IndexError
                         end
      end)
  /\ (forall e, chars_surround chars m = Err e <-> chars_before chars m = Err e \/ (chars_before chars m = Ok true /\ chars_after chars m = Err e)).
Proof.
  intros chars m. split; [|split].
  - unfold chars_before. destruct (m_start m <=? 0) eqn:E; [reflexivity|]. destruct (m_input m) as [str|]; [|reflexivity].
    unfold py_nth, py_pos. destruct (m_start m - 1 <? 0) eqn:Ej; [lia|]. destruct ((0 <=? m_start m - 1) && (m_start m - 1 <? zlen str)) eqn:Eb; [reflexivity|].
    assert (nth_error str (Z.to_nat (m_start m - 1)) = None) as -> by (apply nth_error_None; unfold zlen in Eb; lia). reflexivity.
  - unfold chars_after. destruct (m_input m) as [str|]; [|reflexivity]. rewrite Z.geb_leb. destruct (zlen str <=? m_end m) eqn:E; [reflexivity|].
    unfold py_nth, py_pos. destruct (m_end m <? 0) eqn:Ej.
    + destruct ((0 <=? m_end m + zlen str) && (m_end m + zlen str <? zlen str)) eqn:Eb.
      * destruct (m_end m <? - zlen str) eqn:El; [lia|]. destruct (nth_error _ _); reflexivity.
      * destruct (m_end m <? - zlen str) eqn:El; [|lia]. destruct (nth_error _ _); reflexivity.
    + destruct ((0 <=? m_end m) && (m_end m <? zlen str)) eqn:Eb; [|lia].
      destruct (m_end m <? - zlen str) eqn:El; [unfold zlen in El; lia|]. destruct (nth_error _ _); reflexivity.
  - intro e. unfold chars_surround. destruct (chars_before chars m) as [[|]|e']; split; intro H; try discriminate; try (right; split; [reflexivity|exact H]); try (left; exact H);
      try (destruct H as [H|[H H']]; try discriminate; assumption). 
Qed.
Example C57_errors_case :
  let m := set_input (mk_match 1 2 4) None in let n := set_input (mk_match 1 9 12) (Some (s "abc")) in
  chars_before (s "-") m = Err TypeError /\ chars_after (s "-") m = Err TypeError /\ chars_before (s "-") n = Err IndexError /\ chars_after (s "-") n = Ok true.
Proof. repeat split; reflexivity. Qed.
(** a chain of validators accepts iff all do; the first that does not accept decides *)
Theorem C57_validators : forall vs m,
  (validators vs m = Ok true <-> Forall (fun v => v m = Ok true) vs)
  /\ (forall r, r <> Ok true -> (validators vs m = r <-> exists a v b, vs = a ++ v :: b /\ Forall (fun v => v m = Ok true) a /\ v m = r)).
Proof.
  intros vs m. split.
  - induction vs as [|v vs IH]; simpl; [split; [constructor|reflexivity]|].
    destruct (v m) as [[|]|e] eqn:E.
    + rewrite IH. split; intro H; [constructor; auto | inversion H; auto].
    + split; intro H; [discriminate | inversion H; congruence].
    + split; intro H; [discriminate | inversion H; congruence].
  - intros r Hr. induction vs as [|v vs IH]; simpl.
    + split; [intro H; congruence | intros (a & v & b & E & _); destruct a; discriminate].
    + destruct (v m) as [[|]|e] eqn:E.
      * rewrite IH. split.
        -- intros (a & v' & b & -> & Ha & Hv). exists (v :: a), v', b. split; [reflexivity|]. split; [constructor; auto | exact Hv].
        -- intros ([|x a] & v' & b & E' & Ha & Hv); simpl in E'; injection E' as -> E'; [congruence|]. inversion Ha; subst. exists a, v', b. auto.
      * split; [intros <-; exists [], v, vs; auto|]. intros ([|x a] & v' & b & E' & Ha & Hv); simpl in E'; injection E' as -> E'; [congruence|]. inversion Ha; congruence.
      * split; [intros <-; exists [], v, vs; auto|]. intros ([|x a] & v' & b & E' & Ha & Hv); simpl in E'; injection E' as -> E'; [congruence|]. inversion Ha; congruence.
Qed.
Theorem C57_formatters : forall x,
  formatters [] x = x
  /\ (forall f, formatters [f] x = f x)
  /\ (forall fs gs, formatters (fs ++ gs) x = formatters gs (formatters fs x)).
Proof. intro x. split; [reflexivity|]. split; [reflexivity|]. intros. unfold formatters. apply fold_left_app. Qed.
Example C57_example :
  let m := set_input (mk_match 1 2 4) (Some (s "a-bc.d")) in
  chars_surround (s "-.") m = Ok true /\ chars_surround (s "-") m = Ok false
  /\ validators [chars_before (s "-"); chars_after (s ",")] m = Ok false.
Proof. repeat split; reflexivity. Qed.

(** ** C58 *)
(** what is passed on *)
Theorem C91_passes : forall {V} sg constructor (args : list V) kwargs,
  let '(a, k) := argspec_args sg constructor args kwargs in
  (sig_varargs sg = true -> a = args)
  /\ (sig_varargs sg = false -> (constructor = true -> sig_args sg <> []) ->
        a = firstn (length (sig_args sg) - (if constructor then 1 else 0)) args)
  /\ (forall n v, In (n, v) k <-> In (n, v) kwargs /\ (sig_varkw sg = true \/ In n (sig_args sg))).
Proof.
  intros V sg constructor args kwargs. unfold argspec_args. split; [|split].
  - intros ->. reflexivity.
  - intros -> Hc. unfold py_slice, py_clip. change (Z.to_nat 0) with 0%nat. simpl skipn.
    pose proof (zlen_nonneg (sig_args sg)). pose proof (zlen_nonneg args).
    assert (constructor = true -> 1 <= zlen (sig_args sg)) as H1.
    { intro E. specialize (Hc E). destruct (sig_args sg); [congruence|]. rewrite zlen_cons. pose proof (zlen_nonneg l). lia. }
    set (k := zlen (sig_args sg) - _). assert (0 <= k) by (unfold k; destruct constructor; [specialize (H1 eq_refl)|]; lia).
    destruct (k <? 0) eqn:E; [lia|]. 
    assert (length (sig_args sg) - (if constructor then 1 else 0) = Z.to_nat k)%nat as -> by (unfold k, zlen in *; destruct constructor; lia).
    rewrite Z.sub_0_r. destruct (Z.min_dec k (zlen args)) as [->| Em]; [reflexivity|]. rewrite Em. unfold zlen. rewrite Nat2Z.id, firstn_all.
    symmetry. apply firstn_all2. unfold zlen in Em. lia.
  - intros n v. destruct (sig_varkw sg); [tauto|]. rewrite filter_In. simpl. rewrite mem_spec. split.
    + intros [H (x & Hx & E)]. apply pstr_eqb_eq in E. subst. auto.
    + intros [H [E|Hx]]; [discriminate|]. split; [exact H|]. exists n. split; [exact Hx | apply pstr_eqb_refl].
Qed.
Lemma mem_pstr x l : mem pstr_eqb x l = true <-> In x l.
Proof. rewrite mem_spec. split; [intros (y & Hy & E); apply pstr_eqb_eq in E; congruence | intro H; exists x; split; [exact H | apply pstr_eqb_refl]]. Qed.
(** Calling a plain function: accepted when every parameter without default gets an argument,
    and no option has the name of a parameter filled by position. *)
Theorem C58_accepted_partial : forall {V} sg (args : list V) (kwargs : dict pstr V),
  NoDup (sig_args sg) ->
  Forall (fun p => snd p = true) (sig_kwonly sg) ->
  (forall n, In n (map fst kwargs) -> ~ In n (firstn (length args) (sig_args sg))) ->
  (forall n, In n (firstn (length (sig_args sg) - sig_defaults sg) (sig_args sg)) ->
     In n (firstn (length args) (sig_args sg)) \/ In n (map fst kwargs)) ->
  let '(a, k) := argspec_args sg false args kwargs in binds sg 0 a k = true.
Proof.
  intros V sg args kwargs Hnd Hkw Hclash Hreq.
  pose proof (C91_passes sg false args kwargs) as H. destruct (argspec_args sg false args kwargs) as [a k].
  destruct H as (H1 & H2 & H3). rewrite Nat.sub_0_r in H2.
  assert (firstn (length a) (sig_args sg) = firstn (length args) (sig_args sg)) as Hpos.
  { destruct (sig_varargs sg); [rewrite H1; reflexivity|]. rewrite H2 by (auto; discriminate). rewrite firstn_length.
    destruct (le_lt_dec (length (sig_args sg)) (length args)); [rewrite Nat.min_l by lia; rewrite firstn_all, firstn_all2 by lia; reflexivity|].
    rewrite Nat.min_r by lia. reflexivity. }
  unfold binds. simpl. rewrite Hpos. repeat (apply andb_true_iff; split).
  - destruct (sig_varargs sg); [reflexivity|]. simpl. rewrite H2 by (auto; discriminate). rewrite firstn_length. lia.
  - apply forallb_forall. intros [n v] Hn. simpl. apply H3 in Hn as [Hn Hor].
    assert (~ In n (firstn (length args) (sig_args sg))) as Hc by (apply Hclash; apply in_map_iff; exists (n, v); auto).
    apply andb_true_iff. split; [apply negb_true_iff; destruct (mem _ _ _) eqn:E; [apply mem_pstr in E; contradiction | reflexivity]|].
    destruct Hor as [Hv|Hn']; [rewrite Hv, !orb_true_r; reflexivity|].
    assert (In n (skipn (length a) (sig_args sg))) as Hr.
    { rewrite <- (firstn_skipn (length a) (sig_args sg)) in Hn'. apply in_app_iff in Hn' as [Hn'|Hn']; [rewrite Hpos in Hn'; contradiction | exact Hn']. }
    rewrite (proj2 (mem_pstr n _) Hr). reflexivity.
  - apply forallb_forall. intros n Hn. destruct (Hreq n Hn) as [Hp|Hp]; [rewrite (proj2 (mem_pstr n _) Hp); reflexivity|].
    apply orb_true_iff. right. apply mem_pstr. apply in_map_iff in Hp as ([n' v] & E & Hp). simpl in E. subst.
    apply in_map_iff. exists (n, v). split; [reflexivity|]. apply H3. split; [exact Hp|]. right.
    rewrite <- (firstn_skipn (length (sig_args sg) - sig_defaults sg) (sig_args sg)). apply in_app_iff. left. exact Hn.
  - apply forallb_forall. rewrite Forall_forall in Hkw. intros p Hp. rewrite (Hkw p Hp). reflexivity.
Qed.
Example C58_example :
  let sg := Signature [s "input"; s "context"; s "name"] 1 false false [] in
  let '(a, k) := argspec_args sg false [1; 2; 3; 4] [(s "tags", 7); (s "opt", 8)] in
  a = [1; 2; 3] /\ k = [] /\ binds sg 0 a k = true.
Proof. repeat split; reflexivity. Qed.
(** a bound method receives one positional argument too many; a required keyword-only
    parameter is never passed; an option named like a positional parameter is given twice *)
Theorem C58_call_refuted :
  (let sg := Signature [s "self"; s "input"] 0 false false [] in
   let '(a, k) := argspec_args sg false [1; 2] [] in binds sg 1 a k = false /\ binds sg 1 [1] k = true)
  /\ (let sg := Signature [s "input"] 0 false false [(s "name", false)] in
      let '(a, k) := argspec_args sg false [1; 2] [(s "name", 3)] in binds sg 0 a k = false /\ binds sg 0 [1] [(s "name", 3)] = true)
  /\ (let sg := Signature [s "input"; s "name"] 0 false false [] in
      let '(a, k) := argspec_args sg false [1; 2] [(s "name", 3)] in binds sg 0 a k = false).
Proof. repeat split; reflexivity. Qed.

Print Assumptions C14_predicate_index.
Print Assumptions C20_find_all.
Print Assumptions C20_greedy_unique.
Print Assumptions C21_terminates_partial.
Print Assumptions C21_empty_refuted.
Print Assumptions C23_extend_safe.
Print Assumptions C24_identity_set.
Print Assumptions C57_chars.
Print Assumptions C57_validators.
Print Assumptions C91_passes.
Print Assumptions C58_accepted_partial.
Print Assumptions C106_terminates_iff.
