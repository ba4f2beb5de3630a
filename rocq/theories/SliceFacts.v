(** Facts about slices with a step. *)
From Verif Require Import Base BaseFacts Match Spec MatchFacts Coll CollFacts CollQuery CollSem SpecColl CollHist Slices SpecSlices.
From Coq Require Import ZifyBool Sorted.
Set Implicit Arguments.
Unset Strict Implicit.
Open Scope Z_scope.

(** ** Positions *)
Lemma sorted_same (a b : list Z) : StronglySorted Z.lt a -> StronglySorted Z.lt b ->
  (forall x, In x a <-> In x b) -> a = b.
Proof.
  intro Ha. revert b. induction Ha as [|x a Sa IH Fa]; intros b Hb H.
  - destruct b as [|y b]; [reflexivity|]. exfalso. apply (proj2 (H y)). left. reflexivity.
  - destruct Hb as [|y b Sb Fb]; [exfalso; apply (proj1 (H x)); left; reflexivity|].
    rewrite Forall_forall in Fa, Fb.
    assert (x = y) as <-.
    { destruct (proj1 (H x) (or_introl eq_refl)) as [->|Hx]; [reflexivity|].
      destruct (proj2 (H y) (or_introl eq_refl)) as [->|Hy]; [reflexivity|].
      specialize (Fa y Hy). specialize (Fb x Hx). lia. }
    f_equal. apply IH; [exact Sb|]. intro z. specialize (H z). cbn [In] in H. split; intro Hz.
    + destruct (proj1 H (or_intror Hz)) as [->|?]; [|assumption]. specialize (Fa z Hz). lia.
    + destruct (proj2 H (or_intror Hz)) as [->|?]; [|assumption]. specialize (Fb z Hz). lia.
Qed.
Lemma zrange_sorted a b : StronglySorted Z.lt (zrange a b).
Proof.
  destruct (Z_lt_le_dec a b) as [H|H]; [|rewrite zrange_nil by lia; constructor].
  remember (Z.to_nat (b - a)) as n eqn:En. revert a H En. induction n as [|n IH]; intros a H En; [lia|].
  rewrite zrange_cons by lia. constructor.
  - destruct (Z_lt_le_dec (a + 1) b) as [H'|H']; [apply IH; lia | rewrite zrange_nil by lia; constructor].
  - apply Forall_forall. intros x Hx. apply in_zrange in Hx. lia.
Qed.
Lemma filter_sorted (f : Z -> bool) l : StronglySorted Z.lt l -> StronglySorted Z.lt (filter f l).
Proof.
  induction 1 as [|x l S IH F]; cbn [filter]; [constructor|]. destruct (f x); [|exact IH]. constructor; [exact IH|].
  rewrite Forall_forall in *. intros y Hy. apply filter_In in Hy. apply F, Hy.
Qed.
Lemma map_up_sorted a st l : 0 < st -> StronglySorted Z.lt l -> StronglySorted Z.lt (map (fun k => a + k * st) l).
Proof.
  intro H. induction 1 as [|x l S IH F]; cbn [map]; [constructor|]. constructor; [exact IH|].
  rewrite Forall_forall in *. intros y Hy. apply in_map_iff in Hy as (k & <- & Hk). specialize (F k Hk). nia.
Qed.
Lemma sorted_snoc (l : list Z) x : StronglySorted Z.lt l -> (forall y, In y l -> y < x) -> StronglySorted Z.lt (l ++ [x]).
Proof.
  induction 1 as [|y l S IH F]; intro Hx; cbn [app]; [constructor; constructor|]. constructor.
  - apply IH. intros z Hz. apply Hx. right. exact Hz.
  - rewrite Forall_forall in *. intros z Hz. apply in_app_iff in Hz as [Hz|[<-|[]]]; [apply F, Hz | apply Hx; left; reflexivity].
Qed.
Lemma map_down_sorted a st l : st < 0 -> StronglySorted Z.lt l -> StronglySorted Z.lt (rev (map (fun k => a + k * st) l)).
Proof.
  intro H. induction 1 as [|x l S IH F]; cbn [map rev]; [constructor|]. apply sorted_snoc; [exact IH|].
  intros y Hy. apply in_rev in Hy. apply in_map_iff in Hy as (k & <- & Hk). rewrite Forall_forall in F. specialize (F k Hk). nia.
Qed.

Lemma count_up a b st k : 0 < st -> (0 <= k < slice_count a b st <-> 0 <= k /\ a + k * st < b).
Proof.
  intro H. unfold slice_count. replace (st <? 0) with false by lia. destruct (a <? b) eqn:E; [|nia].
  pose proof (Z.div_mod (b - a - 1) st ltac:(lia)). pose proof (Z.mod_pos_bound (b - a - 1) st H). nia.
Qed.
Lemma count_down a b st k : st < 0 -> (0 <= k < slice_count a b st <-> 0 <= k /\ b < a + k * st).
Proof.
  intro H. unfold slice_count. replace (st <? 0) with true by lia. destruct (b <? a) eqn:E; [|nia].
  pose proof (Z.div_mod (a - b - 1) (- st) ltac:(lia)). pose proof (Z.mod_pos_bound (a - b - 1) (- st) ltac:(lia)). nia.
Qed.
Lemma slice_walk_taken n i j st : 0 <= n -> st <> 0 -> slice_walk n i j st = taken_positions n i j st.
Proof.
  intros Hn Hs. unfold slice_walk, taken_positions. destruct (slice_bounds n i j st) as [a b] eqn:Eb.
  unfold slice_bounds in Eb. destruct (0 <? st) eqn:E0.
  - replace (st <? 0) with false in Eb by lia. injection Eb as Ea Eb.
    apply sorted_same.
    + apply map_up_sorted; [lia | apply zrange_sorted].
    + apply filter_sorted, zrange_sorted.
    + intro p. rewrite in_map_iff. unfold taken_up. rewrite filter_In, in_zrange.
      assert (forall q, 0 <= q < n -> (a <= q <-> match i with None => 0 | Some i => Z.max 0 (real n i) end <= q)) as Ha.
      { intros q Hq. subst a. unfold real. destruct i as [i|]; [|reflexivity]. destruct (i <? 0) eqn:E; lia. }
      assert (forall q, 0 <= q < n -> (q < b <-> q < match j with None => n | Some j => real n j end)) as Hb.
      { intros q Hq. subst b. unfold real. destruct j as [j|]; [|reflexivity]. destruct (j <? 0) eqn:E; lia. }
      assert (0 <= a /\ (a < n -> a = match i with None => 0 | Some i => Z.max 0 (real n i) end)) as [Ha0 Ha1].
      { subst a. unfold real. destruct i as [i|]; [|lia]. destruct (i <? 0) eqn:E; lia. }
      assert (b <= n) as Hbn. { subst b. destruct j as [j|]; [|lia]. destruct (j <? 0) eqn:E; lia. }
      split.
      * intros (k & <- & Hk). apply in_zrange in Hk. apply count_up in Hk; [|lia].
        assert (0 <= a + k * st < n) as Hp by nia. split; [exact Hp|].
        apply Ha1 in Ha0 as Ha2 || idtac. assert (a < n) as Han by nia. specialize (Ha1 Han).
        rewrite <- Ha1. specialize (Hb _ Hp). replace (a + k * st - a) with (k * st) by lia. rewrite Z.mod_mul by lia. nia.
      * intros [Hp Ht]. apply andb_prop in Ht as [Ht1 Ht]. apply andb_prop in Ht1 as [Ht1 Ht2].
        assert (a <= p) as Hap by (apply Ha; lia). specialize (Ha1 ltac:(lia)). rewrite <- Ha1 in Ht.
        exists ((p - a) / st). pose proof (Z.div_mod (p - a) st ltac:(lia)) as Hd.
        assert (a + (p - a) / st * st = p) as Hpk by nia. split; [exact Hpk|]. apply in_zrange. apply count_up; [lia|].
        rewrite Hpk. split; [apply Z.div_pos; lia|]. apply Hb; lia.
  - assert (st < 0) as Hneg by lia. replace (st <? 0) with true in Eb by lia. injection Eb as Ea Eb.
    rewrite <- (rev_involutive (map _ _)). unfold taken_down. f_equal. apply sorted_same.
    + apply map_down_sorted; [lia | apply zrange_sorted].
    + apply filter_sorted, zrange_sorted.
    + intro p. rewrite <- in_rev, in_map_iff. rewrite filter_In, in_zrange.
      assert (forall q, 0 <= q < n -> (b < q <-> match j with None => -1 | Some j => real n j end < q)) as Hb.
      { intros q Hq. subst b. unfold real. destruct j as [j|]; [|reflexivity]. destruct (j <? 0) eqn:E; lia. }
      assert (a <= n - 1 /\ (-1 < a -> a = match i with None => n - 1 | Some i => Z.min (n - 1) (real n i) end)
              /\ (forall q, 0 <= q < n -> (q <= a <-> q <= match i with None => n - 1 | Some i => Z.min (n - 1) (real n i) end))) as (Ha0 & Ha1 & Ha).
      { subst a. unfold real. destruct i as [i|]; [destruct (i <? 0) eqn:E|]; (split; [|split; [|intros q Hq]]; lia). }
      assert (-1 <= b) as Hbn. { subst b. destruct j as [j|]; [|lia]. destruct (j <? 0) eqn:E; lia. }
      split.
      * intros (k & <- & Hk). apply in_zrange in Hk. apply count_down in Hk; [|lia].
        assert (0 <= a + k * st < n) as Hp by nia. split; [exact Hp|].
        assert (-1 < a) as Han by nia. specialize (Ha1 Han).
        rewrite <- Ha1. specialize (Hb _ Hp). replace (a - (a + k * st)) with (k * - st) by lia. rewrite Z.mod_mul by lia. nia.
      * intros [Hp Ht]. apply andb_prop in Ht as [Ht1 Ht]. apply andb_prop in Ht1 as [Ht1 Ht2].
        assert (p <= a) as Hap by (apply Ha; lia). specialize (Ha1 ltac:(lia)). rewrite <- Ha1 in Ht.
        exists ((a - p) / - st). pose proof (Z.div_mod (a - p) (- st) ltac:(lia)) as Hd.
        assert (a + (a - p) / - st * st = p) as Hpk by nia. split; [exact Hpk|]. apply in_zrange. apply count_down; [lia|].
        rewrite Hpk. split; [apply Z.div_pos; lia|]. apply Hb; lia.
Qed.
Lemma taken_in n i j st p : In p (taken_positions n i j st) -> 0 <= p < n.
Proof.
  unfold taken_positions, taken_up, taken_down. destruct (0 <? st).
  - rewrite filter_In, in_zrange. tauto.
  - rewrite <- in_rev, filter_In, in_zrange. tauto.
Qed.
Lemma sorted_NoDup l : StronglySorted Z.lt l -> NoDup l.
Proof.
  induction 1 as [|x l S IH F]; constructor; [|exact IH]. intro H. rewrite Forall_forall in F. specialize (F x H). lia.
Qed.
Lemma taken_NoDup n i j st : NoDup (taken_positions n i j st).
Proof.
  unfold taken_positions, taken_up, taken_down. destruct (0 <? st); [|apply NoDup_rev]; apply sorted_NoDup, filter_sorted, zrange_sorted.
Qed.

(** ** Reading, dropping, storing *)
Lemma pick_reads {A} (l : list A) ps : (forall p, In p ps -> 0 <= p < zlen l) -> reads l ps (pick_at l ps).
Proof.
  unfold reads. induction ps as [|p ps IH]; intro H; cbn [pick_at flat_map]; [split; [reflexivity|]; intros [|k] p Hk; discriminate Hk|].
  destruct (IH ltac:(intros q Hq; apply H; right; exact Hq)) as [H1 H2].
  assert (exists x, nth_error l (Z.to_nat p) = Some x) as [x Ex].
  { specialize (H p (or_introl eq_refl)). unfold zlen in H. destruct (nth_error l (Z.to_nat p)) as [x|] eqn:E; [eauto|].
    apply nth_error_None in E. lia. }
  fold (pick_at l ps). rewrite Ex. cbn [app]. split; [cbn [length]; rewrite H1; reflexivity|].
  intros [|k] q Hq; cbn [nth_error] in *; [injection Hq as <-; symmetry; exact Ex | apply H2, Hq].
Qed.
Lemma nth_error_ext {A} (a : list A) : forall b, (forall k, nth_error a k = nth_error b k) -> a = b.
Proof.
  induction a as [|x a IH]; intros [|y b] H; [reflexivity | specialize (H 0%nat); discriminate H | specialize (H 0%nat); discriminate H|].
  f_equal; [specialize (H 0%nat); injection H as ->; reflexivity|]. apply IH. intro k. exact (H (S k)).
Qed.
Lemma reads_unique {A} (l : list A) ps a b : reads l ps a -> reads l ps b -> a = b.
Proof.
  intros [L1 R1] [L2 R2]. apply nth_error_ext. intro k. destruct (nth_error ps k) as [p|] eqn:E.
  - rewrite (R1 _ _ E), (R2 _ _ E). reflexivity.
  - apply nth_error_None in E. rewrite (proj2 (nth_error_None a k)), (proj2 (nth_error_None b k)) by lia. reflexivity.
Qed.

Lemma drop_at_without {A} (l : list A) : forall k ps,
  drop_at k ps l = map snd (filter (fun px => negb (existsb (Z.eqb (fst px)) ps)) (combine (zrange k (k + zlen l)) l)).
Proof.
  induction l as [|x l IH]; intros k ps; cbn [drop_at].
  - unfold zlen. cbn [length]. rewrite zrange_nil by lia. reflexivity.
  - rewrite zrange_cons by (unfold zlen; cbn [length]; lia). cbn [combine filter fst].
    replace (k + zlen (x :: l)) with (k + 1 + zlen l) by (unfold zlen; cbn [length]; lia).
    rewrite IH. destruct (existsb (Z.eqb k) ps); reflexivity.
Qed.
Lemma drop_without {A} (l : list A) ps : drop_at 0 ps l = without l ps.
Proof. rewrite drop_at_without. reflexivity. Qed.
Lemma existsb_eqb k ps : existsb (Z.eqb k) ps = true <-> In k ps.
Proof. rewrite existsb_exists. split; [intros (x & Hx & E); apply Z.eqb_eq in E; subst; exact Hx | intro H; exists k; split; [exact H | lia]]. Qed.
Lemma drop_at_ext {A} (l : list A) : forall k ps qs, (forall p, k <= p -> (In p ps <-> In p qs)) -> drop_at k ps l = drop_at k qs l.
Proof.
  induction l as [|x l IH]; intros k ps qs H; cbn [drop_at]; [reflexivity|].
  assert (existsb (Z.eqb k) ps = existsb (Z.eqb k) qs) as ->.
  { apply eq_true_iff_eq. rewrite !existsb_eqb. apply H. lia. }
  rewrite (IH (k + 1) ps qs) by (intros p Hp; apply H; lia). reflexivity.
Qed.
Definition pick_from {A} (k : Z) (l : list A) (ps : list Z) : list A :=
  flat_map (fun p => match nth_error l (Z.to_nat (p - k)) with Some x => [x] | None => [] end) ps.
Lemma flat_map_perm {A B} (f : A -> list B) l l' : Permutation l l' -> Permutation (flat_map f l) (flat_map f l').
Proof.
  induction 1; cbn [flat_map]; [reflexivity | apply Permutation_app_head; assumption | | etransitivity; eassumption].
  rewrite !app_assoc. apply Permutation_app_tail, Permutation_app_comm.
Qed.
Lemma flat_map_eq {A B} (f g : A -> list B) l : (forall x, In x l -> f x = g x) -> flat_map f l = flat_map g l.
Proof. induction l as [|x l IH]; intro H; cbn [flat_map]; [reflexivity|]. rewrite (H x (or_introl eq_refl)), IH; auto. intros y Hy. apply H. right. exact Hy. Qed.
Lemma pick_drop_perm {A} (l : list A) : forall k ps, NoDup ps -> (forall p, In p ps -> k <= p < k + zlen l) ->
  Permutation l (pick_from k l ps ++ drop_at k ps l).
Proof.
  induction l as [|x l IH]; intros k ps Hn Hin.
  - destruct ps as [|p ps]; [reflexivity|]. specialize (Hin p (or_introl eq_refl)). unfold zlen in Hin. cbn [length] in Hin. lia.
  - assert (zlen (x :: l) = 1 + zlen l) as Hz by (unfold zlen; cbn [length]; lia). rewrite Hz in Hin.
    assert (forall qs, (forall p, In p qs -> k + 1 <= p) -> pick_from k (x :: l) qs = pick_from (k + 1) l qs) as Hs.
    { intros qs Hq. apply flat_map_eq. intros p Hp. specialize (Hq p Hp).
      replace (Z.to_nat (p - k)) with (S (Z.to_nat (p - (k + 1)))) by lia. reflexivity. }
    cbn [drop_at]. destruct (existsb (Z.eqb k) ps) eqn:E.
    + apply existsb_eqb in E. apply in_split in E as (a & b & ->).
      assert (Permutation (a ++ k :: b) (k :: a ++ b)) as Hp by (symmetry; apply Permutation_middle).
      apply NoDup_remove in Hn as [Hn1 Hn2].
      unfold pick_from at 1. rewrite (flat_map_perm _ Hp). cbn [flat_map]. replace (Z.to_nat (k - k)) with 0%nat by lia. cbn [nth_error app]. constructor.
      assert (forall p, In p (a ++ b) -> k + 1 <= p) as Hq.
      { intros p Hp'. assert (k <> p) by congruence. specialize (Hin p). rewrite in_app_iff in Hin, Hp'. cbn [In] in Hin. lia || (assert (k <= p < k + (1 + zlen l)) by (apply Hin; tauto); lia). }
      fold (pick_from k (x :: l) (a ++ b)). rewrite Hs by exact Hq.
      rewrite (drop_at_ext l (k := k + 1) (ps := a ++ k :: b) (qs := a ++ b)).
      * apply IH; [exact Hn1|]. intros p Hp'. specialize (Hq p Hp'). assert (k <= p < k + (1 + zlen l)) by (apply Hin; rewrite in_app_iff in *; cbn [In]; tauto). lia.
      * intros p Hp'. rewrite !in_app_iff. cbn [In]. intuition lia.
    + assert (~ In k ps) as Hk by (rewrite <- existsb_eqb, E; discriminate).
      rewrite Hs by (intros p Hp; assert (k <> p) by congruence; specialize (Hin p Hp); lia).
      rewrite <- Permutation_middle. constructor. apply IH; [exact Hn|]. intros p Hp. assert (k <> p) by congruence. specialize (Hin p Hp). lia.
Qed.
Lemma pick_at_from {A} (l : list A) ps : (forall p, In p ps -> 0 <= p) -> pick_at l ps = pick_from 0 l ps.
Proof. intro H. apply flat_map_eq. intros p Hp. rewrite Z.sub_0_r. reflexivity. Qed.
Lemma pick_at_perm {A} (l : list A) ps : NoDup ps -> (forall p, In p ps -> 0 <= p < zlen l) ->
  Permutation l (pick_at l ps ++ drop_at 0 ps l).
Proof. intros Hn H. rewrite pick_at_from by (intros p Hp; specialize (H p Hp); lia). apply pick_drop_perm; assumption. Qed.

Lemma nth_error_replace {A} (l : list A) : forall n x k, (n < length l)%nat ->
  nth_error (replace_nth n x l) k = if Nat.eqb k n then Some x else nth_error l k.
Proof.
  unfold replace_nth. induction l as [|y l IH]; intros n x k H; [cbn [length] in H; lia|].
  destruct n as [|n]; cbn [firstn skipn app].
  - destruct k as [|k]; reflexivity.
  - destruct k as [|k]; [reflexivity|]. cbn [nth_error Nat.eqb]. apply IH. cbn [length] in H. lia.
Qed.
Lemma length_replace {A} (l : list A) n x : (n < length l)%nat -> length (replace_nth n x l) = length l.
Proof. unfold replace_nth. intro H. rewrite app_length. cbn [length]. rewrite firstn_length, skipn_length. lia. Qed.
Lemma store_stored {A} (ps : list Z) : forall (l vs : list A), NoDup ps -> (forall p, In p ps -> 0 <= p < zlen l) -> length ps = length vs ->
  stored l ps vs (store_at l ps vs).
Proof.
  unfold stored. induction ps as [|p ps IH]; intros l vs Hn Hin Hl; destruct vs as [|v vs]; try discriminate Hl; cbn [store_at].
  - split; [reflexivity|]. split; [intros [|k]; discriminate | reflexivity].
  - injection Hl as Hl. inversion Hn as [|? ? Hp Hn']; subst. pose proof (Hin p (or_introl eq_refl)) as Hpl.
    assert (Z.to_nat p < length l)%nat as Hpn by (unfold zlen in Hpl; lia).
    destruct (IH (replace_nth (Z.to_nat p) v l) vs Hn') as (I1 & I2 & I3).
    { intros q Hq. unfold zlen. rewrite length_replace by exact Hpn. apply Hin. right. exact Hq. }
    { exact Hl. }
    rewrite length_replace in I1 by exact Hpn. split; [exact I1|]. split.
    + intros [|k] q w Hq Hw; cbn [nth_error] in Hq, Hw.
      * injection Hq as <-. injection Hw as <-. rewrite I3 by (lia || exact Hp). rewrite nth_error_replace, Nat.eqb_refl by exact Hpn. reflexivity.
      * apply (I2 k); assumption.
    + intros q Hq Hni. rewrite I3; [|exact Hq | intro; apply Hni; right; assumption].
      rewrite nth_error_replace by exact Hpn. destruct (Nat.eqb (Z.to_nat q) (Z.to_nat p)) eqn:E; [|reflexivity].
      apply Nat.eqb_eq in E. exfalso. apply Hni. left. lia.
Qed.
Lemma stored_unique {A} (l : list A) ps vs a b : length ps = length vs -> stored l ps vs a -> stored l ps vs b -> a = b.
Proof.
  intros Hl (_ & A2 & A3) (_ & B2 & B3). apply nth_error_ext. intro k.
  destruct (in_dec Z.eq_dec (Z.of_nat k) ps) as [H|H].
  - apply In_nth_error in H as (n & En). destruct (nth_error vs n) as [v|] eqn:Ev.
    + specialize (A2 _ _ _ En Ev). specialize (B2 _ _ _ En Ev). rewrite Nat2Z.id in A2, B2. congruence.
    + apply nth_error_None in Ev. assert (n < length ps)%nat by (apply nth_error_Some; congruence). lia.
  - specialize (A3 (Z.of_nat k) ltac:(lia) H). specialize (B3 (Z.of_nat k) ltac:(lia) H). rewrite Nat2Z.id in A3, B3. congruence.
Qed.
Lemma drop_at_nth {A} (l l' : list A) : forall k ps, length l = length l' ->
  (forall p, k <= p -> ~ In p ps -> nth_error l' (Z.to_nat (p - k)) = nth_error l (Z.to_nat (p - k))) -> drop_at k ps l' = drop_at k ps l.
Proof.
  revert l'. induction l as [|x l IH]; intros [|y l'] k ps Hl H; try discriminate Hl; [reflexivity|]. cbn [drop_at].
  rewrite (IH l' (k + 1) ps).
  - destruct (existsb (Z.eqb k) ps) eqn:E; [reflexivity|]. f_equal. specialize (H k ltac:(lia)).
    rewrite Z.sub_diag in H. cbn [Z.to_nat nth_error] in H. assert (Some y = Some x) as Hxy by (apply H; rewrite <- existsb_eqb, E; discriminate). injection Hxy as ->. reflexivity.
  - injection Hl as Hl. exact Hl.
  - intros p Hp Hni. specialize (H p ltac:(lia) Hni). replace (Z.to_nat (p - k)) with (S (Z.to_nat (p - (k + 1)))) in H by lia. exact H.
Qed.
Lemma stored_perm {A} (l : list A) ps vs r : NoDup ps -> (forall p, In p ps -> 0 <= p < zlen l) -> length ps = length vs ->
  stored l ps vs r -> Permutation r (vs ++ drop_at 0 ps l).
Proof.
  intros Hn Hin Hl (S1 & S2 & S3).
  assert (forall p, In p ps -> 0 <= p < zlen r) as Hin' by (unfold zlen; rewrite S1; exact Hin).
  rewrite (pick_at_perm Hn Hin') at 1. rewrite (drop_at_nth (l := l) (l' := r) (k := 0) (ps := ps)) by
    (auto; intros p Hp Hni; rewrite Z.sub_0_r; apply S3; assumption).
  apply Permutation_app_tail. replace (pick_at r ps) with vs; [reflexivity|].
  refine (reads_unique (l := r) (ps := ps) _ (pick_reads Hin')). split; [auto|].
  intros k p Hk. destruct (nth_error vs k) as [v|] eqn:Ev.
  - symmetry. apply (S2 _ _ _ Hk Ev).
  - apply nth_error_None in Ev. assert (k < length ps)%nat by (apply nth_error_Some; congruence). lia.
Qed.

(** step 1: the plain slices *)
Lemma zlen_nonneg' {A} (l : list A) : 0 <= zlen l. Proof. unfold zlen. lia. Qed.
