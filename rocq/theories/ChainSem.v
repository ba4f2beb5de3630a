(** * Meaning of one attempt of a chain *)
From Verif Require Import Base BaseFacts Match Coll Loose MatchFacts RulesFacts Pattern Chain ChainFacts SpecChain.
Set Implicit Arguments.
Unset Strict Implicit.
Open Scope Z_scope.

Lemma subseq_refl {A} (l : list A) : subseq l l.
Proof. induction l; constructor; auto. Qed.
Lemma subseq_nil {A} (l : list A) : subseq [] l.
Proof. induction l; constructor; auto. Qed.
Lemma subseq_app {A} (a b c d : list A) : subseq a b -> subseq c d -> subseq (a ++ c) (b ++ d).
Proof. induction 1; simpl; intros; auto; constructor; auto. Qed.
Lemma subseq_In {A} (l r : list A) x : subseq l r -> In x l -> In x r.
Proof. induction 1; simpl; intuition. Qed.
Lemma subseq_trans {A} (a b c : list A) : subseq a b -> subseq b c -> subseq a c.
Proof.
  intros H K. revert a H. induction K; intros a H1; auto.
  - inversion H1; subst; [apply sub_take|apply sub_skip]; auto.
  - apply sub_skip; auto.
Qed.
Lemma subseq_sorted {A} (R : A -> A -> Prop) l r : subseq l r -> StronglySorted R r -> StronglySorted R l.
Proof.
  induction 1; intro S; auto; inversion S; subst; auto. constructor; auto.
  rewrite Forall_forall in *. intros y Hy. apply H3. eapply subseq_In; eauto.
Qed.
Lemma subseq_map {A B} (f : A -> B) l r : subseq l r -> subseq (map f l) (map f r).
Proof. induction 1; simpl; constructor; auto. Qed.
Lemma subseq_firstn {A} (l : list A) k : subseq (firstn k l) l.
Proof. revert k. induction l; destruct k; simpl; try apply subseq_nil. apply sub_take; auto. Qed.

(** ** Grouping when the indexes increase *)
Lemma insert_last {A} (lt : A -> A -> bool) x l : Forall (fun y => lt x y = false) l -> insert_by lt x l = l ++ [x].
Proof. induction 1 as [|y l H H0 IH]; simpl; [reflexivity|]. now rewrite H, IH. Qed.
Lemma sort_sorted (l : list mtch) : StronglySorted Nat.lt (map m_index l) ->
  sort_by (fun a b => Nat.ltb (m_index a) (m_index b)) l = l.
Proof.
  intro H. unfold sort_by. set (lt := fun a b : mtch => Nat.ltb (m_index a) (m_index b)).
  assert (forall acc, Forall (fun y => Forall (fun x => m_index y < m_index x)%nat l) acc ->
          fold_left (fun acc x => insert_by lt x acc) l acc = acc ++ l) as X; [|now rewrite X].
  induction l as [|x l IH]; intros acc F; simpl; [now rewrite app_nil_r|].
  simpl in H. inversion H as [|? ? H1 H2]; subst. rewrite insert_last.
  - rewrite IH; auto; [now rewrite <- app_assoc|]. apply Forall_app. split.
    + eapply Forall_impl; [|exact F]. intros y Hy. now inversion Hy.
    + constructor; [|constructor]. rewrite Forall_forall in *. intros y Hy. apply H2. now apply in_map.
  - eapply Forall_impl; [|exact F]. intros y Hy. inversion Hy; subst. unfold lt. apply Nat.ltb_ge. lia.
Qed.
Lemma groupby_sorted_single (l : list mtch) : StronglySorted Nat.lt (map m_index l) ->
  groupby m_index l = map (fun m => (m_index m, [m])) l.
Proof.
  induction l as [|x l IH]; intro H; cbn [groupby map]; [reflexivity|]. simpl in H. inversion H as [|? ? H1 H2]; subst.
  rewrite (IH H1). destruct l as [|y l]; [reflexivity|]. simpl map. simpl in H2. inversion H2; subst.
  assert (eqb (m_index x) (m_index y) = false) as ->; [|reflexivity]. apply eqb_neq. lia.
Qed.
Lemma group_by_index_single l : StronglySorted Nat.lt (map m_index l) -> group_by_index l = map (fun m => (m_index m, [m])) l.
Proof. intro H. unfold group_by_index. rewrite sort_sorted by exact H. now apply groupby_sorted_single. Qed.
Lemma seq_sorted k a : StronglySorted Nat.lt (seq a k).
Proof.
  revert a. induction k as [|k IH]; intro a; simpl; constructor; auto. apply Forall_forall. intros x Hx. apply in_seq in Hx. lia.
Qed.
Lemma firstn_seq k n a : firstn k (seq a n) = seq a (Nat.min k n).
Proof. revert k a. induction n as [|n IH]; intros k a; destruct k; simpl; auto. now rewrite IH. Qed.

(** ** The kept repetitions *)
Lemma separated_spec t a b : 0 <= a -> a <= b -> b <= zlen t -> separated t a b = negb (a =? b).
Proof.
  intros A B C. unfold separated, py_slice, py_clip. destruct (Z.ltb_spec a 0); [lia|]. destruct (Z.ltb_spec b 0); [lia|].
  rewrite !Z.min_l by lia. destruct (Z.eqb_spec a b) as [->|N].
  - now rewrite Z.sub_diag.
  - unfold zlen in C. destruct (firstn _ _) eqn:E; [|reflexivity]. apply (f_equal (@length _)) in E.
    rewrite firstn_length, skipn_length in E. simpl in E. lia.
Qed.
Lemma initiator_root m : m_parent m = None -> initiator m = m.
Proof. destruct m; simpl. now intros ->. Qed.
Lemma located_raw t m : located t m -> raw_start m = m_start m /\ raw_end m = m_end m /\ initiator m = m.
Proof. intros (A & B & C & D & _). unfold raw_start, raw_end. rewrite B, C. split; [|split]; auto. now apply initiator_root. Qed.

(** the pieces from [m] on: [j] more than [m] *)
Lemma contiguous_run t : forall r m, Forall (located t) (m :: r) -> StronglySorted (fun a b => m_end a <= m_start b) (m :: r) ->
  exists j e, contiguous t m r = m :: firstn j r /\ (j <= length r)%nat /\ tile (m_start m) (m :: firstn j r) e
    /\ (j = length r \/ exists m', nth_error r j = Some m' /\ m_start m' <> e).
Proof.
  induction r as [|m' r IH]; intros m F S; cbn [contiguous].
  - exists 0%nat, (m_end m). simpl. repeat split; auto.
  - inversion F as [|? ? F1 F2]; subst. inversion F2 as [|? ? F3 F4]; subst. inversion S as [|? ? S1 S2]; subst. inversion S2 as [|? ? S3 _]; subst.
    destruct (located_raw F1) as (_ & R1 & I1). destruct (located_raw F3) as (R2 & _ & I2). rewrite I1, I2, R1, R2.
    destruct F1 as (_ & _ & _ & _ & B1 & B2). destruct F3 as (_ & _ & _ & _ & B3 & B4).
    rewrite separated_spec by lia. destruct (Z.eqb_spec (m_end m) (m_start m')) as [E|N]; cbn [negb].
    + destruct (IH m' F2 S1) as (j & e & H1 & H2 & H3 & H4). exists (Datatypes.S j), e. rewrite H1. cbn [firstn length].
      split; [reflexivity|]. split; [lia|]. split; [|destruct H4 as [->|H4]; auto].
      split; [reflexivity|]. rewrite E. exact H3.
    + exists 0%nat, (m_end m). simpl. repeat split; auto; [lia|]. right. exists m'. split; auto.
Qed.
Lemma tile_firstn : forall l a e k, tile a l e -> exists e', tile a (firstn k l) e' /\
  (k < length l -> exists m, nth_error l k = Some m /\ m_start m = e')%nat /\ (length l <= k -> e' = e)%nat.
Proof.
  induction l as [|m l IH]; intros a e k T; simpl in T.
  - subst. exists e. destruct k; simpl; repeat split; auto; lia.
  - destruct T as [<- T]. destruct k as [|k].
    + exists (m_start m). simpl. split; [reflexivity|]. split; [eauto|lia].
    + destruct (IH _ _ k T) as (e' & H1 & H2 & H3). exists e'. simpl. split; [auto|]. split; [intro; apply H2; lia|intro; apply H3; lia].
Qed.

Lemma filter_index_firstn (l : list mtch) a e : map m_index l = seq a (length l) -> 0 <= e ->
  filter (fun x => Z.of_nat (m_index x) <? e) l = firstn (Z.to_nat e - a) l.
Proof.
  revert a. induction l as [|m l IH]; intros a H E; simpl; [now rewrite firstn_nil|]. simpl in H. injection H as H1 H2.
  destruct (Z.ltb_spec (Z.of_nat (m_index m)) e).
  - rewrite (IH (S a)) by auto. replace (Z.to_nat e - a)%nat with (S (Z.to_nat e - S a))%nat by lia. reflexivity.
  - rewrite (IH (S a)) by auto. replace (Z.to_nat e - a)%nat with 0%nat by lia. replace (Z.to_nat e - S a)%nat with 0%nat by lia. reflexivity.
Qed.
Lemma filter_index_neg (l : list mtch) e : e < 0 -> filter (fun x => Z.of_nat (m_index x) <? e) l = [].
Proof. intro H. apply filter_nil_iff. intros x _. destruct (Z.ltb_spec (Z.of_nat (m_index x)) e); auto. lia. Qed.

Definition cap (rend : option Z) (k : nat) : nat := match rend with Some e => Nat.min k (Z.to_nat e) | None => k end.

(** the repetitions kept: [k] of them, adjacent, as many as possible *)
Lemma truncate_run first rend raws t : Forall (located t) raws -> StronglySorted (fun a b => m_end a <= m_start b) raws ->
  map m_index raws = seq 0 (length raws) ->
  exists k a e, truncate_repeater first rend raws t = firstn k raws /\ (k <= length raws)%nat /\ 0 <= a
    /\ (first = false \/ k = 0%nat -> a = 0) /\ tile a (firstn k raws) e
    /\ (forall z, rend = Some z -> Z.of_nat k <= Z.max 0 z)
    /\ ((exists z, rend = Some z /\ z <= Z.of_nat k) \/ k = length raws
        \/ exists m, nth_error raws k = Some m /\ (first = false \/ k <> 0%nat) /\ m_start m <> e).
Proof.
  intros F S I. destruct raws as [|m r].
  - exists 0%nat, 0, 0. simpl. repeat split; auto; try lia.
  - cbn [truncate_repeater]. inversion F as [|? ? F1 F2]; subst. destruct (located_raw F1) as (R1 & _ & I1). rewrite I1, R1.
    destruct F1 as (_ & _ & _ & _ & B1 & B2). rewrite separated_spec by lia.
    destruct (negb first && negb (0 =? m_start m)) eqn:E.
    + apply andb_true_iff in E as [E1 E2]. exists 0%nat, 0, 0. simpl. repeat split; auto; try lia.
      right. right. exists m. split; [reflexivity|]. split; [left; now destruct first|]. destruct (Z.eqb_spec 0 (m_start m)); [discriminate E2|lia].
    + cbv zeta. destruct (contiguous_run F S) as (j & e & C1 & C2 & C3 & C4). rewrite C1.
      assert (first = false -> m_start m = 0) as E0.
      { intros ->. cbn [negb andb] in E. destruct (Z.eqb_spec 0 (m_start m)); [lia|discriminate]. }
      assert (m :: firstn j r = firstn (Datatypes.S j) (m :: r)) as Ef by reflexivity. rewrite Ef in *. clear E.
      set (l := m :: r) in *. set (K := Datatypes.S j) in *. assert (K <= length l)%nat as LK by (unfold K, l; simpl; lia).
      assert (length (firstn K l) = K) as LF by (rewrite firstn_length; lia).
      destruct rend as [z|].
      * destruct (Z.ltb_spec z 0) as [Z0|Z0].
        { rewrite filter_index_neg by exact Z0. exists 0%nat, 0, 0. simpl. repeat split; auto; try lia.
          left. exists z. split; auto. lia. }
        rewrite (@filter_index_firstn (firstn K l) 0) by (auto; rewrite <- firstn_map, I, firstn_seq, LF; f_equal; lia).
        rewrite firstn_firstn, Nat.sub_0_r. set (k := Nat.min (Z.to_nat z) K).
        destruct (@tile_firstn (firstn K l) (m_start m) e (Z.to_nat z) C3) as (e' & T1 & T2 & T3). rewrite firstn_firstn in T1. fold k in T1.
        assert (exists a e0, 0 <= a /\ (first = false \/ k = 0%nat -> a = 0) /\ tile a (firstn k l) e0 /\ (k <> 0%nat -> e0 = e')) as (a & e0 & A1 & A2 & A3 & A4).
        { destruct (Nat.eq_dec k 0) as [K0|K0].
          - exists 0, 0. rewrite K0. simpl. repeat split; auto; lia.
          - exists (m_start m), e'. repeat split; auto; [lia|]. intros [H|H]; [auto|lia]. }
        exists k, a, e0. split; [reflexivity|]. split; [unfold k; lia|]. split; [exact A1|]. split; [exact A2|]. split; [exact A3|].
        split; [intros ? H; injection H as <-; unfold k; lia|].
        destruct (Z.le_gt_cases z (Z.of_nat K)) as [L|L]; [left; exists z; split; auto; unfold k; lia|].
        right. assert (k = K) as -> by (unfold k; lia). rewrite A4 by (unfold K; lia). rewrite T3 by lia.
        destruct C4 as [->|(m' & C4 & C5)]; [left; reflexivity|right; exists m'; split; [exact C4|split; [right; discriminate|exact C5]]].
      * exists K, (m_start m), e. split; [reflexivity|]. split; [exact LK|]. split; [lia|]. split; [intros [H|H]; [auto|discriminate]|].
        split; [exact C3|]. split; [discriminate|]. right. destruct C4 as [->|(m' & C4 & C5)]; [left; reflexivity|right; exists m'; split; [exact C4|split; [right; discriminate|exact C5]]].
Qed.

(** ** Placing *)
Lemma slice_spec {A} (l : list A) a b : 0 <= a <= b -> b <= zlen l -> py_slice l (Some a) (Some b) = firstn (Z.to_nat (b - a)) (skipn (Z.to_nat a) l).
Proof.
  intros [H1 H2] H3. unfold py_slice, py_clip. destruct (Z.ltb_spec a 0); [lia|]. destruct (Z.ltb_spec b 0); [lia|].
  now rewrite !Z.min_l by lia.
Qed.
Lemma from_eq input b : 0 <= b -> from input b = skipn (Z.to_nat b) input.
Proof. apply rest_eq. Qed.
Lemma from_len input b : 0 <= b -> zlen (from input b) = Z.max 0 (zlen input - b).
Proof. intro H. rewrite from_eq by exact H. unfold zlen, pstr. rewrite skipn_length. unfold char in *. lia. Qed.
Lemma from_slice input b i j : 0 <= b -> 0 <= i <= j -> j <= zlen (from input b) ->
  py_slice (from input b) (Some i) (Some j) = py_slice input (Some (i + b)) (Some (j + b)).
Proof.
  intros B I J. rewrite slice_spec by lia. rewrite from_len in J by exact B. destruct (Z.le_gt_cases b (zlen input)) as [L|L].
  - rewrite slice_spec by lia. rewrite from_eq by exact B. rewrite skipn_skipn'. f_equal; [lia|]. f_equal. lia.
  - rewrite from_eq by exact B. assert (j = 0 /\ i = 0) as [-> ->] by lia. simpl.
    unfold py_slice, py_clip. destruct (Z.ltb_spec b 0); [lia|]. now rewrite Z.sub_diag.
Qed.
Lemma from_same input b : 0 <= b -> from input b = input -> b = 0 \/ input = [].
Proof.
  intros B H. pose proof (from_len input B) as L. rewrite H in L. destruct input; [auto|]. left. rewrite zlen_cons in L.
  pose proof (zlen_nonneg input). lia.
Qed.

Lemma shift_span input off m :
  m_span (shift input off m) = (if option_eqb pstr_eqb (m_input m) (Some input) then m_span m else (m_start m + off, m_end m + off)).
Proof. destruct m; unfold m_span; simpl. now destruct (option_eqb _ _ _). Qed.

Lemma placed_shift input b m : 0 <= b -> located (from input b) m ->
  placed input b m (shift input b m) /\ m_parent (shift input b m) = None /\ m_rawstart (shift input b m) = None /\ m_rawend (shift input b m) = None.
Proof.
  intros B (I & S & E & P & L1 & L2).
  assert (m_span (shift input b m) = (m_start m + b, m_end m + b)) as SP.
  { rewrite shift_span, I. simpl. destruct (pstr_eqb _ _) eqn:Q; [|reflexivity]. apply (list_eqb_spec _ N.eqb_eq) in Q.
    destruct (from_same B Q) as [-> | ->]; [unfold m_span; f_equal; lia|]. rewrite Q in L2. change (zlen (@nil N)) with 0 in L2. lia. }
  assert (m_rawstart (shift input b m) = None /\ m_rawend (shift input b m) = None /\ m_input (shift input b m) = Some input
          /\ m_index (shift input b m) = m_index m /\ m_parent (shift input b m) = None) as (R1 & R2 & R3 & R4 & R5).
  { destruct m; simpl in *; subst. auto. }
  split; [|auto]. split; [exact SP|]. split; [exact R3|]. split; [|exact R4].
  unfold m_raw, raw_start, raw_end. rewrite R1, R2, R3, S, E, I.
  assert (input <> []) as N1. { intros ->. rewrite from_len in L2 by exact B. change (zlen (@nil N)) with 0 in L2. lia. }
  assert (from input b <> []) as N2. { intros Q. rewrite Q in L2. change (zlen (@nil N)) with 0 in L2. lia. }
  rewrite from_slice by lia. injection SP as -> ->. destruct (from input b); [congruence|]. destruct input; [congruence|]. reflexivity.
Qed.

(** ** Counting *)
Lemma fold_max_seq (l : list mtch) : forall a z, map m_index l = seq a (length l) -> z < Z.of_nat a ->
  fold_left (fun z m => Z.max z (Z.of_nat (m_index m))) l z = match l with [] => z | _ => Z.of_nat (a + length l) - 1 end.
Proof.
  induction l as [|m l IH]; intros a z H L; [reflexivity|]. simpl in H. injection H as H1 H2. cbn [fold_left].
  rewrite (IH (S a)) by (auto; lia). destruct l; cbn [length]; lia.
Qed.
Lemma validate_count rstart raws k : map m_index raws = seq 0 (length raws) -> (k <= length raws)%nat ->
  validate_repeater rstart (firstn k raws) = true -> rstart <= Z.of_nat k.
Proof.
  intros H L V. unfold validate_repeater in V. rewrite negb_true_iff, Z.ltb_ge in V.
  rewrite (@fold_max_seq (firstn k raws) 0 (-1)) in V.
  - rewrite firstn_length_le in V by exact L. destruct (firstn k raws) eqn:E; [|lia].
    apply (f_equal (@length _)) in E. rewrite firstn_length_le in E by exact L. simpl in E. lia.
  - rewrite firstn_length_le by exact L. rewrite <- firstn_map, H, firstn_seq. f_equal. lia.
  - lia.
Qed.

(** ** One part *)
Definition last_end (d : Z) (l : list mtch) : Z := match rev l with x :: _ => m_end x | [] => d end.
Lemma last_end_cons d m l : last_end d (m :: l) = last_end (m_end m) l.
Proof.
  unfold last_end. simpl. destruct (rev l) eqn:E; reflexivity.
Qed.
Lemma tile_last : forall l a e, tile a l e -> last_end a l = e.
Proof. induction l as [|m l IH]; intros a e T; [exact T|]. destruct T as [_ T]. rewrite last_end_cons. now apply IH. Qed.

Section Attempt.
  Variable breaker : option (list mtch -> bool).
  Variable input : pstr.

  Lemma next_groups_single hidden vis : StronglySorted Nat.lt (map m_index vis) -> forall raws st st',
    Forall (fun r => m_rawend r = None) raws ->
    next_groups breaker hidden input (map (fun m => (m_index m, [m])) vis) (map (fun m => (m_index m, [m])) raws) st = Ok st' ->
    exists added sub, cs_current st' = cs_current st ++ added /\ (hidden = true -> added = [])
      /\ subseq sub raws /\ Forall2 (fun v r => In v vis /\ m_index v = m_index r) added sub
      /\ cs_next st' = cs_next st /\ cs_offset st' = last_end (cs_offset st) raws
      /\ (raws = [] -> st' = st)
      /\ (raws <> [] -> cs_found st' = true /\ cs_text st' = from input (cs_offset st')).
  Proof.
    intros SV. induction raws as [|r raws IH]; intros st st' F H.
    - cbn [map next_groups] in H. injection H as <-. exists [], []. rewrite app_nil_r. repeat split; auto; try constructor; congruence.
    - cbn [map next_groups rev app] in H. inversion F as [|? ? F1 F2]; subst.
      assert (raw_end r = m_end r) as Er by (unfold raw_end; now rewrite F1). rewrite Er in H.
      set (gm := match dfind (map (fun m => (m_index m, [m])) vis) (m_index r) with Some l => l | None => [] end) in *.
      assert (exists cur add, next_groups breaker hidden input (map (fun m => (m_index m, [m])) vis) (map (fun m => (m_index m, [m])) raws)
                (CState (cs_next st) true (py_slice input (Some (m_end r)) None) (m_end r) cur) = Ok st' /\ cur = cs_current st ++ add
                /\ (hidden = true -> add = []) /\ (add = [] \/ add = gm)) as (cur & add & H1 & H2 & H3 & H4).
      { destruct hidden.
        - exists (cs_current st), []. rewrite app_nil_r. auto.
        - destruct (breaker_allows _ _) as [[]|]; [| |discriminate].
          + exists (cs_current st ++ gm), gm. split; [exact H|]. split; [reflexivity|]. split; [discriminate|auto].
          + exists (cs_current st), []. rewrite app_nil_r. split; [exact H|]. split; [reflexivity|]. split; [discriminate|auto]. }
      destruct (IH _ _ F2 H1) as (added & sub & I1 & I2 & I3 & I4 & I5 & I6 & I7 & I8). cbn [cs_current cs_next cs_offset cs_found cs_text] in *.
      assert (exists s1, subseq s1 [r] /\ Forall2 (fun v r => In v vis /\ m_index v = m_index r) add s1) as (s1 & S1 & S2).
      { destruct H4 as [-> | ->]; [exists []; split; [apply subseq_nil|constructor]|]. unfold gm.
        clear - SV. induction vis as [|v l IHl]; cbn [map dfind]; [exists []; split; [apply subseq_nil|constructor]|].
        destruct (eqb (m_index r) (m_index v)) eqn:E.
        - exists [r]. split; [apply subseq_refl|]. apply eqb_eq in E. constructor; [|constructor]. split; [now left|auto].
        - simpl in SV. inversion SV; subst. destruct (IHl H1) as (s1 & A & B). exists s1. split; auto.
          clear - B. induction B; constructor; auto. destruct H; split; auto. now right. }
      exists (add ++ added), (s1 ++ sub). rewrite I1, H2, <- app_assoc. split; [reflexivity|].
      split; [intro h; rewrite H3, I2 by exact h; reflexivity|].
      split; [change (r :: raws) with ([r] ++ raws); now apply subseq_app|]. split; [now apply Forall2_app|].
      split; [exact I5|]. split; [rewrite last_end_cons; exact I6|]. split; [discriminate|]. intros _.
      destruct raws as [|r2 raws]; [|apply I8; discriminate]. rewrite I7 by reflexivity. auto.
  Qed.

  Lemma tile_shift b : forall l l' a e, Forall2 (placed input b) l l' -> tile a l e -> tile (a + b) l' (e + b).
  Proof.
    intros l l' a e F. revert a e. induction F as [|x y l l' P F IH]; intros a e T; simpl in *; [lia|].
    destruct T as [<- T]. destruct P as (P & _). unfold m_span in P. injection P as P1 P2. split; [exact P1|]. rewrite P2. now apply IH.
  Qed.

  Lemma Forall2_firstn {A B} (R : A -> B -> Prop) l r k : Forall2 R l r -> Forall2 R (firstn k l) (firstn k r).
  Proof. intro H. revert k. induction H; intros [|k]; simpl; constructor; auto. Qed.
  Lemma Forall2_map_r {A B} (R : A -> B -> Prop) (f : A -> B) l : Forall (fun x => R x (f x)) l -> Forall2 R l (map f l).
  Proof. induction 1; simpl; constructor; auto. Qed.

  (** the visible ones keep increasing numbers *)
  Lemma subseq_filter {A} (f : A -> bool) l : subseq (filter f l) l.
  Proof. induction l as [|x l IH]; simpl; [constructor|]. destruct (f x); constructor; auto. Qed.
  Lemma contiguous_subseq t : forall r m, subseq (contiguous t m r) (m :: r).
  Proof.
    induction r as [|m' r IH]; intro m; cbn [contiguous]; [apply subseq_refl|]. destruct (separated _ _ _).
    - apply sub_take, subseq_nil.
    - apply sub_take, IH.
  Qed.
  Lemma truncate_subseq first rend ms t : subseq (truncate_repeater first rend ms t) ms.
  Proof.
    destruct ms as [|m r]; cbn [truncate_repeater]; [constructor|]. destruct (_ && _); [apply subseq_nil|]. cbv zeta. destruct rend.
    - eapply subseq_trans; [apply subseq_filter|apply contiguous_subseq].
    - apply contiguous_subseq.
  Qed.
  Lemma shift_index off m : m_index (shift input off m) = m_index m.
  Proof. now destruct m. Qed.

  Lemma NoDup_index_inj (l : list mtch) x y : map m_index l = seq 0 (length l) -> In x l -> In y l -> m_index x = m_index y -> x = y.
  Proof.
    intros H Hx Hy E. apply In_nth_error in Hx as (i & Hi). apply In_nth_error in Hy as (j & Hj).
    assert (forall k z, nth_error l k = Some z -> m_index z = k) as X.
    { intros k z Hk. apply (map_nth_error m_index) in Hk as K. rewrite H in K. 
      assert (k < length l)%nat as Lk by (apply nth_error_Some; congruence).
      assert (nth_error (seq 0 (length l)) k = Some k) as K2; [|congruence]. 
      rewrite (nth_error_nth' _ 0%nat) by (rewrite seq_length; exact Lk). now rewrite seq_nth. }
    apply X in Hi as A. apply X in Hj as B. assert (i = j) by congruence. subst j. congruence.
  Qed.

  Definition root (v : mtch) : Prop := m_parent v = None /\ m_rawend v = None /\ Forall (fun c => m_parent c <> None) (m_children v).
  Lemma shift_root b v : m_parent v = None -> m_rawend v = None -> Forall (fun c => m_parent c <> None) (m_children v) -> root (shift input b v).
  Proof.
    intros P R F. destruct v; simpl in *; subst. unfold root; simpl. split; [reflexivity|]. split; [reflexivity|].
    rewrite Forall_forall in *. intros c Hc. apply in_map_iff in Hc as (c0 & <- & Hc). specialize (F _ Hc). destruct c0 as [? ? ? ? ? ? ? ? ? ? ? ? ? ? ? [|] ?]; simpl in *; congruence.
  Qed.

  Lemma part_step first cp st n' ms raws st' : ordinary cp -> 0 <= cs_offset st -> cs_text st = from input (cs_offset st) ->
    part_matches first cp (cs_next st) (cs_text st) = Ok (n', (ms, raws)) ->
    to_next_part breaker cp input ms raws (CState n' (cs_found st) (cs_text st) (cs_offset st) (cs_current st)) = Ok st' ->
    exists pieces e added, repeats input first cp (cs_offset st) pieces e /\ cs_current st' = cs_current st ++ added
      /\ among added (if cp_hidden cp then [] else pieces) /\ cs_offset st' = e /\ cs_text st' = from input e
      /\ Forall root added
      /\ (pieces <> [] -> cs_found st' = true) /\ (pieces = [] -> cs_found st' = cs_found st).
  Proof.
    intros O B T H H1. apply part_matches_ok in H as (ms0 & raws0 & E & -> & -> & V).
    pose proof (proj1 O _ _ _ _ _ E) as [[L1 L2] Or Ix (sub & Sub & Ag) Fm].
    destruct (@truncate_run first (cp_end cp) raws0 (cs_text st) L2 Or Ix) as (k & a & e & K1 & K2 & K3 & K4 & K5 & K6 & K7).
    unfold to_next_part in H1. cbn [cs_offset] in H1. rewrite K1 in H1, V. set (b := cs_offset st) in *. rewrite T in *.
    set (vis0 := truncate_repeater first (cp_end cp) ms0 (from input b)) in *.
    set (vis := map (shift input b) vis0) in *. set (pieces := map (shift input b) (firstn k raws0)) in *.
    assert (StronglySorted Nat.lt (map m_index raws0)) as SR by (rewrite Ix; apply seq_sorted).
    assert (map m_index vis0 = map m_index vis) as EV by (unfold vis; rewrite map_map; apply map_ext; intro; now rewrite shift_index).
    assert (StronglySorted Nat.lt (map m_index vis)) as SV.
    { rewrite <- EV. apply subseq_sorted with (r := map m_index ms0); [apply subseq_map, truncate_subseq|].
      assert (map m_index ms0 = map m_index sub) as ->; [|apply subseq_sorted with (r := map m_index raws0); auto using subseq_map].
      clear - Ag. induction Ag as [|x y l l' [_ E] _ IH]; simpl; congruence. }
    assert (map m_index pieces = seq 0 k) as IP.
    { unfold pieces. rewrite map_map, (map_ext _ m_index) by (intro; apply shift_index). rewrite <- firstn_map, Ix, firstn_seq. f_equal. lia. }
    rewrite !group_by_index_single in H1; auto; [|rewrite IP; apply seq_sorted].
    assert (Forall (located (from input b)) (firstn k raws0)) as L3.
    { rewrite Forall_forall in *. intros x Hx. apply L2. eapply subseq_In; [apply subseq_firstn|exact Hx]. }
    assert (Forall2 (placed input b) (firstn k raws0) pieces) as PL.
    { apply Forall2_map_r. eapply Forall_impl; [|exact L3]. intros x Hx. apply placed_shift; auto. }
    assert (length pieces = k) as LP by (unfold pieces; rewrite map_length, firstn_length_le; auto).
    apply next_groups_single in H1 as (added & sb & J1 & J2 & J3 & J4 & J5 & J6 & J7 & J8); auto.
    2:{ unfold pieces. apply Forall_forall. intros x Hx. apply in_map_iff in Hx as (y & <- & Hy). rewrite Forall_forall in L3. now apply placed_shift; auto. }
    cbn [cs_current cs_offset cs_found cs_text cs_next] in *.
    assert (tile (a + b) pieces (e + b)) as TI by (eapply tile_shift; eauto).
    assert (cs_offset st' = e + b) as EO.
    { rewrite J6. destruct pieces as [|q l] eqn:Ep; [|rewrite last_end_cons; apply tile_last; apply TI].
      simpl in TI. unfold last_end. simpl. simpl in LP. rewrite K4 in TI by (right; congruence). lia. }
    exists pieces, (e + b), added. split; [|split; [exact J1|split; [|split; [exact EO|split; [|split; [|split]]]]]].
    - constructor.
      + exists (cs_next st), n', ms0, raws0. rewrite LP. split; [exact E|]. split; [exact PL|].
        assert ((first = false \/ k <> 0%nat) -> first = false \/ pieces <> []) as FP.
        { intros [X|X]; [auto|right]. intro Y. rewrite Y in LP. simpl in LP. congruence. }
        split; [intros z Hz Lz|intros Hz]; (destruct K7 as [(z' & Y1 & Y2)|[Y|(m & Y1 & Y2 & Y3)]]; [exfalso|now left|right]).
        * assert (z' = z) by congruence. lia.
        * exists m. split; [exact Y1|]. split; [auto|lia].
        * congruence.
        * exists m. split; [exact Y1|]. split; [auto|lia].
      + exists (a + b). split; [lia|]. split; [|exact TI]. intros [X|X]; rewrite K4; auto; try lia. right. rewrite X in LP. simpl in LP. congruence.
      + rewrite LP. eapply validate_count; eauto.
      + intros z Hz. rewrite LP. auto.
    - destruct (cp_hidden cp).
      { rewrite J2 by reflexivity. exists []. split; constructor. }
      exists sb. split; [exact J3|]. 
      assert (forall v r, In v vis -> In r pieces -> m_index v = m_index r -> shows v r) as X.
      { intros v r Hv Hr I. unfold vis in Hv. apply in_map_iff in Hv as (v0 & <- & Hv). unfold pieces in Hr. apply in_map_iff in Hr as (r0 & <- & Hr).
        rewrite !shift_index in I. apply truncate_In in Hv.
        assert (In r0 raws0) as Hr' by (eapply subseq_In; [apply subseq_firstn|exact Hr]).
        assert (exists r1, In r1 raws0 /\ agrees v0 r1) as (r1 & Hr1 & A1 & A2).
        { clear - Ag Sub Hv. assert (exists r1, In r1 sub /\ agrees v0 r1) as (r1 & X & Y).
          { induction Ag; [contradiction|]. destruct Hv as [->|Hv]; [exists y; split; [now left|auto]|]. 
            clear - Ag Hv. induction Ag; [contradiction|]. destruct Hv as [->|Hv]; [exists y0; split; [right; now left|auto]|].
            destruct (IHAg Hv) as (r1 & [A|A] & C); exists r1; [subst; split; [now left|auto]|split; [right; now right|auto]]. }
          exists r1. split; auto. eapply subseq_In; eauto. }
        assert (r1 = r0) as -> by (apply (NoDup_index_inj Ix); auto; congruence).
        rewrite Forall_forall in L1. destruct (@placed_shift input b v0 B (L1 _ Hv)) as ((P1 & P2 & P3 & P4) & _).
        rewrite Forall_forall in L2. destruct (@placed_shift input b r0 B (L2 _ Hr')) as ((Q1 & Q2 & Q3 & Q4) & _).
        unfold m_span in A1. injection A1 as A3 A4. unfold shows. rewrite P1, Q1, P2, Q2, P4, Q4, P3, Q3, A3, A4. repeat split; auto.
        destruct (L1 _ Hv) as (U1 & U2 & U3 & _). destruct (L2 _ Hr') as (W1 & W2 & W3 & _).
        unfold m_raw, raw_start, raw_end. rewrite U1, U2, U3, W1, W2, W3, A3, A4. reflexivity. }
      assert (Forall (fun r => In r pieces) sb) as Y. { apply Forall_forall. intros r Hr. eapply subseq_In; eauto. }
      clear - J4 X Y. induction J4 as [|v r l l' [A1 A2] F IH]; constructor; inversion Y; subst; auto.
    - destruct pieces as [|q l] eqn:Ep.
      + rewrite J7 by reflexivity. simpl. rewrite <- EO, J7 by reflexivity. reflexivity.
      + rewrite <- EO. apply J8. discriminate.
    - assert (Forall root vis) as RV.
      { unfold vis. apply Forall_forall. intros x Hx. apply in_map_iff in Hx as (y & <- & Hy). apply truncate_In in Hy. rewrite Forall_forall in L1, Fm.
        destruct (L1 _ Hy) as (_ & _ & X1 & X2 & _). apply shift_root; auto. }
      clear - J4 RV. rewrite Forall_forall in RV. induction J4 as [|v r l l' [A1 A2] F IH]; constructor; auto.
    - intro N. now apply J8.
    - intro N. now rewrite J7.
  Qed.

  Lemma among_app a b c d : among a b -> among c d -> among (a ++ c) (b ++ d).
  Proof. intros (s1 & A & B) (s2 & C & D). exists (s1 ++ s2). split; [now apply subseq_app|now apply Forall2_app]. Qed.
  Lemma tile_le : forall l a e, tile a l e -> Forall (fun m => m_start m < m_end m) l -> a <= e.
  Proof. induction l as [|m l IH]; intros a e T F; [simpl in T; lia|]. destruct T as [T1 T]. inversion F; subst. specialize (IH _ _ T). intuition lia. Qed.
  Lemma repeats_nonempty first cp b pieces e : ordinary cp -> repeats input first cp b pieces e -> Forall (fun m => m_start m < m_end m) pieces.
  Proof.
    intros O [(n & n' & ms & raws & E & F & _) _ _ _]. apply (proj1 O) in E as [[_ L] _ _ _ _].
    assert (Forall (located (from input b)) (firstn (length pieces) raws)) as L'.
    { rewrite Forall_forall in *. intros x Hx. apply L. eapply subseq_In; [apply subseq_firstn|exact Hx]. }
    clear - F L'. induction F as [|x y l l' (P & _) F IH]; constructor; inversion L'; subst; auto. unfold m_span in P. injection P as -> ->.
    destruct H1 as (_ & _ & _ & _ & H1 & _). lia.
  Qed.
  Lemma repeats_le first cp b pieces e : ordinary cp -> repeats input first cp b pieces e -> b <= e.
  Proof.
    intros O R. pose proof (repeats_nonempty O R). destruct R as [_ (a & A & _ & T) _ _]. pose proof (tile_le T H). lia.
  Qed.

  (** a valid attempt *)
  Lemma run_parts_laid : forall parts first st st', Forall ordinary parts -> 0 <= cs_offset st -> cs_text st = from input (cs_offset st) ->
    run_parts breaker input first parts st = Ok (st', true) ->
    exists pieces added, laid input first parts (cs_offset st) pieces (cs_offset st') /\ cs_current st' = cs_current st ++ added
      /\ among added (shown parts pieces) /\ cs_text st' = from input (cs_offset st') /\ Forall root added.
  Proof.
    induction parts as [|cp r IH]; intros first st st' O B T H; cbn [run_parts] in H.
    - injection H as <-. exists [], []. rewrite app_nil_r. repeat split; auto; try constructor. exists []. split; constructor.
    - inversion O as [|? ? O1 O2]; subst. destruct (part_matches first cp (cs_next st) (cs_text st)) as [[n' [ms raws]]|x] eqn:E.
      + destruct (to_next_part _ _ _ _ _ _) as [st1|] eqn:E1; [|discriminate].
        destruct (@part_step first cp st n' ms raws st1 O1 B T E E1) as (pieces & e & added & P1 & P2 & P3 & P4 & P5 & P6 & _).
        pose proof (repeats_le O1 P1) as Le. subst e.
        destruct (IH false st1 st' O2) as (rest & added' & Q1 & Q2 & Q3 & Q4 & Q5); auto; [lia|].
        exists (pieces :: rest), (added ++ added'). split; [econstructor; eauto|]. split; [rewrite Q2, P2; now rewrite app_assoc|].
        split; [cbn [shown]; now apply among_app|]. split; [exact Q4|]. apply Forall_app. auto.
      + destruct x; discriminate.
  Qed.

  (** an optional part cannot fail *)
  Lemma optional_step first cp n t x : optional cp -> part_matches first cp n t = Err x -> cp_match cp n t = Err x.
  Proof.
    intros O H. unfold part_matches in H. destruct (cp_match cp n t) as [[n' [ms raws]]|]; [|exact H].
    unfold validate_repeater in H. set (l := truncate_repeater _ _ raws _) in *. unfold optional in O.
    assert (forall l a, a <= fold_left (fun a m => Z.max a (Z.of_nat (m_index m))) l a) as M.
    { clear. induction l as [|m l IH]; intro a; simpl; [lia|]. specialize (IH (Z.max a (Z.of_nat (m_index m)))). lia. }
    specialize (M l (-1)). destruct (Z.ltb_spec (fold_left (fun a m => Z.max a (Z.of_nat (m_index m))) l (-1) + 1) (cp_start cp)); [lia|discriminate].
  Qed.

  Lemma run_parts_optional : forall parts first st st', Forall ordinary parts -> Forall optional parts ->
    run_parts breaker input first parts st <> Ok (st', false).
  Proof.
    induction parts as [|cp r IH]; intros first st st' O P; cbn [run_parts]; [discriminate|].
    inversion O as [|? ? O1 O2]; subst. inversion P as [|? ? P1 P2]; subst.
    destruct (part_matches _ _ _ _) as [[n' [ms raws]]|x] eqn:E.
    - destruct (to_next_part _ _ _ _ _ _); [now apply IH|discriminate].
    - apply (optional_step P1) in E. destruct O1 as [_ O1]. specialize (O1 (cs_next st) (cs_text st)). destruct x; congruence.
  Qed.

  (** after a failed attempt the rest of the text is still the one at the offset *)
  Lemma run_parts_failed parts st st' : Forall ordinary parts -> steady parts -> 0 <= cs_offset st -> cs_text st = from input (cs_offset st) ->
    cs_current st = [] -> run_parts breaker input true parts st = Ok (st', false) ->
    0 <= cs_offset st' /\ cs_text st' = from input (cs_offset st').
  Proof.
    intros O S B T C H. destruct parts as [|p r]; cbn [run_parts] in H; [discriminate|].
    inversion O as [|? ? O1 O2]; subst. destruct (part_matches true p (cs_next st) (cs_text st)) as [[n' [ms raws]]|x] eqn:E.
    - destruct (to_next_part _ _ _ _ _ _) as [st1|] eqn:E1; [|discriminate].
      destruct (@part_step true p st n' ms raws st1 O1 B T E E1) as (pieces & e & added & P1 & P2 & P3 & P4 & P5 & P6 & _).
      clear E E1. pose proof (repeats_le O1 P1) as Le. destruct r as [|q r]; [discriminate|]. cbn [run_parts] in H. destruct S as [S1 S2].
      inversion O2 as [|? ? O3 O4]; subst.
      destruct (part_matches false q (cs_next st1) (cs_text st1)) as [[n2 [ms2 raws2]]|x] eqn:E2.
      + destruct (to_next_part _ _ _ _ _ _) as [st2|] eqn:E3; [|discriminate]. exfalso. exact (run_parts_optional O4 S1 H).
      + destruct S2 as [S2|S2].
        { exfalso. apply (optional_step S2) in E2. destruct O3 as [_ O3]. specialize (O3 (cs_next st1) (cs_text st1)). destruct x; congruence. }
        destruct x; try discriminate. injection H as <-. rewrite C in P2. simpl in P2. rewrite P2. destruct added as [|v added]; [split; [lia|auto]|].
        destruct P3 as (sub & Q1 & Q2). destruct S2 as [Hd|(k & S2 & Sk)].
        { rewrite Hd in Q1. inversion Q1; subst. inversion Q2. }
        assert (subseq sub pieces) as Q1' by (destruct (cp_hidden p); [inversion Q1; subst; inversion Q2|exact Q1]). clear Q1. rename Q1' into Q1. assert (length pieces <= 1)%nat as L1 by (pose proof (rp_max P1 S2); lia).
        inversion Q2 as [|? w ? ? (W1 & _) Q3]; subst.
        destruct pieces as [|x [|y l]]; [inversion Q1| |simpl in L1; lia].
        assert (w = x) as ->. { destruct (@subseq_In _ _ _ w Q1 (or_introl eq_refl)) as [<-|[]]. reflexivity. }
        destruct (rp_tile P1) as (a & _ & _ & T1 & T2). simpl in T2. inversion P6 as [|? ? (_ & R1 & _) _]; subst. cbn [cs_offset cs_text].
        unfold raw_end. rewrite R1. unfold m_span in W1. injection W1 as _ ->. rewrite T2. split; [lia|auto].
    - destruct x; try discriminate. injection H as <-. rewrite C. auto.
  Qed.
End Attempt.

(** ** The chain match *)
Lemma fold_min_sorted : forall r (m : mtch), Forall (fun x => m_start m <= m_start x) r -> fold_left (fun a x => Z.min a (m_start x)) r (m_start m) = m_start m.
Proof.
  induction r as [|x r IH]; intros m F; cbn [fold_left]; [reflexivity|]. inversion F; subst. rewrite Z.min_l by lia. now apply IH.
Qed.
Lemma fold_max_sorted : forall r (m : mtch) z, StronglySorted (fun a b => m_end a <= m_start b) r -> Forall (fun x => m_start x < m_end x) r ->
  Forall (fun x => z <= m_start x) r -> fold_left (fun a x => Z.max a (m_end x)) r z = last_end z r.
Proof.
  induction r as [|x r IH]; intros m z S F G; cbn [fold_left]; [reflexivity|]. inversion F; inversion G; inversion S; subst.
  rewrite last_end_cons. rewrite Z.max_r by lia. now apply IH.
Qed.

Definition precedes (a b : mtch) : Prop := m_end a <= m_start b.
Lemma tile_sorted : forall l a e, tile a l e -> Forall (fun m => m_start m < m_end m) l ->
  StronglySorted precedes l /\ Forall (fun m => a <= m_start m /\ m_end m <= e) l.
Proof.
  induction l as [|m l IH]; intros a e T F; [split; constructor|]. destruct T as [T1 T2]. inversion F as [|? ? F1 F2]; subst.
  destruct (IH _ _ T2 F2) as [I1 I2]. pose proof (tile_le T2 F2) as Le. split.
  - constructor; auto. eapply Forall_impl; [|exact I2]. unfold precedes. intros x [? ?]. auto.
  - constructor; [lia|]. eapply Forall_impl; [|exact I2]. simpl. intros x [? ?]. lia.
Qed.
Lemma sorted_app {A} (R : A -> A -> Prop) l r : StronglySorted R l -> StronglySorted R r -> (forall x y, In x l -> In y r -> R x y) -> StronglySorted R (l ++ r).
Proof.
  induction 1 as [|x l S IH F]; simpl; intros Sr H; auto. constructor; [apply IH; auto|]. apply Forall_app. split; auto.
  apply Forall_forall. auto.
Qed.
Lemma laid_sorted input first parts b pieces e : Forall ordinary parts -> laid input first parts b pieces e ->
  b <= e /\ StronglySorted precedes (concat pieces) /\ Forall (fun m => b <= m_start m < m_end m /\ m_end m <= e) (concat pieces).
Proof.
  intros O H. induction H as [|first cp parts b pieces e' rest e R L IH]; [split; [lia|]; split; constructor|].
  inversion O as [|? ? O1 O2]; subst. destruct (IH O2) as (I1 & I2 & I3). pose proof (repeats_le O1 R) as Le.
  pose proof (repeats_nonempty O1 R) as N. destruct (rp_tile R) as (a & A1 & _ & T). destruct (tile_sorted T N) as [T1 T2].
  split; [lia|]. simpl. rewrite Forall_forall in *. split.
  - apply sorted_app; auto. intros x y Hx Hy. destruct (T2 x Hx). destruct (I3 y Hy). unfold precedes. lia.
  - intros x Hx. apply in_app_iff in Hx as [Hx|Hx]; [destruct (T2 x Hx); specialize (N x Hx); lia|destruct (I3 x Hx); lia].
Qed.
Lemma shown_subseq : forall parts pieces, subseq (shown parts pieces) (concat pieces).
Proof.
  induction parts as [|cp ps IH]; intros [|l ls]; simpl; try apply subseq_nil. apply subseq_app; auto. destruct (cp_hidden cp); [apply subseq_nil|apply subseq_refl].
Qed.
Lemma among_sorted vs pieces : among vs pieces -> StronglySorted precedes pieces -> Forall (fun m => m_start m < m_end m) pieces ->
  StronglySorted precedes vs /\ Forall (fun m => m_start m < m_end m) vs.
Proof.
  intros (sub & S & F) H N. apply (subseq_sorted S) in H. 
  assert (Forall (fun m => m_start m < m_end m) sub) as N' by (rewrite Forall_forall in *; intros x Hx; apply N; eapply subseq_In; eauto).
  clear S N. induction F as [|v w vs sub (E & _) F IH]; [split; constructor|]. inversion H as [|? ? H1 H2]; subst. inversion N' as [|? ? N1 N2]; subst.
  destruct (IH H1 N2) as [I1 I2]. unfold m_span in E. injection E as E1 E2. split; constructor; auto; [|lia].
  clear - F H2 E2. induction F as [|x y l r (E & _) F IH]; constructor; inversion H2; subst; auto.
  unfold precedes in *. unfold m_span in E. injection E as E3 E4. lia.
Qed.

Lemma append_all_ok : forall add cs r, append_all cs add = Ok r -> r = cs ++ add.
Proof.
  induction add as [|c add IH]; intros cs r H; simpl in H; [injection H as <-; now rewrite app_nil_r|].
  unfold append_child in H. destruct (m_marker c); [discriminate|]. apply IH in H. now rewrite <- app_assoc in H.
Qed.
Lemma set_parent_children m q : m_children (set_parent m q) = m_children m. Proof. now destruct m. Qed.
Lemma chain_children_ok main : forall cur cs r, Forall root cur -> Forall (fun c => m_parent c <> None) cs -> chain_children main cur cs = Ok r ->
  r = cs ++ flat_map (fun v => m_children v ++ [set_parent v (Some (shell main))]) cur.
Proof.
  induction cur as [|v cur IH]; intros cs r F C H; cbn [chain_children] in H; [injection H as <-; simpl; now rewrite app_nil_r|].
  inversion F as [|? ? (F1 & F2 & F3) F4]; subst. destruct (append_all _ _) as [cs1|] eqn:E; [|discriminate]. apply append_all_ok in E. subst cs1.
  assert (Forall (fun c => m_parent c <> None) (cs ++ m_children v)) as C1 by (apply Forall_app; auto).
  assert (mem meq v (cs ++ m_children v) = false) as M.
  { unfold mem. apply existsb_false_iff. intros x Hx. rewrite Forall_forall in C1. specialize (C1 x Hx). rewrite meq_unfold, F1.
    destruct (m_parent x); [|congruence]. now rewrite andb_false_r. }
  rewrite M in H. unfold append_child in H. destruct (m_marker _); [discriminate|]. apply IH in H; auto.
  - rewrite H. simpl. now rewrite !app_assoc.
  - apply Forall_app. split; auto. constructor; [|constructor]. destruct v; simpl. discriminate.
Qed.
Lemma relink_children_same m : Forall2 (fun v c => set_parent c None = set_parent v None) (m_children m) (m_children (relink_children m)).
Proof.
  destruct m; unfold relink_children; simpl. generalize (Mtch m_id m_start m_end m_lit m_name m_tags m_marker m_private m_fmt m_solver m_input m_rawstart m_rawend m_index m_pattern m_parent m_children).
  intro q. apply Forall2_map_r. apply Forall_forall. intros x _. unfold relink. now destruct x.
Qed.

Lemma build_composed input p parts id b pieces e vs M : Forall ordinary parts -> 0 <= b -> laid input true parts b pieces e ->
  among vs (shown parts pieces) -> Forall root vs -> build_chain_match p id vs input = Ok M -> composed input parts M.
Proof.
  intros O B L A R H. destruct (laid_sorted O L) as (_ & S1 & S2).
  destruct (@among_sorted vs (shown parts pieces) A) as [S3 S4].
  { eapply subseq_sorted; [apply shown_subseq|exact S1]. }
  { rewrite Forall_forall in *. intros x Hx. apply S2. eapply subseq_In; [apply shown_subseq|exact Hx]. }
  unfold build_chain_match in H. destruct vs as [|f r]; [discriminate|]. cbv zeta in H.
  set (st := fold_left _ r (m_start f)) in H. set (en := fold_left _ r (m_end f)) in H.
  destruct (chain_children _ _ _) as [cs|] eqn:E; [|discriminate]. injection H as <-.
  inversion S3 as [|? ? S5 S6]; subst. inversion S4 as [|? ? S7 S8]; subst.
  assert (st = m_start f) as Est.
  { unfold st. apply fold_min_sorted. rewrite Forall_forall in *. intros x Hx. specialize (S6 x Hx). unfold precedes in S6. lia. }
  assert (en = last_end 0 (f :: r)) as Een.
  { unfold en. rewrite last_end_cons. apply fold_max_sorted; auto. }
  unfold last_end in Een. destruct (rev (f :: r)) as [|l l'] eqn:Er.
  { apply (f_equal (@length _)) in Er. rewrite rev_length in Er. discriminate. }
  exists b, pieces, e, (f :: r), f, l. rewrite Er. split; [exact B|]. split; [exact L|]. split; [exact A|]. split; [reflexivity|]. split; [reflexivity|].
  unfold relink_children at 1 2. split; [unfold m_span; simpl; congruence|]. split; [reflexivity|].
  apply chain_children_ok in E; [|exact R|constructor]. simpl in E.
  match goal with |- Forall2 _ _ (m_children (relink_children ?m)) => pose proof (relink_children_same m) as X; change (m_children m) with cs in X end.
  revert X. rewrite E. generalize (m_children (relink_children (set_children (new_match id st en (filter_match_kwargs (po_kw p) false) (po_id p) input) cs))).
  set (sh := shell _). change (m_children f ++ [set_parent f (Some sh)] ++ flat_map (fun v => m_children v ++ [set_parent v (Some sh)]) r) with (flat_map (fun v => m_children v ++ [set_parent v (Some sh)]) (f :: r)) || idtac.
  intros l0 X.
  assert (forall vs l0, Forall2 (fun v c => set_parent c None = set_parent v None) (flat_map (fun v => m_children v ++ [set_parent v (Some sh)]) vs) l0 ->
     Forall2 (fun v c => set_parent c None = set_parent v None) (flat_map (fun v => m_children v ++ [v]) vs) l0) as Y.
  { clear. induction vs as [|v vs IH]; intros l0 H; [exact H|]. cbn [flat_map] in *. apply Forall2_app_inv_l in H as (l1 & l2 & H1 & H2 & ->).
    apply Forall2_app; auto. apply Forall2_app_inv_l in H1 as (l3 & l4 & H3 & H4 & ->). apply Forall2_app; auto.
    inversion H4 as [|? ? ? ? H5 H6]; subst. inversion H6; subst. constructor; auto. }
  apply Y. exact X.
Qed.

Lemma chain_loop_composed breaker p parts input : Forall ordinary parts -> steady parts -> forall fuel n text offset acc n' ms,
  0 <= offset -> text = from input offset -> Forall (composed input parts) acc ->
  chain_loop fuel p breaker parts input n text offset acc = Ok (n', ms) -> Forall (composed input parts) ms.
Proof.
  intros O S. induction fuel as [|f IH]; intros n text offset acc n' ms B T A H; cbn [chain_loop] in H.
  - destruct (offset <? zlen input); [discriminate|]. now injection H as <- <-.
  - destruct (offset <? zlen input); [|now injection H as <- <-].
    destruct (run_parts _ _ _ _ _) as [[st valid]|x] eqn:R; [|discriminate]. destruct (negb (cs_found st)); [now injection H as <- <-|].
    destruct valid.
    + destruct (@run_parts_laid breaker input parts true (CState n false text offset []) st O B T R) as (pieces & added & R1 & R2 & R3 & R4 & R5). cbn [cs_offset cs_current] in *. simpl in R2. subst added.
      assert (0 <= cs_offset st) as B' by (destruct (laid_sorted O R1); lia).
      destruct (cs_current st) as [|m l] eqn:Ec; [eapply IH; eauto|].
      destruct (build_chain_match _ _ _ _) as [M|] eqn:Eb; [|discriminate]. eapply IH; [| | |exact H]; auto.
      apply Forall_app. split; auto. constructor; [|constructor]. rewrite ?Ec in *. eapply build_composed; [exact O|exact B|exact R1|exact R3|exact R5|exact Eb].
    + destruct (@run_parts_failed breaker input parts (CState n false text offset []) st O S B T eq_refl R) as [R1 R2]. destruct (cs_current st); eapply IH; eauto.
Qed.
