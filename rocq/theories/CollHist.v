(** Histories: the collection refines a plain list and its lookups follow the contents. *)
From Verif Require Import Base BaseFacts Match Spec MatchFacts Coll CollFacts CollQuery CollSem CollSem2 SpecColl.
From Coq Require Import ZifyBool.
Set Implicit Arguments.
Unset Strict Implicit.
Open Scope Z_scope.

(** ** reverse *)
Lemma nth_error_ext' {A} (l r : list A) : (forall n, nth_error l n = nth_error r n) -> l = r.
Proof.
  revert r. induction l as [|x l IH]; intros [|y r] H; try reflexivity.
  - specialize (H O). discriminate.
  - specialize (H O). discriminate.
  - pose proof (H O) as H0. injection H0 as <-. f_equal. apply IH. intro n. exact (H (S n)).
Qed.
Lemma replace_nth_length {A} n (x : A) l : (n < length l)%nat -> length (replace_nth n x l) = length l.
Proof.
  intro H. unfold replace_nth. rewrite app_length. cbn [length]. rewrite firstn_length, skipn_length. lia.
Qed.
Lemma nth_error_replace {A} n (x : A) l j : (n < length l)%nat ->
  nth_error (replace_nth n x l) j = if Nat.eqb j n then Some x else nth_error l j.
Proof.
  intro H. unfold replace_nth. destruct (Nat.eqb_spec j n) as [->|Hne].
  - rewrite nth_error_app2 by (rewrite firstn_length; lia). rewrite firstn_length.
    replace (n - Nat.min n (length l))%nat with O by lia. reflexivity.
  - destruct (Nat.lt_ge_cases j n) as [Hlt|Hge].
    + rewrite nth_error_app1 by (rewrite firstn_length; lia).
      rewrite <- (firstn_skipn n l) at 2. rewrite nth_error_app1 by (rewrite firstn_length; lia). reflexivity.
    + rewrite nth_error_app2 by (rewrite firstn_length; lia). rewrite firstn_length.
      replace (j - Nat.min n (length l))%nat with (S (j - S n)) by lia. cbn [nth_error].
      rewrite <- (firstn_skipn (S n) l) at 2. rewrite nth_error_app2 by (rewrite firstn_length; lia).
      rewrite firstn_length. f_equal. lia.
Qed.
Lemma nth_error_rev {A} (l : list A) j : (j < length l)%nat -> nth_error (rev l) j = nth_error l (length l - 1 - j).
Proof.
  revert j. induction l as [|x l IH]; intros j Hj; [simpl in Hj; lia|]. cbn [rev length] in *.
  destruct (Nat.eq_dec j (length l)) as [->|Hne].
  - rewrite nth_error_app2 by (rewrite rev_length; lia). rewrite rev_length.
    replace (length l - length l)%nat with O by lia. replace (S (length l) - 1 - length l)%nat with O by lia. reflexivity.
  - rewrite nth_error_app1 by (rewrite rev_length; lia). rewrite IH by lia.
    replace (S (length l) - 1 - j)%nat with (S (length l - 1 - j)) by lia. reflexivity.
Qed.
Lemma py_nth_nonneg {A} (l : list A) i : 0 <= i < zlen l -> py_nth l i = nth_error l (Z.to_nat i) /\ py_pos l i = Some (Z.to_nat i).
Proof.
  intro H. unfold py_nth. assert (py_pos l i = Some (Z.to_nat i)) as E.
  { apply py_pos_spec. unfold zlen in *. repeat split; lia. }
  rewrite E. auto.
Qed.

Section Reverse.
  Variable P : mtch -> Prop.
  Hypothesis HP : forall m, P m.

  (** the list after the first [k] swaps *)
  Definition swapped (l : list mtch) (k : nat) (l' : list mtch) : Prop :=
    length l' = length l
    /\ forall j, (j < length l)%nat ->
        nth_error l' j = if (Nat.ltb j k || Nat.leb (length l - k) j) then nth_error l (length l - 1 - j) else nth_error l j.

  Lemma reverse_loop_ok l k : forall i c,
    (i + k)%nat = Nat.div (length l) 2 -> Inv P c -> swapped l i (c_del c) ->
    Forall (fun m => accepts (c_kind c) m = true) l ->
    exists c', reverse_loop (zlen l) (zrange (Z.of_nat i) (Z.of_nat (i + k))) c = (c', Ok tt) /\ Inv P c' /\ same_env c c'
      /\ swapped l (i + k) (c_del c')
      /\ c_maxend c <= c_maxend c' /\ (c_ending c <> None -> c_ending c' <> None).
  Proof.
    induction k as [|k IH]; intros i c Hik HI Hsw HF.
    - rewrite Nat.add_0_r. rewrite zrange_nil by lia. exists c. split; [reflexivity|]. split; [exact HI|].
      split; [apply same_env_refl|]. split; [exact Hsw|]. split; [lia | auto].
    - rewrite zrange_cons by lia. cbn [reverse_loop]. destruct Hsw as [Hlen Hsw].
      assert (2 * (length l / 2) <= length l)%nat as Hdiv by (apply Nat.mul_div_le; lia).
      assert (2 * i + 2 <= length l)%nat as Hi by lia.
      set (q := (length l - 1 - i)%nat).
      assert (i < q)%nat as Hiq by (subst q; lia).
      assert (zlen l - Z.of_nat i - 1 = Z.of_nat q) as -> by (unfold zlen; subst q; lia).
      destruct (@py_nth_nonneg _ (c_del c) (Z.of_nat q)) as [Eq Pq]; [unfold zlen; subst q; lia|].
      destruct (@py_nth_nonneg _ (c_del c) (Z.of_nat i)) as [Ei Pi]; [unfold zlen; lia|].
      rewrite Nat2Z.id in *. rewrite Eq, Ei.
      assert (exists a, nth_error (c_del c) q = Some a /\ nth_error l q = Some a) as (a & Ea & Ela).
      { assert (q < length l)%nat as Hq by (subst q; lia). rewrite (Hsw q Hq).
        replace (Nat.ltb q i || Nat.leb (length l - i) q) with false by (subst q; symmetry; apply orb_false_iff; split; [apply Nat.ltb_ge; lia | apply Nat.leb_gt; lia]).
        destruct (nth_error l q) eqn:E; [eauto|]. apply nth_error_None in E. lia. }
      assert (exists b, nth_error (c_del c) i = Some b /\ nth_error l i = Some b) as (b & Eb & Elb).
      { rewrite (Hsw i) by lia.
        replace (Nat.ltb i i || Nat.leb (length l - i) i) with false by (symmetry; apply orb_false_iff; split; [apply Nat.ltb_ge; lia | apply Nat.leb_gt; lia]).
        destruct (nth_error l i) eqn:E; [eauto|]. apply nth_error_None in E. lia. }
      rewrite Ea, Eb. rewrite Forall_forall in HF.
      assert (accepts (c_kind c) a = true) as Aa by (apply HF; eapply nth_error_In; eauto).
      assert (accepts (c_kind c) b = true) as Ab by (apply HF; eapply nth_error_In; eauto).
      pose proof (setitem_ok (Z.of_nat i) HI Aa) as H1. rewrite Pi in H1.
      destruct H1 as (c1 & E1 & HI1 & He1 & Hd1 & Hm1 & Hn1); [auto|]. rewrite E1.
      assert (length (c_del c1) = length l) as Hlen1 by (rewrite Hd1, replace_nth_length; lia).
      assert (accepts (c_kind c1) b = true) as Ab1 by (destruct He1 as [-> _]; exact Ab).
      pose proof (setitem_ok (Z.of_nat q) HI1 Ab1) as H2.
      destruct (@py_nth_nonneg _ (c_del c1) (Z.of_nat q)) as [_ Pq1]; [unfold zlen; subst q; lia|].
      rewrite Pq1, Nat2Z.id in H2. destruct H2 as (c2 & E2 & HI2 & He2 & Hd2 & Hm2 & Hn2); [auto|]. rewrite E2.
      replace (Z.of_nat i + 1) with (Z.of_nat (S i)) by lia. replace (i + S k)%nat with (S i + k)%nat by lia.
      assert (same_env c c2) as He by (eapply same_env_trans; eauto).
      destruct (IH (S i) c2) as (c' & E' & HI' & He' & Hd' & Hm' & Hn').
      + lia.
      + exact HI2.
      + split; [rewrite Hd2, replace_nth_length; subst q; lia|]. intros j Hj. rewrite Hd2, nth_error_replace by (subst q; lia).
        rewrite Hd1, nth_error_replace by lia. rewrite (Hsw j Hj).
        destruct (Nat.eqb_spec j q) as [->|Hjq]; [|destruct (Nat.eqb_spec j i) as [->|Hji]].
        * replace (Nat.ltb q (S i) || Nat.leb (length l - S i) q) with true.
          { rewrite <- Elb. f_equal. subst q. lia. }
          symmetry. apply orb_true_iff. right. apply Nat.leb_le. subst q; lia.
        * replace (Nat.ltb i (S i)) with true by (symmetry; apply Nat.ltb_lt; lia). simpl. rewrite <- Ela. reflexivity.
        * replace (Nat.ltb j (S i) || Nat.leb (length l - S i) j) with (Nat.ltb j i || Nat.leb (length l - i) j); [reflexivity|].
          apply eq_true_iff_eq. rewrite !orb_true_iff, !Nat.ltb_lt, !Nat.leb_le. subst q; lia.
      + apply Forall_forall. destruct He as [-> _]. exact HF.
      + exists c'. split; [exact E'|]. split; [exact HI'|]. split; [eapply same_env_trans; eauto|].
        split; [exact Hd'|]. split; [lia | auto].
  Qed.

  Lemma reverse_ok c : Inv P c ->
    exists c', reverse c = (c', Ok tt) /\ Inv P c' /\ same_env c c' /\ c_del c' = rev (c_del c)
      /\ c_maxend c <= c_maxend c' /\ (c_ending c <> None -> c_ending c' <> None).
  Proof.
    intro HI. unfold reverse.
    assert (zlen (c_del c) / 2 = Z.of_nat (0 + length (c_del c) / 2)) as -> by (unfold zlen; rewrite Nat.add_0_l, Nat2Z.inj_div; reflexivity).
    destruct (@reverse_loop_ok (c_del c) (length (c_del c) / 2) 0 c) as (c' & E & HI' & He & [Hl Hn] & Hm); auto.
    - split; [reflexivity|]. intros j Hj. replace (Nat.ltb j 0 || Nat.leb (length (c_del c) - 0) j) with false; [reflexivity|].
      symmetry. apply orb_false_iff. split; [apply Nat.ltb_ge; lia | apply Nat.leb_gt; lia].
    - apply HI.
    - exists c'. split; [exact E|]. split; [exact HI'|]. split; [exact He|]. split; [|exact Hm].
      apply nth_error_ext'. intro j. destruct (Nat.lt_ge_cases j (length (c_del c))) as [Hj|Hj].
      + rewrite (Hn j Hj), nth_error_rev by assumption.
        assert (length (c_del c) = 2 * (length (c_del c) / 2) + length (c_del c) mod 2)%nat as Hd by (apply Nat.div_mod; lia).
        assert (length (c_del c) mod 2 < 2)%nat by (apply Nat.mod_upper_bound; lia).
        destruct (Nat.ltb j (0 + length (c_del c) / 2) || Nat.leb (length (c_del c) - (0 + length (c_del c) / 2)) j) eqn:Eb; [reflexivity|].
        apply orb_false_iff in Eb as [B1 B2]. apply Nat.ltb_ge in B1. apply Nat.leb_gt in B2. f_equal. lia.
      + rewrite (proj2 (nth_error_None _ _)), (proj2 (nth_error_None _ _)); [reflexivity | rewrite rev_length | ]; lia.
  Qed.
End Reverse.

(** ** One step *)
Lemma ending_built c i : c_ending (fst (step c (OEnding i))) <> None.
Proof. simpl. discriminate. Qed.

Lemma is_lookup_mutator o : is_lookup o = negb (is_mutator o).
Proof. destruct o; reflexivity. Qed.
Lemma list_step_lookup l o : is_mutator o = false -> list_step l o = (l, RUnit).
Proof. destruct o; simpl; intro H; try discriminate; reflexivity. Qed.

(** the furthest member among those of a slice comes last: the cached maximum is above the others *)
Lemma furthest_below P c i j : Inv P c -> furthest_last (c_del c) (py_slice (c_del c) i j) ->
  Forall (fun x => m_end x < c_maxend c) (removelast (py_slice (c_del c) i j)).
Proof.
  intros (_ & [_ HM] & _) H. apply Forall_forall. intros x Hx. destruct (H x Hx) as (y & Hy & Hlt). specialize (HM y Hy). lia.
Qed.

Lemma step_ok P c o : Inv P c ->
  Forall (fun m => accepts (c_kind c) m = true) (handed o) ->
  (is_assignment o = true -> forall m, P m) ->
  (match o with ODelslice i j => c_ending c <> None \/ Forall (fun x => m_end x < c_maxend c) (removelast (py_slice (c_del c) i j)) | _ => True end) ->
  Inv P (fst (step c o)) /\ same_env c (fst (step c o)) /\ c_del (fst (step c o)) = fst (list_step (c_del c) o)
  /\ (is_mutator o = true -> snd (step c o) = snd (list_step (c_del c) o))
  /\ c_maxend c <= c_maxend (fst (step c o))
  /\ (c_ending c <> None -> c_ending (fst (step c o)) <> None).
Proof.
  intros HI HF HA HS.
  destruct (is_mutator o) eqn:Em.
  2: { assert (is_lookup o = true) as Hl by (rewrite is_lookup_mutator, Em; reflexivity).
       pose proof (lookup_obs c Hl) as Ho. rewrite list_step_lookup by exact Em. simpl.
       split; [eapply obs_Inv; eauto|]. destruct Ho as (O1 & O2 & O3 & _ & _ & _ & _ & _ & O9).
       split; [exact O2|]. split; [exact O1|]. split; [discriminate|]. split; [lia | exact O9]. }
  assert (forall r, (exists c', r = (c', Ok tt) /\ Inv P c' /\ same_env c c' /\ c_del c' = fst (list_step (c_del c) o)
      /\ c_maxend c <= c_maxend c' /\ (c_ending c <> None -> c_ending c' <> None)) ->
      snd (list_step (c_del c) o) = RUnit ->
      Inv P (fst (unit_out r)) /\ same_env c (fst (unit_out r)) /\ c_del (fst (unit_out r)) = fst (list_step (c_del c) o)
      /\ (true = true -> snd (unit_out r) = snd (list_step (c_del c) o))
      /\ c_maxend c <= c_maxend (fst (unit_out r)) /\ (c_ending c <> None -> c_ending (fst (unit_out r)) <> None)) as G.
  { intros r (c' & -> & H1 & H2 & H3 & H4 & H5) Hu. unfold unit_out. cbn [fst snd]. rewrite Hu. auto 10. }
  assert (forall e, snd (list_step (c_del c) o) = RErr e -> fst (list_step (c_del c) o) = c_del c -> forall r, r = (c, Err e) ->
      Inv P (fst (unit_out r)) /\ same_env c (fst (unit_out r)) /\ c_del (fst (unit_out r)) = fst (list_step (c_del c) o)
      /\ (true = true -> snd (unit_out r) = snd (list_step (c_del c) o))
      /\ c_maxend c <= c_maxend (fst (unit_out r)) /\ (c_ending c <> None -> c_ending (fst (unit_out r)) <> None)) as GE.
  { intros e He Hf r ->. unfold unit_out. cbn [fst snd]. rewrite He, Hf.
    split; [exact HI|]. split; [apply same_env_refl|]. split; [reflexivity|]. split; [auto|]. split; [lia | auto]. }
  destruct o; try discriminate; cbn [step] in *.
  - apply G; [|reflexivity]. inversion HF; subst. apply append_ok; assumption.
  - apply G; [|reflexivity]. inversion HF; subst. apply insert_ok; assumption.
  - apply G; [|reflexivity]. apply extend_ok; assumption.
  - pose proof (remove_ok m HI) as H. simpl in *. destruct (remove_first (meq m) (c_del c)) as [l'|].
    + apply G; [exact H | reflexivity].
    + eapply GE; [reflexivity | reflexivity | exact H].
  - pose proof (delitem_ok i HI) as H. simpl in *. destruct (py_pos (c_del c) i) as [n|].
    + apply G; [exact H | reflexivity].
    + eapply GE; [reflexivity | reflexivity | exact H].
  - apply G; [|reflexivity]. apply delslice_ok; assumption.
  - pose proof (pop_ok i HI) as H. simpl in *. destruct (py_pos (c_del c) i) as [n|].
    + destruct H as (c' & x & Ex & -> & H1 & H2 & H3 & H4 & H5). rewrite Ex. simpl. auto 10.
    + rewrite H. simpl. split; [exact HI|]. split; [apply same_env_refl|]. split; [reflexivity|]. split; [auto|]. split; [lia | auto].
  - apply G; [|reflexivity]. apply clear_ok; assumption.
  - inversion HF; subst. pose proof (@setitem_ok P c i m HI H1) as H. simpl in *. destruct (py_pos (c_del c) i) as [n|].
    + apply G; [apply H; intros; apply HA; reflexivity | reflexivity].
    + eapply GE; [reflexivity | reflexivity | exact H].
  - apply G; [|reflexivity]. specialize (HA eq_refl).
    destruct (@setslice_ok P c i j ms HI HF) as (c' & a & b & E & H1 & H2 & _ & H3 & _ & H4 & H5).
    { apply Forall_forall; auto. }
    exists c'. split; [exact E|]. split; [exact H1|]. split; [exact H2|]. split; [|auto].
    unfold setslice in E. cbn [list_step fst].
    match type of E with add_matches (with_del c ?l) ms = _ =>
      assert (forall ms c0 c1 r, add_matches c0 ms = (c1, r) -> c_del c1 = c_del c0) as Hd end.
    { clear. induction ms as [|m ms IH]; intros c0 c1 r; simpl; [congruence|].
      destruct (add_match c0 m) as [c2 [|]] eqn:E2; unfold add_match in E2; destruct (accepts (c_kind c0) m); try discriminate; injection E2 as <-.
      - intro H0. apply IH in H0. exact H0.
      - intro H0. injection H0 as <- _. reflexivity. }
    apply Hd in E. exact E.
  - apply G; [|reflexivity]. apply reverse_ok; [apply HA; reflexivity | exact HI].
Qed.

(** ** Any history *)
Lemma run_ok P k ops : forall asked c,
  c_kind c = k -> Inv P c -> (asked = true -> c_ending c <> None) ->
  acceptable k asked (c_del c) ops ->
  (no_assignment ops \/ forall m, P m) ->
  Inv P (run c ops) /\ same_env c (run c ops) /\ c_del (run c ops) = list_run (c_del c) ops
  /\ c_maxend c <= c_maxend (run c ops).
Proof.
  induction ops as [|o ops IH]; intros asked c Hk HI Hasked Hacc Hna.
  - simpl. split; [exact HI|]. split; [apply same_env_refl|]. split; [reflexivity | lia].
  - cbn [acceptable] in Hacc. destruct Hacc as (A1 & A2 & A3).
    destruct (@step_ok P c o) as (S1 & S2 & S3 & _ & S5 & S6); auto.
    + rewrite Hk. exact A1.
    + intro Ha. destruct Hna as [Hna|Hna]; [|exact Hna]. unfold no_assignment in Hna. simpl in Hna. rewrite Ha in Hna. discriminate.
    + destruct o; auto. destruct A2 as [A2|A2]; [left; auto | right; eapply furthest_below; eauto].
    + simpl. destruct (IH (match o with OEnding _ => true | _ => asked end) (fst (step c o))) as (R1 & R2 & R3 & R4).
      * destruct S2 as [-> _]. exact Hk.
      * exact S1.
      * intro Ha. destruct o; try (apply S6; apply Hasked; exact Ha). apply ending_built.
      * rewrite S3. exact A3.
      * destruct Hna as [Hna|Hna]; [left|right; exact Hna]. unfold no_assignment in *. simpl in Hna. apply andb_true_iff in Hna. tauto.
      * split; [exact R1|]. split; [eapply same_env_trans; eauto|]. split; [rewrite R3, S3; reflexivity | lia].
Qed.

Lemma acceptable_app k ops1 ops2 : forall asked l,
  acceptable k asked l (ops1 ++ ops2) -> acceptable k asked l ops1
  /\ acceptable k (asked || existsb (fun o => match o with OEnding _ => true | _ => false end) ops1) (list_run l ops1) ops2.
Proof.
  induction ops1 as [|o ops1 IH]; intros asked l H; simpl in *.
  - rewrite orb_false_r. auto.
  - destruct H as (H1 & H2 & H3). apply IH in H3 as [H3 H4]. split; [auto|].
    destruct o; simpl in *; rewrite ?orb_true_r; rewrite ?orb_true_l in *; try exact H4.
Qed.

Lemma run_app c a b : run c (a ++ b) = run (run c a) b.
Proof. unfold run. apply fold_left_app. Qed.

Lemma asked_built k c ops : forall asked, c_kind c = k -> Inv (fun _ => True) c -> (asked = true -> c_ending c <> None) ->
  acceptable k asked (c_del c) ops ->
  asked || existsb (fun o => match o with OEnding _ => true | _ => false end) ops = true -> c_ending (run c ops) <> None.
Proof.
  revert c. induction ops as [|o ops IH]; intros c asked Hk HI Ha Hacc He; simpl in *.
  - rewrite orb_false_r in He. auto.
  - destruct Hacc as (A1 & A2 & A3).
    destruct (@step_ok (fun _ => True) c o) as (S1 & S2 & S3 & _ & S5 & S6); auto.
    + rewrite Hk. exact A1.
    + destruct o; auto. destruct A2 as [A2|A2]; [auto | right; eapply furthest_below; eauto].
    + apply (IH (fst (step c o)) (match o with OEnding _ => true | _ => asked end)).
      * destruct S2 as [-> _]; exact Hk.
      * exact S1.
      * intro Hx. destruct o; try (apply S6; apply Ha; exact Hx). apply ending_built.
      * rewrite S3. exact A3.
      * destruct o; simpl in *; try exact He. reflexivity.
Qed.

(** C02 *)
Lemma refines_list k input ops o :
  acceptable k false [] (ops ++ [o]) ->
  let c := run (empty_coll k input) ops in
  c_del c = list_run [] ops
  /\ c_del (fst (step c o)) = fst (list_step (c_del c) o)
  /\ (is_mutator o = true -> snd (step c o) = snd (list_step (c_del c) o)).
Proof.
  intros Hacc c. apply acceptable_app in Hacc as [H1 H2]. simpl in H2. destruct H2 as (A1 & A2 & _).
  pose proof (Inv_empty (fun _ => True) k input) as HI0.
  assert (false = true -> c_ending (empty_coll k input) <> None) as Hf by discriminate.
  destruct (@run_ok (fun _ => True) k ops false (empty_coll k input) eq_refl HI0 Hf H1 (or_intror (fun _ => I))) as (R1 & R2 & R3 & _).
  fold c in R1, R2, R3. split; [exact R3|].
  destruct (@step_ok (fun _ => True) c o) as (S1 & S2 & S3 & S4 & _); auto.
  - destruct R2 as [-> _]. exact A1.
  - destruct o; auto. destruct A2 as [A2|A2]; [left | right; eapply furthest_below; [exact R1 | rewrite R3; exact A2]].
    apply (@asked_built k (empty_coll k input) ops false); auto.
Qed.
