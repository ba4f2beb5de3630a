(** Assignments before the first lookup, the cached maximum, [names]/[tags]. *)
From Verif Require Import Base BaseFacts Match Spec MatchFacts Coll CollFacts CollQuery CollSem CollSem2 SpecColl CollHist CollUniv CollOrder.
From Coq Require Import ZifyBool.
Set Implicit Arguments.
Unset Strict Implicit.
Open Scope Z_scope.

(** ** No dictionary is built by adding or assigning *)
Definition unbuilt (c : coll) : Prop :=
  c_named c = None /\ c_tagged c = None /\ c_starting c = None /\ c_ending c = None /\ c_indexed c = None.
(** calls that add or assign, without lookup nor deletion *)
Definition is_build (o : op) : bool :=
  match o with OAppend _ | OInsert _ _ | OExtend _ | OSetitem _ _ | OSetslice _ _ _ | OReverse => true | _ => false end.

Lemma unbuilt_add c m : unbuilt c -> unbuilt (fst (add_match c m)).
Proof.
  intros (H1 & H2 & H3 & H4 & H5). unfold add_match, unbuilt. destruct (accepts (c_kind c) m); simpl; [|auto].
  rewrite H1, H2, H3, H4, H5. simpl. auto.
Qed.
Lemma unbuilt_del c l : unbuilt c -> unbuilt (with_del c l).
Proof. auto. Qed.
Lemma unbuilt_extend ms : forall c, unbuilt c -> unbuilt (fst (extend c ms)).
Proof.
  induction ms as [|m ms IH]; intros c H; simpl; [exact H|].
  pose proof (unbuilt_add m (unbuilt_del (insert_nth (Z.to_nat (py_clip (zlen (c_del c)) (zlen (c_del c)))) m (c_del c)) H)) as H'.
  unfold append, insert. destruct (add_match _ m) as [c1 [|]]; simpl in *; auto.
Qed.
Lemma unbuilt_add_matches ms : forall c, unbuilt c -> unbuilt (fst (add_matches c ms)).
Proof.
  induction ms as [|m ms IH]; intros c H; simpl; [exact H|].
  pose proof (unbuilt_add m H) as H'. destruct (add_match c m) as [c1 [|]]; simpl in *; auto.
Qed.
Lemma unbuilt_setitem c i m : unbuilt c -> unbuilt (fst (setitem c i m)).
Proof. intro H. unfold setitem. destruct (py_pos (c_del c) i); [|exact H]. apply unbuilt_add; exact H. Qed.
Lemma unbuilt_reverse n is : forall c, unbuilt c -> unbuilt (fst (reverse_loop n is c)).
Proof.
  induction is as [|i is IH]; intros c H; simpl; [exact H|].
  destruct (py_nth (c_del c) (n - i - 1)) as [a|]; [|exact H]. destruct (py_nth (c_del c) i) as [b|]; [|exact H].
  pose proof (unbuilt_setitem i a H) as H1. destruct (setitem c i a) as [c1 [|]]; simpl in *; [|exact H1].
  pose proof (unbuilt_setitem (n - i - 1) b H1) as H2. destruct (setitem c1 (n - i - 1) b) as [c2 [|]]; simpl in *; auto.
Qed.
Lemma unbuilt_step c o : is_build o = true -> unbuilt c -> unbuilt (fst (step c o)).
Proof.
  intros Hb H. destruct o; try discriminate; cbn [step unit_out fst].
  - apply unbuilt_add; exact H.
  - apply unbuilt_add; exact H.
  - apply unbuilt_extend; exact H.
  - apply unbuilt_setitem; exact H.
  - apply unbuilt_add_matches; exact H.
  - apply unbuilt_reverse; exact H.
Qed.
Lemma unbuilt_run ops : forall c, forallb is_build ops = true -> unbuilt c -> unbuilt (run c ops).
Proof.
  induction ops as [|o ops IH]; intros c Hb H; [exact H|]. simpl in Hb. apply andb_true_iff in Hb as [H1 H2].
  simpl. apply IH; [exact H2|]. apply unbuilt_step; assumption.
Qed.
Lemma unbuilt_Inv c : unbuilt c -> Inv (fun _ => True) c -> Inv no_ghost c.
Proof.
  intros (H1 & H2 & H3 & H4 & H5) (_ & HM & HF). split; [|split; assumption].
  unfold Dok. rewrite H1, H2, H3, H4, H5. repeat split.
Qed.

(** A building phase (assignments allowed) followed by anything but assignments. *)
Lemma reached_phases k input ops1 ops2 :
  forallb is_build ops1 = true -> no_assignment ops2 -> acceptable k false [] (ops1 ++ ops2) ->
  let c := run (empty_coll k input) (ops1 ++ ops2) in
  Inv no_ghost c /\ c_del c = list_run [] (ops1 ++ ops2).
Proof.
  intros Hb Hna Hacc c. subst c. rewrite run_app.
  pose proof Hacc as Hacc'. apply acceptable_app in Hacc as [A1 A2].
  destruct (@run_ok (fun _ => True) k ops1 false (empty_coll k input)) as (R1 & R2 & R3 & _); auto; try discriminate.
  { apply Inv_empty. }
  assert (Inv no_ghost (run (empty_coll k input) ops1)) as HI.
  { apply unbuilt_Inv; [|exact R1]. apply unbuilt_run; [exact Hb | repeat split]. }
  destruct (@run_ok no_ghost k ops2 false (run (empty_coll k input) ops1)) as (S1 & S2 & S3 & _); auto; try discriminate.
  - destruct R2 as [-> _]. reflexivity.
  - rewrite R3. match goal with H : acceptable k ?b _ ops2 |- _ => replace b with false in H; [exact H|] end.
    simpl. symmetry. apply existsb_false_iff. intros o Ho. rewrite forallb_forall in Hb. specialize (Hb o Ho). destruct o; try discriminate; reflexivity.
  - split; [exact S1|]. rewrite S3, R3. unfold list_run. rewrite fold_left_app. reflexivity.
Qed.

(** ** [names] and [tags] *)
Lemma names_sound P c : Inv P c -> forall m n, In m (c_del c) -> m_name m = Some n -> n <> [] -> In n (dkeys (named_dict c)).
Proof.
  intros (HD & _) m n Hm Hn Hne. destruct (named_dict_ok HD) as (g & _ & Hok).
  eapply dict_ok_In_key; [exact Hok | apply in_or_app; right; exact Hm|].
  unfold name_keys. rewrite Hn. destruct n; [congruence|]. left; reflexivity.
Qed.
Lemma tags_sound P c : Inv P c -> forall m t, In m (c_del c) -> In t (m_tags m) -> In t (dkeys (tagged_dict c)).
Proof.
  intros (HD & _) m n Hm Hn. destruct (tagged_dict_ok HD) as (g & _ & Hok).
  eapply dict_ok_In_key; [exact Hok | apply in_or_app; right; exact Hm | exact Hn].
Qed.

(** ** The cached maximum when nothing was removed *)
Definition is_adding (o : op) : bool :=
  match o with OAppend _ | OInsert _ _ | OExtend _ => true | _ => negb (is_mutator o) end.
Definition zmaxl (l : list Z) : Z := fold_right Z.max 0 l.
Lemma zmaxl_app a b : zmaxl (a ++ b) = Z.max (zmaxl a) (zmaxl b).
Proof. induction a as [|x a IH]; simpl; [|rewrite IH; lia]. assert (0 <= zmaxl b) by (clear; induction b; simpl; lia). lia. Qed.
Lemma zmaxl_perm a b : Permutation a b -> zmaxl a = zmaxl b.
Proof. induction 1; simpl; lia. Qed.

Definition tight (c : coll) : Prop := c_maxend c = zmaxl (map m_end (c_del c)).
Lemma tight_insert c i m : accepts (c_kind c) m = true -> tight c ->
  tight (fst (insert c i m)) /\ c_kind (fst (insert c i m)) = c_kind c /\ snd (insert c i m) = Ok tt.
Proof.
  unfold tight, insert, add_match. simpl. intros H Ht. rewrite H. simpl. split; [|auto]. rewrite Ht.
  rewrite (zmaxl_perm (Permutation_map m_end (insert_nth_perm (Z.to_nat (py_clip (zlen (c_del c)) i)) m (c_del c)))). simpl. lia.
Qed.
Lemma tight_extend ms : forall c, Forall (fun m => accepts (c_kind c) m = true) ms -> tight c -> tight (fst (extend c ms)).
Proof.
  induction ms as [|m ms IH]; intros c H Ht; simpl; [exact Ht|]. inversion H as [|? ? Hm Hms]; subst.
  destruct (tight_insert (zlen (c_del c)) Hm Ht) as (H1 & H2 & H3). unfold append.
  destruct (insert c (zlen (c_del c)) m) as [c1 r]. simpl in *. subst r. apply IH; [rewrite H2; exact Hms | exact H1].
Qed.
Lemma tight_run k ops : forall c, c_kind c = k -> forallb is_adding ops = true ->
  Forall (fun m => accepts k m = true) (all_handed ops) -> tight c -> tight (run c ops).
Proof.
  induction ops as [|o ops IH]; intros c Hk Ha Hf Ht; [exact Ht|]. unfold all_handed in Hf. simpl in *.
  apply andb_true_iff in Ha as [Ha1 Ha2]. apply Forall_app in Hf as [Hf1 Hf2].
  assert (tight (fst (step c o)) /\ c_kind (fst (step c o)) = k) as [H1 H2].
  { destruct (is_mutator o) eqn:Em.
    - destruct o; try discriminate; cbn [step unit_out fst handed] in *; rewrite <- Hk in Hf1.
      + inversion Hf1; subst. destruct (tight_insert (zlen (c_del c)) H1 Ht) as (A & B & _). auto.
      + inversion Hf1; subst. destruct (tight_insert i H1 Ht) as (A & B & _). auto.
      + split; [apply tight_extend; assumption|]. clear -Hk.
        revert c Hk. induction ms as [|m ms IH]; intros c Hk; simpl; [exact Hk|].
        unfold append, insert, add_match. simpl. destruct (accepts (c_kind c) m); simpl; [apply IH; exact Hk | exact Hk].
    - assert (obs c (fst (step c o))) as Ho by (apply lookup_obs; rewrite is_lookup_mutator, Em; reflexivity).
      destruct Ho as (O1 & (O2 & _) & O3 & _). unfold tight. rewrite O1, O3, O2. auto. }
  apply IH; assumption.
Qed.
Lemma zmaxl_spec l : (forall x, In x l -> x <= zmaxl l) /\ (zmaxl l = 0 \/ In (zmaxl l) l) /\ 0 <= zmaxl l.
Proof.
  induction l as [|x l (IH1 & IH2 & IH3)]; simpl; [split; [tauto|split; [auto|lia]]|]. split; [|split].
  - intros y [->|Hy]; [lia|]. specialize (IH1 y Hy). lia.
  - destruct (Z.max_spec x (zmaxl l)) as [[_ ->]|[_ ->]]; [|auto]. destruct IH2 as [->|H]; auto.
  - lia.
Qed.
