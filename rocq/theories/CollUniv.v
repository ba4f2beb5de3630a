(** Every match found in a collection or its dictionaries is one that was handed over. *)
From Verif Require Import Base BaseFacts Match Spec MatchFacts Coll CollFacts CollQuery CollSem CollSem2 SpecColl CollHist.
From Coq Require Import ZifyBool.
Set Implicit Arguments.
Unset Strict Implicit.
Open Scope Z_scope.

Section Univ.
  Variable U : mtch -> Prop.

  Definition dall {K} `{Eqb K} (d : mdict K) : Prop := forall k x, In x (dget d k) -> U x.
  Definition odall {K} `{Eqb K} (d : option (mdict K)) : Prop := match d with None => True | Some d => dall d end.
  Definition Uok (c : coll) : Prop :=
    Forall U (c_del c) /\ odall (c_named c) /\ odall (c_tagged c) /\ odall (c_starting c) /\ odall (c_ending c) /\ odall (c_indexed c).

  Lemma dall_occ {K} `{Eqb K} (ks : mtch -> list K) (d : mdict K) l : (forall k, dget d k = occ ks k l) -> Forall U l -> dall d.
  Proof. intros Hd Hl k x. rewrite Hd, occ_In, Forall_forall in *. intros [Hx _]. auto. Qed.
  Lemma dall_touch {K} `{Eqb K} (d : mdict K) k : dall d -> dall (dtouch d k).
  Proof. intros Hd k' x. rewrite dget_dtouch. apply Hd. Qed.
  Lemma dall_push {K} `{Eqb K} m (keys : list K) : forall d, U m -> dall d -> dall (fold_left (fun d k => dpush d k m) keys d).
  Proof.
    intros d Hm Hd k x. rewrite dget_fold_push, in_app_iff. intros [Hx|Hx]; [eapply Hd; eauto|].
    apply repeat_spec in Hx. subst. exact Hm.
  Qed.
  Lemma odall_push {K} `{Eqb K} m (keys : list K) od : U m -> odall od -> odall (push_all keys m od).
  Proof. destruct od; simpl; [apply dall_push | auto]. Qed.
  Lemma dall_remove {K} `{Eqb K} m (keys : list K) : forall d, dall d -> dall (fst (remove_keys keys m d)).
  Proof.
    induction keys as [|k keys IH]; intros d Hd; simpl; [exact Hd|].
    destruct (remove_first (meq m) (dget d k)) as [l|] eqn:E; simpl; [|apply dall_touch; exact Hd].
    apply IH. intros k' x. rewrite dget_dset. destruct (eqb k' k); [|apply Hd].
    apply remove_first_Some in E as (a & z & b & E & _ & _ & ->). intro Hx. apply (Hd k). rewrite E.
    apply in_app_or in Hx. apply in_or_app. simpl. tauto.
  Qed.
  Lemma odall_remove {K} `{Eqb K} m (keys : list K) od : odall od -> odall (fst (remove_all keys m od)).
  Proof.
    destruct od as [d|]; simpl; [|auto]. intro Hd. pose proof (@dall_remove _ _ m keys d Hd) as H0.
    destruct (remove_keys keys m d). exact H0.
  Qed.

  Lemma Uok_with_del c l : Forall U l -> Uok c -> Uok (with_del c l).
  Proof. intros Hl (_ & H). split; [exact Hl | exact H]. Qed.

  Lemma Uok_add c m : U m -> Uok c -> Uok (fst (add_match c m)).
  Proof.
    intros Hm (H0 & H1 & H2 & H3 & H4 & H5). unfold add_match. destruct (accepts (c_kind c) m); simpl; [|repeat split; assumption].
    split; [exact H0|]. repeat split; simpl; apply odall_push; assumption.
  Qed.

  Lemma ending_dall c : Uok c -> dall (ending_dict c).
  Proof.
    intros (H0 & H1 & H2 & H3 & H4 & H5). unfold ending_dict. destruct (c_ending c); [exact H4|].
    eapply dall_occ; [apply build_ending_get | exact H0].
  Qed.
  Lemma Uok_shrink c m : Uok c -> Uok (shrink_maxend c m).
  Proof.
    intro HU. pose proof (@dall_touch _ _ _ (m_end m) (ending_dall HU)) as Hd. destruct HU as (H0 & H1 & H2 & H3 & H4 & H5).
    unfold shrink_maxend. destruct (m_end m >=? c_maxend c); [|repeat split; assumption].
    destruct (dget _ (m_end m)); repeat split; simpl; assumption.
  Qed.

  Lemma Uok_remove_match c m : Uok c -> Uok (fst (remove_match c m)).
  Proof.
    intros (H0 & H1 & H2 & H3 & H4 & H5). unfold remove_match.
    pose proof (@odall_remove _ _ m (name_keys m) _ H1) as R1. destruct (remove_all (name_keys m) m (c_named c)) as [n [|]]; simpl in R1.
    2: { repeat split; simpl; assumption. }
    pose proof (@odall_remove _ _ m (tag_keys m) _ H2) as R2. cbn [c_tagged with_named]. destruct (remove_all (tag_keys m) m (c_tagged c)) as [t [|]]; simpl in R2.
    2: { repeat split; simpl; assumption. }
    pose proof (@odall_remove _ _ m (start_keys m) _ H3) as R3. cbn [c_starting with_tagged with_named]. destruct (remove_all (start_keys m) m (c_starting c)) as [st [|]]; simpl in R3.
    2: { repeat split; simpl; assumption. }
    pose proof (@odall_remove _ _ m (end_keys m) _ H4) as R4. cbn [c_ending with_starting with_tagged with_named]. destruct (remove_all (end_keys m) m (c_ending c)) as [en [|]]; simpl in R4.
    2: { repeat split; simpl; assumption. }
    pose proof (@odall_remove _ _ m (index_keys m) _ H5) as R5. cbn [c_indexed with_ending with_starting with_tagged with_named]. destruct (remove_all (index_keys m) m (c_indexed c)) as [ix [|]]; simpl in R5.
    2: { repeat split; simpl; assumption. }
    apply Uok_shrink. repeat split; simpl; assumption.
  Qed.

  Lemma Forall_incl' (l l' : list mtch) : incl l' l -> Forall U l -> Forall U l'.
  Proof. intros Hi Hf. rewrite Forall_forall in *. auto. Qed.
  Lemma incl_insert n (x : mtch) l : incl (insert_nth n x l) (x :: l).
  Proof. intros y Hy. eapply Permutation_in; [apply insert_nth_perm | exact Hy]. Qed.
  Lemma firstn_In (n : nat) (x : mtch) l : In x (firstn n l) -> In x l.
  Proof. intro H. rewrite <- (firstn_skipn n l). apply in_or_app; left; exact H. Qed.
  Lemma skipn_In (n : nat) (x : mtch) l : In x (skipn n l) -> In x l.
  Proof. intro H. rewrite <- (firstn_skipn n l). apply in_or_app; right; exact H. Qed.

  Lemma Uok_insert c i m : U m -> Uok c -> Uok (fst (insert c i m)).
  Proof.
    intros Hm HU. unfold insert. apply Uok_add; [exact Hm|]. apply Uok_with_del; [|exact HU].
    eapply Forall_incl'; [apply incl_insert|]. constructor; [exact Hm | apply HU].
  Qed.
  Lemma Uok_extend ms : forall c, Forall U ms -> Uok c -> Uok (fst (extend c ms)).
  Proof.
    induction ms as [|m ms IH]; intros c Hf HU; simpl; [exact HU|]. inversion Hf; subst.
    pose proof (@Uok_insert c (zlen (c_del c)) m H1 HU) as H. unfold append.
    destruct (insert c (zlen (c_del c)) m) as [c1 [|]]; simpl in *; [apply IH; assumption | exact H].
  Qed.
  Lemma Uok_delitem c i : Uok c -> Uok (fst (delitem c i)).
  Proof.
    intro HU. unfold delitem. destruct (py_pos (c_del c) i) as [n|]; [|exact HU].
    destruct (nth_error (c_del c) n); [|exact HU]. apply Uok_remove_match, Uok_with_del; [|exact HU].
    eapply Forall_incl'; [|apply HU]. intros x Hx. unfold remove_nth in Hx. apply in_app_or in Hx as [Hx|Hx]; [eapply firstn_In | eapply skipn_In]; eauto.
  Qed.
  Lemma Uok_remove_matches ms : forall c, Uok c -> Uok (fst (remove_matches c ms)).
  Proof.
    induction ms as [|m ms IH]; intros c HU; simpl; [exact HU|].
    pose proof (@Uok_remove_match c m HU) as H. destruct (remove_match c m) as [c1 [|]]; simpl in *; auto.
  Qed.
  Lemma Uok_pop c i : Uok c -> Uok (fst (pop c i)).
  Proof.
    intro HU. unfold pop. destruct (py_nth (c_del c) i); [|exact HU].
    pose proof (@Uok_delitem c i HU) as H. destruct (delitem c i) as [c1 [|]]; exact H.
  Qed.
  Lemma Uok_clear n : forall c, Uok c -> Uok (fst (clear_loop n c)).
  Proof.
    induction n as [|n IH]; intros c HU; simpl; [exact HU|].
    pose proof (@Uok_pop c (-1) HU) as H. destruct (pop c (-1)) as [c1 [|[]]]; simpl in *; auto.
  Qed.
  Lemma Uok_setitem c i m : U m -> Uok c -> Uok (fst (setitem c i m)).
  Proof.
    intros Hm HU. unfold setitem. destruct (py_pos (c_del c) i) as [n|]; [|exact HU].
    apply Uok_add; [exact Hm|]. apply Uok_with_del; [|exact HU].
    destruct HU as (HU & _). rewrite Forall_forall in *. intros x Hx. unfold replace_nth in Hx.
    apply in_app_or in Hx as [Hx|[<-|Hx]]; [|exact Hm|]; [apply HU; eapply firstn_In; eauto | apply HU; eapply skipn_In; eauto].
  Qed.
  Lemma Uok_add_matches ms : forall c, Forall U ms -> Uok c -> Uok (fst (add_matches c ms)).
  Proof.
    induction ms as [|m ms IH]; intros c Hf HU; simpl; [exact HU|]. inversion Hf; subst.
    pose proof (Uok_add H1 HU) as H. destruct (add_match c m) as [c1 [|]]; simpl in *; auto.
  Qed.
  Lemma Uok_reverse n is : forall c, Uok c -> Uok (fst (reverse_loop n is c)).
  Proof.
    induction is as [|i is IH]; intros c HU; simpl; [exact HU|].
    destruct (py_nth (c_del c) (n - i - 1)) as [a|] eqn:Ea; [|exact HU].
    destruct (py_nth (c_del c) i) as [b|] eqn:Eb; [|exact HU].
    assert (forall j x, py_nth (c_del c) j = Some x -> U x) as Hn.
    { intros j x Hx. unfold py_nth in Hx. destruct (py_pos (c_del c) j); [|discriminate]. apply nth_error_In in Hx.
      destruct HU as (HU & _). rewrite Forall_forall in HU. auto. }
    pose proof (Uok_setitem i (Hn _ _ Ea) HU) as H1. destruct (setitem c i a) as [c1 [|]]; simpl in *; [|exact H1].
    pose proof (Uok_setitem (n - i - 1) (Hn _ _ Eb) H1) as H2. destruct (setitem c1 (n - i - 1) b) as [c2 [|]]; simpl in *; auto.
  Qed.

  (** lookups: same views *)
  Definition Uv (c : coll) : Prop :=
    Forall U (c_del c) /\ dall (named_dict c) /\ dall (tagged_dict c) /\ dall (starting_dict c) /\ dall (ending_dict c) /\ dall (indexed_dict c).
  Lemma Uok_Uv c : Uok c <-> Uv c.
  Proof.
    split.
    - intros (H0 & H1 & H2 & H3 & H4 & H5). split; [exact H0|].
      split; [unfold named_dict; destruct (c_named c); [exact H1 | eapply dall_occ; [apply build_named_get | exact H0]]|].
      split; [unfold tagged_dict; destruct (c_tagged c); [exact H2 | eapply dall_occ; [apply build_tagged_get | exact H0]]|].
      split; [unfold starting_dict; destruct (c_starting c); [exact H3 | eapply dall_occ; [apply build_starting_get | exact H0]]|].
      split; [unfold ending_dict; destruct (c_ending c); [exact H4 | eapply dall_occ; [apply build_ending_get | exact H0]]|].
      unfold indexed_dict; destruct (c_indexed c); [exact H5 | eapply dall_occ; [apply build_indexed_get | exact H0]].
    - intros (H0 & H1 & H2 & H3 & H4 & H5). split; [exact H0|].
      split; [unfold named_dict in H1; destruct (c_named c); [exact H1 | exact I]|].
      split; [unfold tagged_dict in H2; destruct (c_tagged c); [exact H2 | exact I]|].
      split; [unfold starting_dict in H3; destruct (c_starting c); [exact H3 | exact I]|].
      split; [unfold ending_dict in H4; destruct (c_ending c); [exact H4 | exact I]|].
      unfold indexed_dict in H5; destruct (c_indexed c); [exact H5 | exact I].
  Qed.
  Lemma Uok_obs c c' : obs c c' -> Uok c -> Uok c'.
  Proof.
    intros (O1 & _ & _ & O4 & O5 & O6 & O7 & O8 & _) HU. apply Uok_Uv in HU. apply Uok_Uv.
    destruct HU as (H0 & H1 & H2 & H3 & H4 & H5). split; [rewrite O1; exact H0|].
    repeat split; intros k x Hx; [rewrite O4 in Hx|rewrite O5 in Hx|rewrite O6 in Hx|rewrite O7 in Hx|rewrite O8 in Hx]; eauto.
  Qed.

  Lemma Uok_step c o : Forall U (handed o) -> Uok c -> Uok (fst (step c o)).
  Proof.
    intros Hf HU. destruct (is_mutator o) eqn:Em.
    2: { eapply Uok_obs; [apply lookup_obs; rewrite is_lookup_mutator, Em; reflexivity | exact HU]. }
    destruct o; try discriminate; cbn [step handed] in *.
    - inversion Hf; subst. unfold unit_out, append. apply Uok_insert; assumption.
    - inversion Hf; subst. unfold unit_out. apply Uok_insert; assumption.
    - apply Uok_extend; assumption.
    - unfold unit_out, remove. simpl. destruct (seq_index c m); [apply Uok_delitem; exact HU | exact HU].
    - apply Uok_delitem; exact HU.
    - unfold unit_out, delslice. apply Uok_remove_matches, Uok_with_del; [|exact HU].
      eapply Forall_incl'; [|apply HU]. intros x Hx. unfold py_unslice in Hx. apply in_app_or in Hx as [Hx|Hx]; [eapply firstn_In | eapply skipn_In]; eauto.
    - pose proof (@Uok_pop c i HU) as H. destruct (pop c i). exact H.
    - apply Uok_clear; exact HU.
    - inversion Hf; subst. apply Uok_setitem; assumption.
    - unfold unit_out, setslice. apply Uok_add_matches; [exact Hf|]. apply Uok_with_del; [|exact HU].
      destruct HU as (HU & _). rewrite Forall_forall in *. intros x Hx. rewrite !in_app_iff in Hx.
      destruct Hx as [Hx|[Hx|Hx]]; [apply HU; eapply firstn_In; eauto | auto | apply HU; eapply skipn_In; eauto].
    - apply Uok_reverse; exact HU.
  Qed.
  Lemma Uok_run ops : forall c, Forall U (all_handed ops) -> Uok c -> Uok (run c ops).
  Proof.
    induction ops as [|o ops IH]; intros c Hf HU; simpl; [exact HU|].
    unfold all_handed in Hf. simpl in Hf. apply Forall_app in Hf as [H1 H2]. apply IH; [exact H2|]. apply Uok_step; assumption.
  Qed.
  Lemma Uok_empty k i : Uok (empty_coll k i).
  Proof. split; [constructor|]. repeat split. Qed.
End Univ.

(** predicates that do not distinguish [==] matches among those handed over *)
Lemma agrees_of c ms p : Uok (fun m => In m ms) c -> respects_eq_on ms p -> agrees c p.
Proof.
  intros HU Hp x y Hx Hy E. apply Uok_Uv in HU. destruct HU as (H0 & H1 & H2 & H3 & H4 & H5). rewrite Forall_forall in H0.
  apply Hp; [|apply H0; exact Hy|apply meq_mkey; exact E].
  destruct Hx as [(i & Hx)|(i & Hx)]; [eapply H5; exact Hx | eapply H3; exact Hx].
Qed.

(** when no two distinct matches handed over are [==], "up to ==" is identity *)
Lemma perm_exact (ms l r : list mtch) :
  (forall a b, In a ms -> In b ms -> meq a b = true -> a = b) ->
  incl l ms -> incl r ms -> same_members l r -> Permutation l r.
Proof.
  intros Hinj Hl Hr (r' & Hp & Hf). rewrite Hp. assert (l = r') as ->; [|reflexivity].
  assert (incl r' ms) as Hr' by (intros x Hx; apply Hr; eapply Permutation_in; [symmetry; exact Hp | exact Hx]).
  clear Hp Hr. induction Hf as [|x y l r' Hxy Hf IH]; [reflexivity|]. f_equal.
  - apply Hinj; [apply Hl; left; reflexivity | apply Hr'; left; reflexivity | exact Hxy].
  - apply IH; intros z Hz; [apply Hl | apply Hr']; right; exact Hz.
Qed.

(** ** The state after any acceptable history without assignment *)
Definition reached (k : kind) (input : option pstr) (ops : list op) : coll := run (empty_coll k input) ops.

Lemma reached_ok k input ops :
  acceptable k false [] ops -> no_assignment ops ->
  Inv no_ghost (reached k input ops)
  /\ c_del (reached k input ops) = list_run [] ops
  /\ c_input (reached k input ops) = input
  /\ c_kind (reached k input ops) = k.
Proof.
  intros H1 H2. pose proof (Inv_empty no_ghost k input) as HI0.
  destruct (@run_ok no_ghost k ops false (empty_coll k input) eq_refl HI0 ltac:(discriminate) H1 (or_introl H2)) as (R1 & [R2 R2'] & R3 & _).
  auto.
Qed.
Lemma reached_univ k input ops : Uok (fun m => In m (all_handed ops)) (reached k input ops).
Proof. apply Uok_run; [apply Forall_forall; auto | apply Uok_empty]. Qed.
Lemma reached_agrees k input ops p : respects_eq_on (all_handed ops) p -> agrees (reached k input ops) p.
Proof. intro H. eapply agrees_of; [apply reached_univ | exact H]. Qed.
