(** * Facts about Rebulk.v: identities of the matches of a call, the pattern stage *)
From Verif Require Import Base BaseFacts Match Spec MatchFacts Coll CollFacts CollSem CollSem2 SpecColl CollHist CollUniv
  Loose Conseq ConseqFacts Processors ProcFacts Topo Rules Pattern PatternFacts Typed Rebulk.
Set Implicit Arguments.
Unset Strict Implicit.
Open Scope Z_scope.

(** ** Identities *)
Definition ids_of (m : mtch) : list nat := m_id m :: map m_id (m_children m).
Definition all_ids (ms : list mtch) : list nat := flat_map ids_of ms.

Lemma number_children_ids p : forall cs n, map m_id (number_children p n cs) = seq n (length cs).
Proof. induction cs as [|c r IH]; intro n; simpl; [reflexivity|]. now rewrite IH. Qed.
Lemma number_one_ids n m : ids_of (number_one n m) = seq n (S (length (m_children m))).
Proof. unfold ids_of, number_one. simpl. now rewrite number_children_ids. Qed.
Lemma number_all_ids : forall ms n, exists k, fst (number_all n ms) = (n + k)%nat /\ all_ids (snd (number_all n ms)) = seq n k.
Proof.
  induction ms as [|m r IH]; intro n; cbn [number_all].
  - exists 0%nat. simpl. split; [lia|reflexivity].
  - destruct (IH (S n + length (m_children m))%nat) as (k & A & B). destruct (number_all _ r) as [k' r']. cbn [fst snd] in *.
    exists (S (length (m_children m)) + k)%nat. split; [lia|]. unfold all_ids in *. cbn [flat_map]. rewrite number_one_ids, B.
    rewrite seq_app. f_equal. f_equal. lia.
Qed.
Lemma number_lists_ids : forall l n, exists k, fst (number_lists n l) = (n + k)%nat /\ all_ids (concat (snd (number_lists n l))) = seq n k.
Proof.
  induction l as [|o r IH]; intro n; cbn [number_lists].
  - exists 0%nat. simpl. split; [lia|reflexivity].
  - destruct (number_all_ids o n) as (k & A & B). destruct (number_all n o) as [k1 o']. cbn [fst snd] in *.
    destruct (IH k1) as (k2 & C & D). destruct (number_lists k1 r) as [k3 r']. cbn [fst snd] in *.
    exists (k + k2)%nat. split; [lia|]. unfold all_ids in *. cbn [concat]. rewrite flat_map_app, B, D, seq_app. f_equal. f_equal. lia.
Qed.

Lemma sublist_nil_l {A} (l : list A) : sublist [] l. Proof. induction l; constructor; auto. Qed.
Lemma sublist_app {A} (a b c d : list A) : sublist a b -> sublist c d -> sublist (a ++ c) (b ++ d).
Proof. induction 1; simpl; intros; auto; constructor; auto. Qed.
Lemma sublist_filter {A} (f : A -> bool) l : sublist (filter f l) l.
Proof. induction l as [|x l IH]; simpl; [constructor|]. destruct (f x); constructor; auto. Qed.
Lemma sublist_map {A B} (f : A -> B) a b : sublist a b -> sublist (map f a) (map f b).
Proof. induction 1; simpl; constructor; auto. Qed.
Lemma sublist_NoDup {A} (a b : list A) : sublist a b -> NoDup b -> NoDup a.
Proof. induction 1; intro N; auto; inversion N; subst; auto. constructor; auto. intro H0. apply H2. eapply sublist_In; eassumption. Qed.

Lemma configured_ids p i m : ids_of (configured p i m) = ids_of m.
Proof.
  unfold ids_of, configured, configured_children. simpl. rewrite configure_id, map_map. f_equal. apply map_ext. intro c. simpl. apply configure_id.
Qed.
Lemma dispatch_ids p m : sublist (map m_id (dispatch p m)) (ids_of m).
Proof.
  unfold dispatch, ids_of. rewrite map_app. change (m_id m :: map m_id (m_children m)) with ([m_id m] ++ map m_id (m_children m)).
  apply sublist_app; [destruct (_ && _)%bool; simpl; [apply sublist_refl|apply sublist_nil_l]|].
  destruct (_ || _)%bool; [apply sublist_map, sublist_filter|apply sublist_nil_l].
Qed.
Lemma outcome_ids p i m outs : outcome p i m outs -> sublist (map m_id outs) (ids_of m).
Proof.
  unfold outcome. intros ->. destruct (_ && _)%bool; [|apply sublist_nil_l]. rewrite <- (configured_ids p i m). apply dispatch_ids.
Qed.
Lemma outcomes_ids p occ outs : outcomes p occ outs -> sublist (map m_id outs) (all_ids occ).
Proof.
  intros (outss & F & ->). revert F. generalize 0%nat. revert outss. induction occ as [|m r IH]; intros outss j F; inversion F; subst; simpl; [constructor|].
  rewrite map_app. apply (@sublist_app _ (map m_id b) (ids_of m) _ (all_ids r)); [eapply outcome_ids; eassumption|eauto].
Qed.
(** the matches returned by one call have distinct identities taken from the supply *)
Lemma run_pattern_ids p {A} (subs : list A) match_ n input n' outs raws :
  po_pre p = None -> po_post p = None -> po_post_processor p = None ->
  (forall sub ms, In sub subs -> match_ sub input = Ok ms -> Forall (fun m => m_parent m = None) ms) ->
  run_pattern p subs match_ n input = Ok (n', (outs, raws)) ->
  exists k, n' = (n + k)%nat /\ sublist (map m_id outs) (seq n k).
Proof.
  intros H1 H2 H3 Hm H. unfold run_pattern in H.
  destruct (sequence (fun sub => match_ sub input) subs) as [found|] eqn:E; [|discriminate]. apply sequence_ok in E.
  assert (Forall (Forall (fun m => m_parent m = None)) found) as F.
  { clear H. induction E; constructor; [eapply Hm; [left; reflexivity|eassumption]|apply IHE; intros; eapply Hm; [right; eassumption|assumption]]. }
  destruct (@number_lists_spec found n F) as [F1 F2]. destruct (number_lists_ids found n) as (k & K1 & K2).
  destruct (number_lists n found) as [k' occs]. cbn [fst snd] in *.
  unfold finish_matches in H. destruct (process_patterns p (process_match p) occs) as [[raws1 outs1]|] eqn:E2; [|discriminate].
  rewrite H3 in H. injection H as <- <- <-. apply process_patterns_spec in E2 as [(outss & A1 & ->) _]; auto.
  exists k. split; [exact K1|]. rewrite <- K2. clear - A1. induction A1; simpl; [constructor|]. rewrite map_app. unfold all_ids. rewrite flat_map_app.
  apply sublist_app; [eapply outcomes_ids; eassumption|exact IHA1].
Qed.

(** ** The pattern stage *)
Section Stage.
  Context {Ctx : Type}.
  Variables (ctx : Ctx) (input : pstr).
  (** [outs] are the matches returned by each enabled pattern in turn, the identities from
      [n] to [n'] being used *)
  Inductive yields : list (pat Ctx) -> nat -> list (list mtch) -> nat -> Prop :=
  | y_nil n : yields [] n [] n
  | y_disabled p ps n outs n' : pt_disabled p ctx = true -> yields ps n outs n' -> yields (p :: ps) n outs n'
  | y_enabled p ps n n1 out raws outs n' : pt_disabled p ctx = false -> pt_match p ctx n input = Ok (n1, (out, raws)) ->
      yields ps n1 outs n' -> yields (p :: ps) n (out :: outs) n'.

  Definition not_marker (m : mtch) : bool := negb (m_marker m).
  Lemma append_accepts c m : accepts (c_kind c) m = true -> exists c', append c m = (c', Ok tt) /\ c_kind c' = c_kind c /\ c' = run c [OAppend m].
  Proof.
    intro H. unfold run. simpl. unfold append, insert, add_match. simpl. rewrite H. eexists. split; [reflexivity|]. split; reflexivity.
  Qed.
  Lemma run_app c a b : run c (a ++ b) = run (run c a) b. Proof. unfold run. apply fold_left_app. Qed.
  Lemma run_cons c o b : run c (o :: b) = run (run c [o]) b. Proof. reflexivity. Qed.
  Lemma put_spec : forall ms (f : found), c_kind (fd_matches f) = KMatches -> c_kind (fd_markers f) = KMarkers ->
    let f' := Found (fd_next f) (run (fd_matches f) (map OAppend (filter not_marker ms)))
                    (run (fd_markers f) (map OAppend (filter m_marker ms))) (fd_keys f) in
    put f ms = Ok f' /\ c_kind (fd_matches f') = KMatches /\ c_kind (fd_markers f') = KMarkers.
  Proof.
    induction ms as [|m r IH]; intros f K1 K2; cbn [put filter map].
    - destruct f; simpl in *. auto.
    - unfold not_marker. destruct (m_marker m) eqn:E; cbn [negb map].
      + destruct (@append_accepts (fd_markers f) m) as (c' & -> & K & R); [rewrite K2; simpl; exact E|].
        destruct (IH (with_markers f c')) as (A & B & C); [exact K1|simpl; congruence|].
        rewrite (run_cons (fd_markers f)), <- R. exact (conj A (conj B C)).
      + destruct (@append_accepts (fd_matches f) m) as (c' & -> & K & R); [rewrite K1; simpl; now rewrite E|].
        destruct (IH (with_matches f c')) as (A & B & C); [simpl; congruence|exact K2|].
        rewrite (run_cons (fd_matches f)), <- R. exact (conj A (conj B C)).
  Qed.

  Definition stage_result (f : found) (outs : list (list mtch)) (n' : nat) : found :=
    Found n' (run (fd_matches f) (map OAppend (filter not_marker (concat outs))))
          (run (fd_markers f) (map OAppend (filter m_marker (concat outs)))) (fd_keys f).
  Lemma run_patterns_spec : forall ps (f : found), c_kind (fd_matches f) = KMatches -> c_kind (fd_markers f) = KMarkers ->
    (forall f', run_patterns ctx input ps f = Ok f' -> exists outs n', yields ps (fd_next f) outs n' /\ f' = stage_result f outs n')
    /\ (forall outs n', yields ps (fd_next f) outs n' -> run_patterns ctx input ps f = Ok (stage_result f outs n')).
  Proof.
    induction ps as [|p ps IH]; intros f K1 K2; simpl.
    - split; [intros f' E; injection E as <-; exists [], (fd_next f); split; [constructor|destruct f; reflexivity]|].
      intros outs n' Y. inversion Y; subst. destruct f; reflexivity.
    - destruct (pt_disabled p ctx) eqn:D.
      + destruct (IH f K1 K2) as [A B]. split.
        * intros f' E. destruct (A f' E) as (outs & n' & Y & ->). exists outs, n'. split; [now constructor|reflexivity].
        * intros outs n' Y. inversion Y; subst; [auto|congruence].
      + destruct (pt_match p ctx (fd_next f) input) as [[n1 [ms raws]]|e] eqn:E.
        2: { split; [intros; discriminate|]. intros outs n' Y. inversion Y; subst; congruence. }
        destruct (@put_spec ms (with_next f n1) K1 K2) as (P1 & P2 & P3). simpl in P1, P2, P3. rewrite P1.
        match type of P1 with _ = Ok ?g => set (f1 := g) in * end. destruct (IH f1 P2 P3) as [A B].
        assert (forall outs n', stage_result f1 outs n' = stage_result f (ms :: outs) n') as R.
        { intros outs n'. unfold stage_result, f1. cbn [fd_matches fd_markers fd_keys concat].
          rewrite !filter_app, !map_app, !run_app. reflexivity. }
        split.
        * intros f' E'. destruct (A f' E') as (outs & n' & Y & ->). exists (ms :: outs), n'. split; [econstructor; eassumption|apply R].
        * intros outs n' Y. inversion Y as [|? ? ? ? ? D' ? |? ? ? n1' out raws' outs' ? D' E' Y']; subst; [congruence|].
          rewrite E in E'. injection E' as <- <- <-. rewrite <- R. apply B. exact Y'.
  Qed.

  (** identities over the whole stage *)
  Lemma yields_ids : forall ps n outs n', yields ps n outs n' ->
    (forall p k k' out raws, In p ps -> pt_match p ctx k input = Ok (k', (out, raws)) -> exists d, k' = (k + d)%nat /\ sublist (map m_id out) (seq k d)) ->
    exists d, n' = (n + d)%nat /\ sublist (map m_id (concat outs)) (seq n d).
  Proof.
    induction 1; intro H'.
    - exists 0%nat. split; [lia|constructor].
    - apply IHyields. intros. eapply H'; [right; eassumption|eassumption].
    - destruct (H' p n n1 out raws (or_introl eq_refl) H0) as (d & -> & S1).
      destruct IHyields as (d' & -> & S2); [intros; eapply H'; [right; eassumption|eassumption]|].
      exists (d + d')%nat. split; [lia|]. cbn [concat]. rewrite map_app, seq_app. now apply sublist_app.
  Qed.
End Stage.

(** a history of appends *)
Lemma appends_acceptable k l : Forall (fun m => accepts k m = true) l -> forall l0, acceptable k false l0 (map OAppend l).
Proof. induction 1; simpl; auto. Qed.
Lemma appends_no_assignment l : no_assignment (map OAppend l). Proof. unfold no_assignment. induction l; simpl; auto. Qed.
Lemma appends_list l : forall l0, list_run l0 (map OAppend l) = l0 ++ l.
Proof. induction l as [|m l IH]; intro l0; unfold list_run in *; simpl; [symmetry; apply app_nil_r|]. rewrite IH, <- app_assoc. reflexivity. Qed.
Lemma appends_handed l : all_handed (map OAppend l) = l.
Proof. unfold all_handed. induction l; simpl; congruence. Qed.
