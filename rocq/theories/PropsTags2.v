(** * Property C143: what calls of matches() leave in the tags of the patterns *)
From Coq Require Import Permutation.
From Verif Require Import Base BaseFacts Match MatchFacts Conseq TagHeap PropsTags.
From Coq Require String.
Export Coq.Strings.String.StringSyntax.
Open Scope string_scope.
Open Scope list_scope.
Set Implicit Arguments.
Unset Strict Implicit.

(** ** Specification *)
(** the tags of pattern [p] are non-empty: its matches are given the very list *)
Definition gives_list (h : tags_heap) (p : tpattern) (a : nat) : Prop := tp_tags p = Some a /\ th_cell h a <> [].
(** [e] done [k] times *)
Fixpoint times {A} (k : nat) (e : A -> A) (x : A) : A := match k with O => x | S k' => times k' e (e x) end.
(** how many of the objects hold the list [a] *)
Definition holding (a : nat) (l : list tobj) : nat := length (filter (fun o => Nat.eqb (t_tags o) a) l).
(** no two members equal, each selected once *)
Definition all_different (l : list tobj) : Prop := forall i j o o', nth_error l i = Some o -> nth_error l j = Some o' -> meq (t_match o) (t_match o') = true -> i = j.
(** rules which add tags, or leave them alone *)
Definition adding (r : trule) : Prop := forall e, tr_action r = TTags e -> exists ts, tr_action r = append_tags ts.
Definition tag_added (rules : list trule) (t : pstr) : Prop := exists r ts, In r rules /\ tr_action r = append_tags ts /\ In t ts.

(** ** Proofs *)
Definition origin (ps : list tpattern) (h : tags_heap) (input : pstr) (o : tobj) : Prop :=
  exists p m n, In p ps /\ In m (tp_find p input) /\ t_match o = set_name m n /\ forall a, gives_list h p a -> t_tags o = a.
Lemma name_own m : set_name m (m_name m) = m.
Proof. destruct m; reflexivity. Qed.
Lemma find_origin ps0 h0 input p : In p ps0 -> configured ps0 h0 -> forall ms st h1 l1, incl ms (tp_find p input) ->
  (th_next h0 <= th_next (fst st))%nat -> (forall x, (x < th_next h0)%nat -> th_cell (fst st) x = th_cell h0 x) -> Forall (origin ps0 h0 input) (snd st) ->
  fold_left (find_one (tp_tags p)) ms st = (h1, l1) ->
  (th_next h0 <= th_next h1)%nat /\ (forall x, (x < th_next h0)%nat -> th_cell h1 x = th_cell h0 x) /\ Forall (origin ps0 h0 input) l1.
Proof.
  intros Hp C. induction ms as [|m ms IH]; intros [h l] h1 l1 I N X F E; simpl in E; [injection E as <- <-; auto|].
  destruct (new_match h (tp_tags p) m) as [h2 o] eqn:E2. apply IH in E; auto.
  - intros y Hy. apply I. now right.
  - simpl. unfold new_match, th_new in E2. destruct (tp_tags p) as [a|]; [destruct (th_cell h a)|]; injection E2 as <- <-; simpl in *; lia.
  - simpl in *. intros x Hx. rewrite <- (X x Hx). unfold new_match, th_new in E2.
    destruct (tp_tags p) as [a|]; [destruct (th_cell h a)|]; injection E2 as <- <-; simpl; try reflexivity; (destruct (Nat.eqb_spec x (th_next h)); [lia|reflexivity]).
  - simpl in *. apply Forall_app. split; [exact F|]. constructor; [|constructor]. exists p, m, (m_name m). split; [exact Hp|]. split; [apply I; now left|].
    unfold new_match, th_new in E2. split; [destruct (tp_tags p) as [a|]; [destruct (th_cell h a)|]; injection E2 as <- <-; simpl; symmetry; apply name_own|].
    intros a [Ta Na]. rewrite Ta in E2. rewrite (X a (C p a Hp Ta)) in E2. destruct (th_cell h0 a); [congruence|]. injection E2 as <- <-. reflexivity.
Qed.
Lemma find_all_origin ps0 h0 input : configured ps0 h0 -> forall ps st h1 l1, incl ps ps0 ->
  (th_next h0 <= th_next (fst st))%nat -> (forall x, (x < th_next h0)%nat -> th_cell (fst st) x = th_cell h0 x) -> Forall (origin ps0 h0 input) (snd st) ->
  fold_left (fun st p => fold_left (find_one (tp_tags p)) (tp_find p input) st) ps st = (h1, l1) -> Forall (origin ps0 h0 input) l1.
Proof.
  intros C. induction ps as [|p ps IH]; intros st h1 l1 I N X F E; simpl in E; [subst st; exact F|].
  destruct (fold_left (find_one (tp_tags p)) (tp_find p input) st) as [h2 l2] eqn:E2.
  destruct (find_origin (I p (or_introl eq_refl)) C (fun y Hy => Hy) N X F E2) as (N' & X' & F'). eapply IH; [| | | |exact E]; auto. intros y Hy. apply I. now right.
Qed.
Lemma removed_from : forall s l r, (forall o, In o (fst (fold_left t_remove_one s (l, r))) -> In o l) /\ (forall o, In o (snd (fold_left t_remove_one s (l, r))) -> In o r \/ In o s).
Proof.
  assert (RF : forall (f : tobj -> bool) l l', remove_first f l = Some l' -> forall o, In o l' -> In o l).
  { clear. intros f. induction l as [|x l IH]; simpl; [discriminate|]. intros l' E o Ho. destruct (f x); [injection E as <-; auto|]. destruct (remove_first f l) eqn:E'; [|discriminate]. injection E as <-. destruct Ho as [->|Ho]; [auto|right; eapply IH; eauto]. }
  induction s as [|o s IH]; intros l r; simpl; [auto|]. destruct (t_in o l).
  - destruct (IH (t_remove o l) (r ++ [o])) as [I1 I2]. split.
    + intros x Hx. apply I1 in Hx. unfold t_remove in Hx. destruct (remove_first _ l) eqn:E; [eapply RF; eassumption|exact Hx].
    + intros x Hx. destruct (I2 x Hx) as [Y|Y]; [apply in_app_or in Y as [Y|[Y|[]]]; auto|auto].
  - destruct (IH l r) as [I1 I2]. split; [exact I1|]. intros x Hx. destruct (I2 x Hx); auto.
Qed.
Lemma appended_from : forall a l o, In o (fold_left t_append_one a l) -> In o l \/ In o a.
Proof. induction a as [|o a IH]; intros l x Hx; simpl in *; [auto|]. destruct (IH _ _ Hx) as [Y|Y]; [|auto]. unfold t_append_one in Y. destruct (t_in o l); [auto|]. apply in_app_or in Y as [Y|[Y|[]]]; auto. Qed.
Lemma picked_from l is : forall o, In o (picked l is) -> In o l.
Proof. intros o Ho. apply in_flat_map in Ho as (i & _ & Ho). destruct (nth_error l i) eqn:E; [|destruct Ho]. destruct Ho as [<-|[]]. eapply nth_error_In; exact E. Qed.
Lemma run_rule_origin ps h0 input st r : Forall (origin ps h0 input) (snd st) -> Forall (origin ps h0 input) (snd (run_rule st r)).
Proof.
  destruct st as [h l]. simpl. intro F. rewrite Forall_forall in F. unfold run_rule. set (sel := picked l _). assert (forall o, In o sel -> In o l) as S by apply picked_from.
  destruct (removed_from sel l []) as [R1 R2]. destruct (tr_action r) as [|n|e]; simpl.
  - apply Forall_forall. auto.
  - destruct (fold_left t_remove_one sel (l, [])) as [l1 rm]. simpl in *. apply Forall_forall. intros o Ho. apply appended_from in Ho as [Ho|Ho]; [auto|].
    apply in_map_iff in Ho as (o' & <- & Ho). destruct (R2 _ Ho) as [[]|Z]. destruct (F _ (S _ Z)) as (p & m & k & Hp & Hm & E & L). exists p, m, n. repeat split; auto. simpl. rewrite E. destruct m; reflexivity.
  - destruct (fold_left t_remove_one sel (l, [])) as [l1 rm]. simpl in *. apply Forall_forall. intros o Ho. apply appended_from in Ho as [Ho|Ho]; [auto|]. destruct (R2 _ Ho) as [[]|Z]. auto.
Qed.
Lemma run_rules_origin ps h0 input : forall rules st, Forall (origin ps h0 input) (snd st) -> Forall (origin ps h0 input) (snd (fold_left run_rule rules st)).
Proof. induction rules as [|r rules IH]; intros st F; simpl; [exact F|]. apply IH, run_rule_origin, F. Qed.

(** ** C143: theorems *)
(** Every match returned was found by a pattern (its name may have been changed); if that pattern had tags, the match shows the
    tags the pattern has after the call: all the matches of the pattern show the same ones, and the next call starts with them *)
Theorem C143_matches_show_the_list : forall ps rules h input m, configured ps h -> In m (snd (t_matches ps rules h input)) ->
  exists p m0 n, In p ps /\ In m0 (tp_find p input) /\ m = set_tags (set_name m0 n) (m_tags m)
    /\ forall a, gives_list h p a -> m_tags m = th_cell (fst (t_matches ps rules h input)) a.
Proof.
  intros ps rules h input m C Hm. unfold t_matches in *.
  assert (Forall (origin ps h input) (snd (fold_left run_rule rules (find_all ps input h)))) as F.
  { apply run_rules_origin. unfold find_all. destruct (fold_left _ ps (h, [])) as [h1 l1] eqn:E. simpl. eapply find_all_origin; [exact C| | | | |exact E]; simpl; auto. intros x Hx. exact Hx. }
  destruct (fold_left run_rule rules (find_all ps input h)) as [h' l]. simpl in *. apply in_map_iff in Hm as (o & <- & Ho). rewrite Forall_forall in F. destruct (F o Ho) as (p & m & n & Hp & Hm & E & L).
  exists p, m, n. split; [exact Hp|]. split; [exact Hm|]. split; [unfold tview; rewrite E; destruct m; reflexivity|]. intros a G. unfold tview. rewrite (L a G). destruct (t_match o); reflexivity.
Qed.
(** A pattern without tags never gets any *)
Theorem C143_untagged_stay_untagged : forall ps rules inputs h p a, configured ps h -> In p ps -> tp_tags p = Some a -> th_cell h a = [] ->
  th_cell (fst (t_calls ps rules h inputs)) a = [].
Proof.
  intros ps rules. induction inputs as [|i inputs IH]; intros h p a C Hp Ha E; simpl; [exact E|].
  assert (th_cell (fst (t_matches ps rules h i)) a = []) as X.
  { unfold t_matches. destruct (find_all ps i h) as [h1 l1] eqn:Ef. unfold find_all in Ef. destruct (find_all_lists Ef (x := a)) as [F1 F2]; [simpl; eapply C; eassumption|]. simpl in *.
    pose proof (@run_rules_tags a rules (h1, l1)) as R. destruct (fold_left run_rule rules (h1, l1)) as [h2 l2]. simpl in *. rewrite R; [congruence|].
    left. intros o Ho Eo. destruct (F2 o Ho Eo) as [[]|(q & _ & _ & Z)]. congruence. }
  pose proof (configured_matches rules i C) as C'. destruct (t_matches ps rules h i) as [h1 l1]. simpl in *. specialize (IH h1 p a C' Hp Ha X). destruct (t_calls ps rules h1 inputs) as [h2 ls]. exact IH.
Qed.
(** A rule changing the tags of some members changes each list as many times as the members it selects hold it: so every member
    sees the changes made for all the members of its pattern.  No member is lost *)
Lemma meq_rfl m : meq m m = true. Proof. apply meq_refl. Qed.
Lemma edits_times e : forall rm h x, th_cell (fold_left (edit_one e) rm h) x = times (holding x rm) e (th_cell h x).
Proof.
  induction rm as [|o rm IH]; intros h x; [reflexivity|]. cbn [fold_left]. rewrite IH. unfold holding. cbn [filter]. unfold edit_one, th_set. cbn [th_cell]. rewrite (Nat.eqb_sym x).
  destruct (Nat.eqb_spec (t_tags o) x) as [->|_]; reflexivity.
Qed.
Definition distinct (l : list tobj) : Prop := ForallOrdPairs (fun o o' => meq (t_match o) (t_match o') = false) l.
Lemma all_different_distinct l : all_different l -> distinct l.
Proof.
  induction l as [|x l IH]; intro D; [constructor|]. constructor.
  - apply Forall_forall. intros y Hy. apply In_nth_error in Hy as (j & Hj). destruct (meq (t_match x) (t_match y)) eqn:E; [|reflexivity]. specialize (D 0%nat (S j) x y eq_refl Hj E). discriminate.
  - apply IH. intros i j o o' Hi Hj E. specialize (D (S i) (S j) o o' Hi Hj E). congruence.
Qed.
Lemma distinct_perm l l' : Permutation l l' -> distinct l -> distinct l'.
Proof.
  intro P. induction P as [|x l l' P IH|x y l|l l' l'' P1 IH1 P2 IH2]; intro D; auto.
  - inversion D as [|? ? F D']; subst. constructor; [|exact (IH D')]. rewrite Forall_forall in *. intros z Hz. apply F. eapply Permutation_in; [symmetry; exact P|exact Hz].
  - inversion D as [|? ? F D']; subst. inversion D' as [|? ? F' D'']; subst. inversion F as [|? ? F1 F2]; subst. constructor; [constructor; [|exact F']|constructor; [exact F2|exact D'']]. rewrite meq_sym. exact F1.
Qed.
Lemma remove_distinct : forall sel l r rest, distinct l -> Permutation (sel ++ rest) l ->
  exists l1, fold_left t_remove_one sel (l, r) = (l1, r ++ sel) /\ Permutation rest l1.
Proof.
  induction sel as [|o sel IH]; intros l r rest D P; simpl; [exists l; rewrite app_nil_r; auto|].
  assert (In o l) as Ho by (eapply Permutation_in; [exact P|now left]).
  assert (t_in o l = true) as ->. { apply existsb_exists. exists o. split; [exact Ho|apply meq_rfl]. }
  assert (exists l', remove_first (fun x => meq (t_match x) (t_match o)) l = Some l' /\ Permutation l (o :: l')) as (l' & E & Q).
  { clear - D Ho. induction l as [|x l IH]; [destruct Ho|]. simpl. inversion D as [|? ? F D']; subst. destruct (meq (t_match x) (t_match o)) eqn:Em.
    - destruct Ho as [->|Ho]; [exists l; auto|]. rewrite Forall_forall in F. specialize (F o Ho). congruence.
    - destruct Ho as [->|Ho]; [rewrite meq_rfl in Em; discriminate|]. destruct (IH D' Ho) as (l' & -> & Q). exists (x :: l'). split; [reflexivity|]. rewrite Q. apply perm_swap. }
  unfold t_remove. rewrite E. destruct (IH l' (r ++ [o]) rest) as (l1 & E1 & P1).
  - apply (distinct_perm Q) in D. inversion D; assumption.
  - apply Permutation_cons_inv with o. rewrite <- Q. exact P.
  - exists l1. rewrite E1, <- app_assoc. auto.
Qed.
Lemma append_distinct : forall a l, distinct (l ++ a) -> fold_left t_append_one a l = l ++ a.
Proof.
  induction a as [|o a IH]; intros l D; simpl; [now rewrite app_nil_r|]. unfold t_append_one at 2. assert (t_in o l = false) as ->.
  { destruct (t_in o l) eqn:T; [|reflexivity]. apply existsb_exists in T as (x & Hx & E). exfalso. clear - D Hx E. induction l as [|y l IH]; [destruct Hx|]. inversion D as [|? ? F D']; subst. destruct Hx as [->|Hx]; [|auto].
    rewrite Forall_forall in F. rewrite F in E; [discriminate|]. apply in_or_app. right. now left. }
  rewrite IH; rewrite <- app_assoc; auto.
Qed.
Lemma NoDup_app_intro_tags {A} (a b : list A) : NoDup a -> NoDup b -> (forall x, In x a -> In x b -> False) -> NoDup (a ++ b).
Proof. intros Na Nb D. induction Na as [|x a Hx Na IH]; simpl; [exact Nb|]. constructor; [|apply IH; intros y Hy; apply D; now right]. rewrite in_app_iff. intros [H|H]; [contradiction|]. apply (D x); [now left|exact H]. Qed.
Lemma picked_split : forall is (l : list tobj), NoDup is -> (forall i, In i is -> (i < length l)%nat) -> exists rest, Permutation (picked l is ++ rest) l.
Proof.
  intros is l N B.
  assert (exists js, Permutation (is ++ js) (seq 0 (length l))) as (js & P).
  { exists (filter (fun i => negb (existsb (Nat.eqb i) is)) (seq 0 (length l))). apply NoDup_Permutation.
    - apply NoDup_app_intro_tags; [exact N|apply NoDup_filter, seq_NoDup|]. intros x Hx Hf. apply filter_In in Hf as [_ Hf]. apply negb_true_iff in Hf. assert (existsb (Nat.eqb x) is = true) by (apply existsb_exists; exists x; split; [exact Hx|apply Nat.eqb_refl]). congruence.
    - apply seq_NoDup.
    - intro x. rewrite in_app_iff, filter_In, in_seq. split; [intros [H|[H _]]; [specialize (B x H)|]; lia|]. intro H. destruct (existsb (Nat.eqb x) is) eqn:E; [left; apply existsb_exists in E as (y & Hy & E); apply Nat.eqb_eq in E; now subst|right; auto]. }
  exists (picked l js). unfold picked. rewrite <- flat_map_app. rewrite P. clear. 
  assert (forall (l pre : list tobj), flat_map (fun i => match nth_error (pre ++ l) i with Some o => [o] | None => [] end) (seq (length pre) (length l)) = l) as X.
  { clear. induction l as [|x l IH]; intro pre; [reflexivity|]. cbn [length seq flat_map]. rewrite nth_error_app2 by lia. rewrite Nat.sub_diag. cbn [nth_error app]. f_equal.
    specialize (IH (pre ++ [x])). rewrite app_length, Nat.add_1_r, <- app_assoc in IH. exact IH. }
  pose proof (X l []) as X0. cbn [app length] in X0. rewrite X0. reflexivity.
Qed.
Theorem C143_one_rule : forall h l w e, all_different l -> let is := w (map (tview h) l) in NoDup is -> (forall i, In i is -> (i < length l)%nat) ->
  let st := run_rule (h, l) (TRule w (TTags e)) in
  Permutation (snd st) l /\ forall x, th_cell (fst st) x = times (holding x (picked l is)) e (th_cell h x).
Proof.
  intros h l w e D is N B st. destruct (picked_split N B) as (rest & P). destruct (remove_distinct [] (all_different_distinct D) P) as (l1 & E & P1).
  assert (st = (fold_left (edit_one e) (picked l is) h, fold_left t_append_one (picked l is) l1)) as ->.
  { unfold st, run_rule. cbn [tr_when tr_action]. fold is. rewrite E. reflexivity. }
  cbn [fst snd]. split; [|intro x; apply edits_times].
  rewrite append_distinct; [rewrite <- P1, Permutation_app_comm; exact P|].
  apply (distinct_perm (l := l)); [rewrite <- P1, Permutation_app_comm; symmetry; exact P|exact (all_different_distinct D)].
Qed.

(** A rule renaming some members gives these, and no others, the new name; no member is lost, no tag changes.  The new list must still
    be free of equal matches: of two matches with one span, value and parent which get one name only one is kept *)
Theorem C143_renaming_rule : forall h l w n d, all_different l -> let is := w (map (tview h) l) in NoDup is -> (forall i, In i is -> (i < length l)%nat) ->
  let renamed := map (fun i => let o := nth i l d in if existsb (Nat.eqb i) is then TObj (set_name (t_match o) n) (t_tags o) else o) (seq 0 (length l)) in
  all_different renamed ->
  let st := run_rule (h, l) (TRule w (TRename n)) in Permutation (snd st) renamed /\ fst st = h.
Proof.
  intros h l w n d D is N B renamed D' st.
  set (js := filter (fun i => negb (existsb (Nat.eqb i) is)) (seq 0 (length l))).
  assert (forall i, existsb (Nat.eqb i) is = true <-> In i is) as X.
  { intro i. rewrite existsb_exists. split; [intros (y & Hy & E); apply Nat.eqb_eq in E; now subst|intro H; exists i; split; [exact H|apply Nat.eqb_refl]]. }
  assert (Permutation (is ++ js) (seq 0 (length l))) as P.
  { apply NoDup_Permutation.
    - apply NoDup_app_intro_tags; [exact N|apply NoDup_filter, seq_NoDup|]. intros x Hx Hf. apply filter_In in Hf as [_ Hf]. apply negb_true_iff in Hf. apply X in Hx. congruence.
    - apply seq_NoDup.
    - intro x. unfold js. rewrite in_app_iff, filter_In, in_seq. split; [intros [H|[H _]]; [specialize (B x H)|]; lia|]. intro H. destruct (existsb (Nat.eqb x) is) eqn:E; [left; now apply X|right; auto]. }
  assert (forall ks, (forall i, In i ks -> (i < length l)%nat) -> picked l ks = map (fun i => nth i l d) ks) as K.
  { induction ks as [|k ks IH]; intro Bk; [reflexivity|]. unfold picked. cbn [flat_map map]. rewrite (nth_error_nth' l d (Bk k (or_introl eq_refl))). cbn [app]. f_equal. apply IH. intros i Hi. apply Bk. now right. }
  assert (forall i, In i js -> (i < length l)%nat /\ existsb (Nat.eqb i) is = false) as J.
  { intros i Hi. apply filter_In in Hi as [Hi Hn]. apply in_seq in Hi. apply negb_true_iff in Hn. split; [lia|exact Hn]. }
  assert (Permutation (picked l is ++ picked l js) l) as PL.
  { rewrite K by exact B. rewrite K by (intros i Hi; apply J, Hi). rewrite <- map_app, P. clear. 
    replace (map (fun i => nth i l d) (seq 0 (length l))) with l; [reflexivity|]. apply nth_ext with d d; [now rewrite map_length, seq_length|]. intros k Hk.
    rewrite (nth_indep (map _ _) d ((fun i => nth i l d) 0%nat)) by (rewrite map_length, seq_length; exact Hk). rewrite (map_nth (fun i => nth i l d)), seq_nth by exact Hk. reflexivity. }
  destruct (remove_distinct [] (all_different_distinct D) PL) as (l1 & E & P1).
  assert (Permutation (l1 ++ map (rename_obj n) (picked l is)) renamed) as PR.
  { unfold renamed. rewrite <- P, map_app, <- P1, Permutation_app_comm. apply Permutation_app.
    - rewrite K by exact B. rewrite map_map. erewrite map_ext_in; [reflexivity|]. intros i Hi. cbn beta zeta. apply X in Hi. rewrite Hi. reflexivity.
    - rewrite K by (intros i Hi; apply J, Hi). erewrite map_ext_in; [reflexivity|]. intros i Hi. cbn beta zeta. destruct (J i Hi) as [_ ->]. reflexivity. }
  assert (st = (h, fold_left t_append_one (map (rename_obj n) (picked l is)) l1)) as ->.
  { unfold st, run_rule. cbn [tr_when tr_action]. fold is. rewrite E. reflexivity. }
  cbn [fst snd]. split; [|reflexivity]. rewrite append_distinct; [exact PR|]. apply (distinct_perm (Permutation_sym PR)), all_different_distinct, D'.
Qed.

(** With rules that only add tags, the tags of a pattern only grow, by tags which the rules add *)
Lemma run_rule_adds rules h0 st r : In r rules -> adding r ->
  (forall a, exists extra, th_cell (fst st) a = th_cell h0 a ++ extra /\ forall t, In t extra -> tag_added rules t) ->
  forall a, exists extra, th_cell (fst (run_rule st r)) a = th_cell h0 a ++ extra /\ forall t, In t extra -> tag_added rules t.
Proof.
  intros Hr A H a. destruct st as [h l]. unfold run_rule. set (sel := picked l _). destruct (tr_action r) as [|n|e] eqn:Er; simpl; [apply H|..].
  - destruct (fold_left t_remove_one sel (l, [])). apply H.
  - destruct (A e Er) as (ts & Ets). destruct (fold_left t_remove_one sel (l, [])) as [l1 rm]. cbn [fst]. rewrite edits_times. destruct (H a) as (extra & E & X). cbn [fst] in E. rewrite E. rewrite Er in Ets. unfold append_tags in Ets. injection Ets as ->.
    generalize (holding a rm) as k. intro k. clear E. revert extra X. induction k as [|k IH]; intros extra X; cbn [times]; [exists extra; auto|].
    rewrite <- app_assoc. apply IH. intros t Ht. apply in_app_or in Ht as [Ht|Ht]; [auto|]. exists r, ts. auto.
Qed.
Theorem C143_tags_only_grow : forall ps rules inputs h p a, configured ps h -> (forall r, In r rules -> adding r) -> In p ps -> tp_tags p = Some a ->
  exists extra, th_cell (fst (t_calls ps rules h inputs)) a = th_cell h a ++ extra /\ forall t, In t extra -> tag_added rules t.
Proof.
  intros ps rules inputs h p a C A Hp Ha. revert h C. induction inputs as [|i inputs IH]; intros h C; simpl; [exists []; rewrite app_nil_r; split; [reflexivity|intros t []]|].
  assert (exists extra, th_cell (fst (t_matches ps rules h i)) a = th_cell h a ++ extra /\ forall t, In t extra -> tag_added rules t) as (x1 & E1 & X1).
  { unfold t_matches. destruct (find_all ps i h) as [h1 l1] eqn:Ef. unfold find_all in Ef. destruct (find_all_lists Ef (x := a)) as [F1 _]; [simpl; eapply C; eassumption|]. cbn [fst] in F1. rewrite <- F1.
    assert (forall rs st, incl rs rules -> (forall b, exists extra, th_cell (fst st) b = th_cell h1 b ++ extra /\ forall t, In t extra -> tag_added rules t) ->
      forall b, exists extra, th_cell (fst (fold_left run_rule rs st)) b = th_cell h1 b ++ extra /\ forall t, In t extra -> tag_added rules t) as Y.
    { induction rs as [|r rs IHr]; intros st I H b; simpl; [apply H|]. apply IHr; [intros y Hy; apply I; now right|]. apply run_rule_adds; auto; [apply I; now left|apply A, I; now left]. }
    destruct (Y rules (h1, l1)) with (b := a) as (extra & E & X); [intros y Hy; exact Hy|intro b; exists []; rewrite app_nil_r; split; [reflexivity|intros t []]|].
    exists extra. destruct (fold_left run_rule rules (h1, l1)) as [h2 l2]. exact (conj E X). }
  pose proof (configured_matches rules i C) as C'. destruct (t_matches ps rules h i) as [h1 l1]. simpl in *. destruct (IH h1 C') as (x2 & E2 & X2). destruct (t_calls ps rules h1 inputs) as [h2 ls]. simpl in *.
  exists (x1 ++ x2). rewrite E2, E1, app_assoc. split; [reflexivity|]. intros t Ht. apply in_app_or in Ht as [Ht|Ht]; auto.
Qed.
(** What a call returns, and leaves in the lists, depends on the calls made before through the contents of the lists only *)
Theorem C143_history_is_in_the_lists : forall ps rules h before before' input, configured ps h ->
  same_lists ps (fst (t_calls ps rules h before)) (fst (t_calls ps rules h before')) ->
  snd (t_matches ps rules (fst (t_calls ps rules h before')) input) = snd (t_matches ps rules (fst (t_calls ps rules h before)) input)
  /\ same_lists ps (fst (t_matches ps rules (fst (t_calls ps rules h before)) input)) (fst (t_matches ps rules (fst (t_calls ps rules h before')) input)).
Proof.
  intros ps rules h before before' input C S. assert (forall l h, configured ps h -> configured ps (fst (t_calls ps rules h l))) as X.
  { clear. induction l as [|i l IH]; intros h C; simpl; [exact C|]. pose proof (configured_matches rules i C) as C'. destruct (t_matches ps rules h i) as [h1 l1]. simpl in *. specialize (IH h1 C'). destruct (t_calls ps rules h1 l). exact IH. }
  apply matches_rel; auto.
Qed.
(** *** Case: string("a", tags=["t"]) and string("b") on "aab", the rule adds "u" to the first match: both matches of the first pattern show it, the
    other does not; the second call starts with it *)
Definition found_at (n : nat) (i : Z) : mtch := Mtch n i (i + 1)%Z VNone None [] false false None None (Some (s "aab")) None None 0 (Some n) None [].
Definition case_patterns : list tpattern := [TPat (Some 0%nat) (fun _ => [found_at 0 0; found_at 0 1]); TPat (Some 1%nat) (fun _ => [found_at 1 2])].
Definition case_heap : tags_heap := THeap 2 (fun a => if Nat.eqb a 0 then [s "t"] else []).
Definition case_rule : trule := TRule (fun _ => [0%nat; 2%nat]) (append_tags [s "u"]).
Example C143_case : configured case_patterns case_heap /\ adding case_rule /\ all_different (snd (find_all case_patterns (s "aab") case_heap))
  /\ map (map m_tags) (snd (t_calls case_patterns [case_rule] case_heap [s "aab"; s "aab"]))
     = [[[s "t"; s "u"]; [s "t"; s "u"]; [s "u"]]; [[s "t"; s "u"; s "u"]; [s "t"; s "u"; s "u"]; [s "u"]]].
Proof.
  split; [|split; [|split]].
  - intros p a [<-|[<-|[]]] E; injection E as <-; cbn; lia.
  - intros e _. eexists. reflexivity.
  - intros i j o o' Hi Hj E. destruct i as [|[|[|i]]], j as [|[|[|j]]]; try reflexivity; cbn in Hi, Hj; try (destruct i; discriminate); try (destruct j; discriminate);
      injection Hi as <-; injection Hj as <-; vm_compute in E; discriminate.
  - vm_compute. reflexivity.
Qed.
(** the hypotheses of [C143_renaming_rule] on the same matches, for a rule which renames the second one *)
Example C143_renaming_case : let l := snd (find_all case_patterns (s "aab") case_heap) in let h := fst (find_all case_patterns (s "aab") case_heap) in
  let renamed := map (fun i => let o := nth i l (TObj (found_at 0 0) 0) in if existsb (Nat.eqb i) [1%nat] then TObj (set_name (t_match o) (Some (s "n"))) (t_tags o) else o) (seq 0 (length l)) in
  all_different l /\ all_different renamed
  /\ map (fun o => m_name (t_match o)) (snd (run_rule (h, l) (TRule (fun _ => [1%nat]) (TRename (Some (s "n")))))) = [None; None; Some (s "n")].
Proof.
  split; [|split; [|vm_compute; reflexivity]];
    intros i j o o' Hi Hj E; destruct i as [|[|[|i]]], j as [|[|[|j]]]; try reflexivity; cbn in Hi, Hj; try (destruct i; discriminate); try (destruct j; discriminate);
      injection Hi as <-; injection Hj as <-; vm_compute in E; discriminate.
Qed.
Print Assumptions C143_matches_show_the_list.
Print Assumptions C143_one_rule.
Print Assumptions C143_renaming_rule.
Print Assumptions C143_tags_only_grow.
