(** * Property C50: several calls of matches() *)
From Verif Require Import Base BaseFacts Match MatchFacts Conseq TagHeap.
From Coq Require String.
Export Coq.Strings.String.StringSyntax.
Open Scope string_scope.
Open Scope list_scope.
Set Implicit Arguments.
Unset Strict Implicit.

(** ** Specification *)
(** the tag lists of the patterns contain the same tags in both heaps *)
Definition same_lists (ps : list tpattern) (h h' : tags_heap) : Prop := forall p a, In p ps -> tp_tags p = Some a -> th_cell h' a = th_cell h a.
(** a Rebulk object as just configured: its lists exist *)
Definition configured (ps : list tpattern) (h : tags_heap) : Prop := forall p a, In p ps -> tp_tags p = Some a -> (a < th_next h)%nat.
Definition no_tag_rule (rules : list trule) : Prop := forall r e, In r rules -> tr_action r <> TTags e.
Definition no_tags (ps : list tpattern) (h : tags_heap) : Prop := forall p a, In p ps -> tp_tags p = Some a -> th_cell h a = [].

(** ** Proofs: a call only depends on the contents of the lists *)
(** the same objects up to the place of their lists *)
Record related (R : nat -> nat -> Prop) (h h' : tags_heap) : Prop := {
  re_alloc : forall a b, R a b -> (a < th_next h)%nat /\ (b < th_next h')%nat;
  re_fun : forall a b b', R a b -> R a b' -> b = b';
  re_inj : forall a a' b, R a b -> R a' b -> a = a';
  re_cell : forall a b, R a b -> th_cell h a = th_cell h' b
}.
Definition rel_obj (R : nat -> nat -> Prop) (o o' : tobj) : Prop := t_match o = t_match o' /\ R (t_tags o) (t_tags o').
Definition extends (R R' : nat -> nat -> Prop) : Prop := forall a b, R a b -> R' a b.
Lemma rel_extends R R' l l' : extends R R' -> Forall2 (rel_obj R) l l' -> Forall2 (rel_obj R') l l'.
Proof. intros E H. induction H as [|x y l l' [X Y] H IH]; constructor; [split; [exact X|apply E, Y]|exact IH]. Qed.
Lemma related_new R h h' l : related R h h' -> related (fun a b => R a b \/ (a = th_next h /\ b = th_next h')) (fst (th_new h l)) (fst (th_new h' l)).
Proof.
  intros [A F I C]. constructor; simpl.
  - intros a b [H|[-> ->]]; [destruct (A _ _ H)|]; lia.
  - intros a b b' [H|[-> ->]] [H'|[X ->]]; eauto.
    + subst. destruct (A _ _ H). lia.
    + destruct (A _ _ H'). lia.
  - intros a a' b [H|[-> ->]] [H'|[-> X]]; eauto.
    + subst. destruct (A _ _ H). lia.
    + destruct (A _ _ H'). lia.
  - intros a b [H|[-> ->]].
    + destruct (A _ _ H). destruct (Nat.eqb a (th_next h)) eqn:E; [apply Nat.eqb_eq in E; lia|]. destruct (Nat.eqb b (th_next h')) eqn:E'; [apply Nat.eqb_eq in E'; lia|]. apply C, H.
    + now rewrite !Nat.eqb_refl.
Qed.
Definition rel_tags (R : nat -> nat -> Prop) (t t' : option nat) : Prop := match t, t' with None, None => True | Some a, Some b => R a b | _, _ => False end.
Lemma new_match_rel R h h' t t' m h1 o h1' o' : related R h h' -> rel_tags R t t' -> new_match h t m = (h1, o) -> new_match h' t' m = (h1', o') ->
  exists R', extends R R' /\ related R' h1 h1' /\ rel_obj R' o o' /\ forall a b, R' a b -> R a b \/ (th_next h <= a /\ th_next h' <= b)%nat.
Proof.
  intros Re T E E'.
  assert (New : (let '(g, b) := th_new h [] in (g, TObj m b)) = (h1, o) -> (let '(g, b) := th_new h' [] in (g, TObj m b)) = (h1', o') ->
     exists R', extends R R' /\ related R' h1 h1' /\ rel_obj R' o o' /\ forall a b, R' a b -> R a b \/ (th_next h <= a /\ th_next h' <= b)%nat).
  { intros X Y. unfold th_new in X, Y. injection X as <- <-. injection Y as <- <-. exists (fun a b => R a b \/ (a = th_next h /\ b = th_next h')).
    split; [intros a b H; auto|]. split; [apply (related_new [] Re)|]. split; [split; [reflexivity|right; auto]|]. intros a b [H|[-> ->]]; auto. }
  unfold new_match in E, E'. destruct t as [a|], t' as [b|]; simpl in T; try contradiction; [|apply New; assumption].
  rewrite (re_cell Re T) in E. destruct (th_cell h' b); [apply New; assumption|]. injection E as <- <-. injection E' as <- <-.
  exists R. split; [intros x y H; exact H|]. split; [exact Re|]. split; [split; [reflexivity|exact T]|auto].
Qed.
Lemma find_rel : forall ms R h h' l l' t t' h1 l1 h1' l1', related R h h' -> rel_tags R t t' -> Forall2 (rel_obj R) l l' ->
  fold_left (find_one t) ms (h, l) = (h1, l1) -> fold_left (find_one t') ms (h', l') = (h1', l1') ->
  exists R', extends R R' /\ related R' h1 h1' /\ Forall2 (rel_obj R') l1 l1'.
Proof.
  induction ms as [|m ms IH]; intros R h h' l l' t t' h1 l1 h1' l1' Re T F E E'; simpl in E, E'.
  - injection E as <- <-. injection E' as <- <-. exists R. split; [intros a b H; exact H|auto].
  - destruct (new_match h t m) as [h2 o] eqn:E2. destruct (new_match h' t' m) as [h2' o'] eqn:E2'. destruct (new_match_rel Re T E2 E2') as (R' & X & Re' & Ro & _).
    destruct (IH R' h2 h2' (l ++ [o]) (l' ++ [o']) t t' h1 l1 h1' l1' Re') as (R2 & Y & Re2 & F2); auto.
    + destruct t, t'; simpl in *; auto.
    + apply Forall2_app; [eapply rel_extends; eassumption|constructor; [exact Ro|constructor]].
    + exists R2. split; [intros a b H; apply Y, X, H|auto].
Qed.
Lemma find_all_rel : forall ps ps' input R h h' l l' h1 l1 h1' l1', Forall2 (fun p p' => tp_find p = tp_find p' /\ rel_tags R (tp_tags p) (tp_tags p')) ps ps' ->
  related R h h' -> Forall2 (rel_obj R) l l' ->
  fold_left (fun st p => fold_left (find_one (tp_tags p)) (tp_find p input) st) ps (h, l) = (h1, l1) ->
  fold_left (fun st p => fold_left (find_one (tp_tags p)) (tp_find p input) st) ps' (h', l') = (h1', l1') ->
  exists R', extends R R' /\ related R' h1 h1' /\ Forall2 (rel_obj R') l1 l1'.
Proof.
  induction ps as [|p ps IH]; intros ps' input R h h' l l' h1 l1 h1' l1' P Re F E E'; inversion P as [|? p' ? ps0 [Pf Pt] P']; subst; simpl in E, E'.
  - injection E as <- <-. injection E' as <- <-. exists R. split; [intros a b H; exact H|auto].
  - rewrite Pf in E. destruct (fold_left (find_one (tp_tags p)) (tp_find p' input) (h, l)) as [h2 l2] eqn:E2. destruct (fold_left (find_one (tp_tags p')) (tp_find p' input) (h', l')) as [h2' l2'] eqn:E2'.
    destruct (find_rel Re Pt F E2 E2') as (R' & X & Re' & F'). destruct (IH ps0 input R' h2 h2' l2 l2' h1 l1 h1' l1') as (R2 & Y & Re2 & F2); auto.
    + clear -P' X. induction P' as [|q q' qs qs' [A B] H IH]; constructor; [split; [exact A|]|exact IH]. destruct (tp_tags q), (tp_tags q'); simpl in *; auto.
    + exists R2. split; [intros a b H; apply Y, X, H|auto].
Qed.
Lemma views_rel R h h' l l' : related R h h' -> Forall2 (rel_obj R) l l' -> map (tview h) l = map (tview h') l'.
Proof. intros Re F. induction F as [|o o' l l' [X Y] F IH]; simpl; [reflexivity|]. f_equal; [|exact IH]. unfold tview. now rewrite X, (re_cell Re Y). Qed.
Lemma picked_rel R l l' is : Forall2 (rel_obj R) l l' -> Forall2 (rel_obj R) (picked l is) (picked l' is).
Proof.
  intro F. induction is as [|i is IH]; simpl; [constructor|]. apply Forall2_app; [|exact IH].
  assert (match nth_error l i, nth_error l' i with Some o, Some o' => rel_obj R o o' | None, None => True | _, _ => False end) as X.
  { clear -F. revert i. induction F as [|o o' l l' H F IH]; intros [|i]; simpl; auto. apply IH. }
  destruct (nth_error l i), (nth_error l' i); try contradiction; [constructor; [exact X|constructor]|constructor].
Qed.
Lemma t_in_rel R l l' o o' : Forall2 (rel_obj R) l l' -> rel_obj R o o' -> t_in o l = t_in o' l'.
Proof. intros F [X _]. unfold t_in. rewrite X. induction F as [|x x' l l' [Y _] F IH]; simpl; [reflexivity|]. now rewrite Y, IH. Qed.
Lemma t_remove_rel R l l' o o' : Forall2 (rel_obj R) l l' -> rel_obj R o o' -> Forall2 (rel_obj R) (t_remove o l) (t_remove o' l').
Proof.
  intros F [X _]. unfold t_remove. rewrite X.
  assert (match remove_first (fun x => meq (t_match x) (t_match o')) l, remove_first (fun x => meq (t_match x) (t_match o')) l' with Some a, Some b => Forall2 (rel_obj R) a b | None, None => True | _, _ => False end) as Y.
  { induction F as [|x x' l l' Hx F IH]; simpl; [auto|]. destruct Hx as [Y Z]. rewrite Y. destruct (meq (t_match x') (t_match o')); [exact F|].
    destruct (remove_first _ l), (remove_first _ l'); try contradiction; auto. constructor; [split; assumption|exact IH]. }
  destruct (remove_first _ l), (remove_first _ l'); try contradiction; assumption.
Qed.
Lemma remove_all_rel R : forall sel sel' l l' r r', Forall2 (rel_obj R) sel sel' -> Forall2 (rel_obj R) l l' -> Forall2 (rel_obj R) r r' ->
  Forall2 (rel_obj R) (fst (fold_left t_remove_one sel (l, r))) (fst (fold_left t_remove_one sel' (l', r'))) /\ Forall2 (rel_obj R) (snd (fold_left t_remove_one sel (l, r))) (snd (fold_left t_remove_one sel' (l', r'))).
Proof.
  intros sel sel' l l' r r' F. revert l l' r r'. induction F as [|o o' sel sel' Ho F IH]; intros l l' r r' Fl Fr; simpl; [auto|].
  rewrite (t_in_rel Fl Ho). destruct (t_in o' l'); apply IH; auto; [apply t_remove_rel; assumption|apply Forall2_app; [exact Fr|constructor; [exact Ho|constructor]]].
Qed.
Lemma append_all_rel R : forall a a' l l', Forall2 (rel_obj R) a a' -> Forall2 (rel_obj R) l l' -> Forall2 (rel_obj R) (fold_left t_append_one a l) (fold_left t_append_one a' l').
Proof.
  intros a a' l l' F. revert l l'. induction F as [|o o' a a' Ho F IH]; intros l l' Fl; simpl; [exact Fl|]. apply IH. unfold t_append_one. rewrite (t_in_rel Fl Ho).
  destruct (t_in o' l'); [exact Fl|]. apply Forall2_app; [exact Fl|constructor; [exact Ho|constructor]].
Qed.
Lemma edit_rel R e : forall l l' h h', Forall2 (rel_obj R) l l' -> related R h h' -> related R (fold_left (edit_one e) l h) (fold_left (edit_one e) l' h').
Proof.
  intros l l' h h' F. revert h h'. induction F as [|o o' l l' [X Y] F IH]; intros h h' Re; simpl; [exact Re|]. apply IH. destruct Re as [A Fu I C].
  constructor; simpl; auto. intros a b H. rewrite (C _ _ Y). destruct (Nat.eqb a (t_tags o)) eqn:E.
  - apply Nat.eqb_eq in E. subst a. rewrite (Fu _ _ _ H Y). now rewrite Nat.eqb_refl.
  - destruct (Nat.eqb b (t_tags o')) eqn:E'; [|apply C, H]. apply Nat.eqb_eq in E'. subst b. rewrite (I _ _ _ H Y), Nat.eqb_refl in E. discriminate.
Qed.
Lemma run_rule_rel R h h' l l' r : related R h h' -> Forall2 (rel_obj R) l l' ->
  related R (fst (run_rule (h, l) r)) (fst (run_rule (h', l') r)) /\ Forall2 (rel_obj R) (snd (run_rule (h, l) r)) (snd (run_rule (h', l') r)).
Proof.
  intros Re F. unfold run_rule. rewrite (views_rel Re F). set (is := tr_when r (map (tview h') l')). pose proof (picked_rel is F) as P.
  assert (N : Forall2 (rel_obj R) (@nil tobj) []) by constructor.
  destruct (tr_action r) as [|n|e]; simpl; [auto| |].
  - destruct (remove_all_rel P F N) as [A B]. destruct (fold_left t_remove_one (picked l is) (l, [])) as [l1 r1]. destruct (fold_left t_remove_one (picked l' is) (l', [])) as [l1' r1']. simpl in *.
    split; [exact Re|]. apply append_all_rel; [|exact A]. clear -B. induction B as [|o o' x x' [X Y] B IH]; simpl; constructor; [split; simpl; [now rewrite X|exact Y]|exact IH].
  - destruct (remove_all_rel P F N) as [A B]. destruct (fold_left t_remove_one (picked l is) (l, [])) as [l1 r1]. destruct (fold_left t_remove_one (picked l' is) (l', [])) as [l1' r1']. simpl in *.
    split; [apply edit_rel; assumption|apply append_all_rel; assumption].
Qed.
Lemma run_rules_rel R : forall rules h h' l l', related R h h' -> Forall2 (rel_obj R) l l' ->
  related R (fst (fold_left run_rule rules (h, l))) (fst (fold_left run_rule rules (h', l'))) /\ Forall2 (rel_obj R) (snd (fold_left run_rule rules (h, l))) (snd (fold_left run_rule rules (h', l'))).
Proof.
  induction rules as [|r rules IH]; intros h h' l l' Re F; cbn [fold_left]; [auto|]. destruct (run_rule_rel r Re F) as [A B].
  destruct (run_rule (h, l) r) as [h1 l1]. destruct (run_rule (h', l') r) as [h1' l1']. apply IH; assumption.
Qed.
(** Two heaps in which the patterns' lists have the same contents give the same results, and leave
    the same contents. *)
Lemma matches_rel ps rules h h' input : configured ps h -> configured ps h' -> same_lists ps h h' ->
  snd (t_matches ps rules h' input) = snd (t_matches ps rules h input) /\ same_lists ps (fst (t_matches ps rules h input)) (fst (t_matches ps rules h' input)).
Proof.
  intros C C' S. set (R := fun a b => a = b /\ exists p, In p ps /\ tp_tags p = Some a).
  assert (Re : related R h h').
  { constructor; unfold R.
    - intros a b (<- & p & Hp & Ha). split; [eapply C|eapply C']; eassumption.
    - intros a b b' (<- & _) (<- & _). reflexivity.
    - intros a a' b (-> & _) (-> & _). reflexivity.
    - intros a b (<- & p & Hp & Ha). symmetry. eapply S; eassumption. }
  assert (P : Forall2 (fun p p' => tp_find p = tp_find p' /\ rel_tags R (tp_tags p) (tp_tags p')) ps ps).
  { assert (G : forall qs, incl qs ps -> Forall2 (fun p p' => tp_find p = tp_find p' /\ rel_tags R (tp_tags p) (tp_tags p')) qs qs).
    { induction qs as [|q qs IH]; intro I; constructor; [|apply IH; intros x Hx; apply I; right; exact Hx]. split; [reflexivity|]. destruct (tp_tags q) eqn:Eq; simpl; [|auto]. split; [reflexivity|]. exists q. split; [apply I; left; reflexivity|exact Eq]. }
    apply G. intros x Hx. exact Hx. }
  unfold t_matches. destruct (find_all ps input h) as [h1 l1] eqn:E. destruct (find_all ps input h') as [h1' l1'] eqn:E'.
  destruct (find_all_rel P Re (Forall2_nil _) E E') as (R' & X & Re' & F'). destruct (run_rules_rel rules Re' F') as [A B].
  destruct (fold_left run_rule rules (h1, l1)) as [h2 l2]. destruct (fold_left run_rule rules (h1', l1')) as [h2' l2']. simpl in *. split; [symmetry; apply (views_rel A B)|].
  intros p a Hp Ha. symmetry. apply (re_cell A), X. split; [reflexivity|]. exists p. auto.
Qed.
Lemma next_grows_new h t m : (th_next h <= th_next (fst (new_match h t m)))%nat.
Proof. unfold new_match. destruct t as [a|]; [destruct (th_cell h a)|]; simpl; lia. Qed.
Lemma next_grows_find t : forall ms st, (th_next (fst st) <= th_next (fst (fold_left (find_one t) ms st)))%nat.
Proof.
  induction ms as [|m ms IH]; intros [h l]; simpl; [lia|]. pose proof (next_grows_new h t m). destruct (new_match h t m) as [h1 o]. specialize (IH (h1, l ++ [o])). simpl in *. lia.
Qed.
Lemma next_grows_all input : forall ps st, (th_next (fst st) <= th_next (fst (fold_left (fun st p => fold_left (find_one (tp_tags p)) (tp_find p input) st) ps st)))%nat.
Proof.
  induction ps as [|p ps IH]; intro st; simpl; [lia|]. pose proof (next_grows_find (tp_tags p) (tp_find p input) st). specialize (IH (fold_left (find_one (tp_tags p)) (tp_find p input) st)). lia.
Qed.
Lemma edit_next e : forall l h, th_next (fold_left (edit_one e) l h) = th_next h.
Proof. induction l as [|o l IH]; intro h; simpl; [reflexivity|]. rewrite IH. reflexivity. Qed.
Lemma run_rules_next : forall rules st, th_next (fst (fold_left run_rule rules st)) = th_next (fst st).
Proof.
  induction rules as [|r rules IH]; intros [h l]; cbn [fold_left]; [reflexivity|]. rewrite IH. unfold run_rule. destruct (tr_action r) as [|n|e]; simpl; [reflexivity| |].
  - destruct (fold_left t_remove_one _ _). reflexivity.
  - destruct (fold_left t_remove_one _ _) as [l1 rm]. simpl. apply edit_next.
Qed.
Lemma matches_next ps rules h input : (th_next h <= th_next (fst (t_matches ps rules h input)))%nat.
Proof.
  unfold t_matches. pose proof (next_grows_all input ps (h, [])) as A. fold (find_all ps input h) in A. pose proof (run_rules_next rules (find_all ps input h)) as B.
  destruct (fold_left run_rule rules (find_all ps input h)) as [h' l]. simpl in *. lia.
Qed.
Lemma configured_matches ps rules h input : configured ps h -> configured ps (fst (t_matches ps rules h input)).
Proof. intros C p a Hp Ha. pose proof (matches_next ps rules h input). specialize (C p a Hp Ha). lia. Qed.
(** which lists a call may change *)
Definition own_lists (ps : list tpattern) (h : tags_heap) (x : nat) : Prop := exists p, In p ps /\ tp_tags p = Some x /\ th_cell h x <> [].
Lemma find_lists : forall ms t st h1 l1 x, fold_left (find_one t) ms st = (h1, l1) -> (x < th_next (fst st))%nat ->
  th_cell h1 x = th_cell (fst st) x /\ (forall o, In o l1 -> t_tags o = x -> In o (snd st) \/ (t = Some x /\ th_cell (fst st) x <> [])).
Proof.
  induction ms as [|m ms IH]; intros t [h l] h1 l1 x E Hx; simpl in *; [injection E as <- <-; auto|]. destruct (new_match h t m) as [h2 o] eqn:E2.
  assert (N : (th_next h <= th_next h2)%nat) by (pose proof (next_grows_new h t m) as N; rewrite E2 in N; exact N).
  assert (Cx : th_cell h2 x = th_cell h x).
  { unfold new_match, th_new in E2. destruct t as [a|]; [destruct (th_cell h a)|]; injection E2 as <- <-; simpl; try reflexivity; (destruct (Nat.eqb x (th_next h)) eqn:Ex; [apply Nat.eqb_eq in Ex; lia|reflexivity]). }
  assert (Ox : t_tags o = x -> t = Some x /\ th_cell h x <> []).
  { unfold new_match, th_new in E2. destruct t as [a|]; [destruct (th_cell h a) eqn:Ea|]; injection E2 as <- <-; simpl; intro Y; try lia. subst. split; [reflexivity|congruence]. }
  destruct (IH t (h2, l ++ [o]) h1 l1 x E) as [I1 I2]; [simpl; lia|]. simpl in *. split; [congruence|]. intros o' Ho Eo. destruct (I2 o' Ho Eo) as [Y|[Y Z]].
  - apply in_app_or in Y as [Y|[Y|[]]]; [auto|]. subst o'. right. apply Ox, Eo.
  - right. split; [exact Y|congruence].
Qed.
Lemma find_all_lists input x : forall ps st h1 l1, fold_left (fun st p => fold_left (find_one (tp_tags p)) (tp_find p input) st) ps st = (h1, l1) -> (x < th_next (fst st))%nat ->
  th_cell h1 x = th_cell (fst st) x /\ (forall o, In o l1 -> t_tags o = x -> In o (snd st) \/ own_lists ps (fst st) x).
Proof.
  induction ps as [|p ps IH]; intros st h1 l1 E Hx; simpl in E; [subst; simpl; auto|].
  destruct (fold_left (find_one (tp_tags p)) (tp_find p input) st) as [h2 l2] eqn:E2. destruct (find_lists E2 Hx) as [F1 F2].
  assert (N : (th_next (fst st) <= th_next h2)%nat) by (pose proof (next_grows_find (tp_tags p) (tp_find p input) st) as N; rewrite E2 in N; exact N).
  destruct (IH (h2, l2) h1 l1 E) as [I1 I2]; [simpl; lia|]. simpl in *. split; [congruence|]. intros o Ho Eo. destruct (I2 o Ho Eo) as [Y|(q & Hq & Y & Z)].
  - destruct (F2 o Y Eo) as [W|[W W']]; [auto|]. right. exists p. split; [left; reflexivity|auto].
  - right. exists q. split; [right; exact Hq|]. split; [exact Y|congruence].
Qed.
Lemma run_rule_tags st r : (forall o, In o (snd (run_rule st r)) -> exists o', In o' (snd st) /\ t_tags o' = t_tags o)
  /\ (forall x, (forall o, In o (snd st) -> t_tags o <> x) \/ (forall e, tr_action r <> TTags e) -> th_cell (fst (run_rule st r)) x = th_cell (fst st) x).
Proof.
  destruct st as [h l]. unfold run_rule. set (sel := picked l (tr_when r (map (tview h) l))).
  assert (Sel : forall o, In o sel -> In o l).
  { intros o Ho. unfold sel, picked in Ho. apply in_flat_map in Ho as (i & _ & Ho). destruct (nth_error l i) eqn:E; [|destruct Ho]. destruct Ho as [<-|[]]. eapply nth_error_In; exact E. }
  assert (RF : forall (f : tobj -> bool) l l', remove_first f l = Some l' -> forall o, In o l' -> In o l).
  { clear. intros f. induction l as [|x l IH]; simpl; [discriminate|]. intros l' E o Ho. destruct (f x); [injection E as <-; auto|]. destruct (remove_first f l) eqn:E'; [|discriminate]. injection E as <-. destruct Ho as [->|Ho]; [auto|right; eapply IH; eauto]. }
  assert (Rm : forall s l r, (forall o, In o (fst (fold_left t_remove_one s (l, r))) -> In o l) /\ (forall o, In o (snd (fold_left t_remove_one s (l, r))) -> In o r \/ In o s)).
  { clear -RF. induction s as [|o s IH]; intros l r; simpl; [auto|]. destruct (t_in o l).
    - destruct (IH (t_remove o l) (r ++ [o])) as [I1 I2]. split.
      + intros x Hx. apply I1 in Hx. unfold t_remove in Hx. destruct (remove_first _ l) eqn:E; [eapply RF; eassumption|exact Hx].
      + intros x Hx. destruct (I2 x Hx) as [Y|Y]; [apply in_app_or in Y as [Y|[Y|[]]]; auto|auto].
    - destruct (IH l r) as [I1 I2]. split; [exact I1|]. intros x Hx. destruct (I2 x Hx); auto. }
  assert (Ap : forall a l o, In o (fold_left t_append_one a l) -> In o l \/ In o a).
  { clear. induction a as [|o a IH]; intros l x Hx; simpl in *; [auto|]. destruct (IH _ _ Hx) as [Y|Y]; [|auto]. unfold t_append_one in Y. destruct (t_in o l); [auto|]. apply in_app_or in Y as [Y|[Y|[]]]; auto. }
  destruct (Rm sel l []) as [R1 R2]. destruct (tr_action r) as [|n|e]; simpl.
  - split; [intros o Ho; exists o; auto|auto].
  - destruct (fold_left t_remove_one sel (l, [])) as [l1 rm]. simpl in *. split; [|auto]. intros o Ho. destruct (Ap _ _ _ Ho) as [Y|Y]; [exists o; auto|]. apply in_map_iff in Y as (o' & <- & Y). exists o'. split; [|reflexivity].
    destruct (R2 o' Y) as [[]|Z]. auto.
  - destruct (fold_left t_remove_one sel (l, [])) as [l1 rm]. simpl in *. split.
    + intros o Ho. exists o. split; [|reflexivity]. destruct (Ap _ _ _ Ho) as [Y|Y]; [auto|]. destruct (R2 o Y) as [[]|Z]. auto.
    + intros x [H|H]; [|destruct (H e eq_refl)]. assert (Hr : forall o, In o rm -> t_tags o <> x) by (intros o Ho; apply H; destruct (R2 o Ho) as [[]|Z]; auto).
      clear -Hr. revert h. induction rm as [|o rm IH]; intro h; simpl; [reflexivity|]. rewrite IH by (intros; apply Hr; right; assumption). simpl. destruct (Nat.eqb x (t_tags o)) eqn:E; [|reflexivity].
      apply Nat.eqb_eq in E. destruct (Hr o); [left; reflexivity|auto].
Qed.
Lemma run_rules_tags x : forall rules st, (forall o, In o (snd st) -> t_tags o <> x) \/ no_tag_rule rules -> th_cell (fst (fold_left run_rule rules st)) x = th_cell (fst st) x.
Proof.
  induction rules as [|r rules IH]; intros st H; simpl; [reflexivity|]. destruct (run_rule_tags st r) as [T1 T2]. rewrite IH.
  - apply T2. destruct H as [H|H]; [auto|]. right. intro e. apply H. left. reflexivity.
  - destruct H as [H|H]; [left|right; intros r0 e Hr; apply H; right; exact Hr]. intros o Ho. destruct (T1 o Ho) as (o' & Ho' & <-). apply H, Ho'.
Qed.

(** ** C50: theorems *)
(** A call which leaves the tags given to the patterns as they were has no effect on any later call. *)
Theorem C50_calls_depend_on_the_tags_of_patterns_partial ps rules h input : configured ps h -> same_lists ps h (fst (t_matches ps rules h input)) ->
  forall inputs, snd (t_calls ps rules (fst (t_matches ps rules h input)) inputs) = snd (t_calls ps rules h inputs).
Proof.
  intros C S. pose proof (configured_matches rules input C) as C'. revert C' S. generalize (fst (t_matches ps rules h input)) as h'. intros h' C' S inputs. clear input. revert h h' C C' S.
  induction inputs as [|i inputs IH]; intros h h' C C' S; simpl; [reflexivity|]. destruct (matches_rel rules i C C' S) as [M1 M2].
  pose proof (configured_matches rules i C) as D. pose proof (configured_matches rules i C') as D'.
  destruct (t_matches ps rules h' i) as [h1' l']. destruct (t_matches ps rules h i) as [h1 l]. simpl in *. specialize (IH h1 h1' D D' M2).
  destruct (t_calls ps rules h1' inputs) as [h2' ls']. destruct (t_calls ps rules h1 inputs) as [h2 ls]. simpl in *. congruence.
Qed.
Lemma safe_calls ps rules (Ok : tags_heap -> Prop) : (forall h input, configured ps h -> Ok h -> same_lists ps h (fst (t_matches ps rules h input)) /\ Ok (fst (t_matches ps rules h input))) ->
  forall h inputs, configured ps h -> Ok h -> snd (t_calls ps rules h inputs) = map (fun i => snd (t_matches ps rules h i)) inputs.
Proof.
  intros Step h inputs C O. revert h C O. induction inputs as [|i inputs IH]; intros h C O; simpl; [reflexivity|]. destruct (Step h i C O) as [S O']. pose proof (configured_matches rules i C) as C'.
  specialize (IH _ C' O').
  assert (X : map (fun i0 => snd (t_matches ps rules (fst (t_matches ps rules h i)) i0)) inputs = map (fun i0 => snd (t_matches ps rules h i0)) inputs).
  { apply map_ext. intro j. apply (matches_rel rules j C C' S). }
  rewrite <- X, <- IH. destruct (t_matches ps rules h i) as [h1 l1]. simpl. destruct (t_calls ps rules h1 inputs) as [h2 ls]. reflexivity.
Qed.
(** Without a rule changing tags, each call of any history returns what it would return if it were the
    only one. *)
Theorem C50_calls_are_independent_without_tag_rules_partial ps rules h inputs : configured ps h -> no_tag_rule rules ->
  snd (t_calls ps rules h inputs) = map (fun i => snd (t_matches ps rules h i)) inputs.
Proof.
  intros C NT. apply safe_calls with (Ok := fun _ => True); auto. clear h C. intros h input C _. split; [|exact I]. intros p a Hp Ha. specialize (C p a Hp Ha). unfold t_matches.
  destruct (find_all ps input h) as [h1 l1] eqn:E. destruct (find_all_lists E C) as [F _]. simpl in F. pose proof (run_rules_tags (x := a) (rules := rules) (st := (h1, l1)) (or_intror NT)) as G.
  destruct (fold_left run_rule rules (h1, l1)) as [h2 l2]. simpl in *. congruence.
Qed.
(** With rules changing tags, the same holds when no pattern is given tags. *)
Theorem C50_calls_are_independent_without_pattern_tags_partial ps rules h inputs : configured ps h -> no_tags ps h ->
  snd (t_calls ps rules h inputs) = map (fun i => snd (t_matches ps rules h i)) inputs.
Proof.
  intros C NT. apply safe_calls with (Ok := no_tags ps); auto. clear h C NT. intros h input C NT.
  assert (S : same_lists ps h (fst (t_matches ps rules h input))).
  { intros p a Hp Ha. specialize (C p a Hp Ha). unfold t_matches. destruct (find_all ps input h) as [h1 l1] eqn:E. destruct (find_all_lists E C) as [F F2]. simpl in F, F2.
    assert (No : forall o, In o l1 -> t_tags o <> a). { intros o Ho Eo. destruct (F2 o Ho Eo) as [[]|(q & Hq & Y & Z)]. apply Z. eapply NT; eassumption. }
    pose proof (run_rules_tags (x := a) (rules := rules) (st := (h1, l1)) (or_introl No)) as G. destruct (fold_left run_rule rules (h1, l1)) as [h2 l2]. simpl in *. congruence. }
  split; [exact S|]. intros p a Hp Ha. rewrite (S p a Hp Ha). eapply NT; eassumption.
Qed.

(** *** Where the property fails *)
(** [Rebulk().string('x', tags=['t']).rules(AddU)] with AddU adding 'u' to each match: the second
    call returns the tag 'u' twice; and two matches of one call share their tags. *)
Definition tp_ex : list tpattern := [TPat (Some 0%nat) (fun input => match input with [] => [] | _ => [mk_match 7 0 1] end)].
Definition th_ex : tags_heap := THeap 1 (fun _ => [s "t"]).
Definition tr_ex : list trule := [TRule (fun l => seq 0 (length l)) (append_tags [s "u"])].
Theorem C50_tags_leak_refuted : exists ps rules h input, configured ps h
  /\ map m_tags (snd (t_matches ps rules h input)) = [[s "t"; s "u"]]
  /\ map (map m_tags) (snd (t_calls ps rules h [input; input])) = [[[s "t"; s "u"]]; [[s "t"; s "u"; s "u"]]].
Proof.
  exists tp_ex, tr_ex, th_ex, (s "x"). split; [intros p a [<-|[]] E; injection E as <-; simpl; lia|]. split; vm_compute; reflexivity.
Qed.
(** the rule selects the first match only; the second one, of the same pattern, gets the tag too *)
Theorem C50_tags_are_shared_within_a_call_refuted : exists ps f h input, configured ps h
  /\ f (map (tview h) (snd (find_all ps input h))) = [0%nat]
  /\ map m_tags (snd (t_matches ps [TRule f (append_tags [s "u"])] h input)) = [[s "t"; s "u"]; [s "t"; s "u"]].
Proof.
  exists [TPat (Some 0%nat) (fun _ => [mk_match 1 0 1; mk_match 2 1 2])], (fun _ => [0%nat]), th_ex, (s "xx").
  split; [intros p a [<-|[]] E; injection E as <-; simpl; lia|]. split; vm_compute; reflexivity.
Qed.
(** cases meeting the hypotheses of the partial theorems *)
Example C50_case : 
  let ps := [TPat None (fun _ => [mk_match 1 0 1; mk_match 2 1 2])] in let rules := [TRule (fun _ => [0%nat]) (append_tags [s "u"])] in
  configured ps th_ex /\ no_tags ps th_ex
  /\ map (map m_tags) (snd (t_calls ps rules th_ex [s "xx"; s "xx"])) = [[[]; [s "u"]]; [[]; [s "u"]]]
  /\ no_tag_rule [TRule (fun _ => [0%nat]) TKeep] /\ configured tp_ex th_ex.
Proof.
  split; [intros p a [<-|[]] E; discriminate|]. split; [intros p a [<-|[]] E; discriminate|]. split; [vm_compute; reflexivity|].
  split; [intros r e [<-|[]]; discriminate|]. intros p a [<-|[]] E; injection E as <-; simpl; lia.
Qed.
(** a call which leaves the tags as they were although a rule edits them *)
Example C50_case_same : same_lists tp_ex th_ex (fst (t_matches tp_ex [TRule (fun l => seq 0 (length l)) (append_tags [s "u"]); TRule (fun l => seq 0 (length l)) (remove_tags [s "u"])] th_ex (s "x"))).
Proof. intros p a [<-|[]] E; injection E as <-. vm_compute. reflexivity. Qed.
