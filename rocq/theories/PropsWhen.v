(** * Property C150: what [when] may return *)
From Verif Require Import Base BaseFacts Match Spec MatchFacts Coll CollFacts CollQuery CollSem CollSem2 SpecColl CollHist CollUniv
  Conseq ConseqFacts PropsLoose PropsColl PropsConseq PropsRemoved RuleThen WhenRet.
From Coq Require Import ZifyBool Permutation.
From Coq Require String.
Export Coq.Strings.String.StringSyntax.
Open Scope string_scope.
Open Scope list_scope.
Set Implicit Arguments.
Unset Strict Implicit.
Open Scope Z_scope.

(** ** Specification *)
(** what a consequence does with a match or a list of matches: C31-C34, C102, C111, C112 *)
Definition on_matches (k : ckind) (c : coll) (r : response) : coll * res unit :=
  match k with
  | KRemove => drop_ret (remove_then c r)
  | KAppend name => append_then name c r
  | KRename n => rename_then n c r
  | KAddTags ts => append_tags_then ts c r
  | KRemoveTags ts => remove_tags_then ts c r
  end.
(** the matches among the elements of a response *)
Fixpoint only_matches (l : list wobj) : list mtch := match l with [] => [] | WMatch m :: r => m :: only_matches r | _ :: r => only_matches r end.
Definition no_match (o : wobj) : Prop := forall m, o <> WMatch m.
(** a list, a tuple, a set, a dictionary, a generator: not a match, a text or a number *)
Definition iterable (o : wobj) : Prop := exists lazily l, o = WMany lazily l.
Lemma not_iterable o : ~ iterable o -> welements o = None.
Proof. intro N. destruct o as [m|b l|t|b]; try reflexivity. destruct N. now exists b, l. Qed.
Definition appends (k : ckind) : Prop := exists name, k = KAppend name.
(** Python's truth value of what [when] returned: an empty container and an empty match are falsy, a generator is not *)
Inductive falsy : wobj -> Prop :=
| falsy_match m : m_end m = m_start m -> falsy (WMatch m)
| falsy_container : falsy (WMany false [])
| falsy_text : falsy (WText [])
| falsy_thing : falsy (WThing false).

(** ** Proofs *)
Lemma wremove_each_only : forall l c, wremove_each c l = remove_many c (only_matches l).
Proof.
  induction l as [|o l IH]; intro c; [reflexivity|]. destruct o as [m|b x|t|b]; cbn [wremove_each only_matches remove_many]; try apply IH.
  destruct (contains c m); [|apply IH]. destruct (remove c m) as [c1 [u|e]]; [|reflexivity]. rewrite IH. destruct (remove_many c1 (only_matches l)) as [c2 [r|e]]; reflexivity.
Qed.
Lemma wremove_many b l c : wremove c (WMany b l) = remove_then c (Many (only_matches l)).
Proof. cbn [wremove remove_then]. rewrite wremove_each_only. reflexivity. Qed.
Lemma wmodify_many f b l c : wmodify f c (WMany b l) = modify_then f c (Many (only_matches l)).
Proof. unfold wmodify, modify_then. rewrite wremove_many. reflexivity. Qed.
Lemma wappend_each_before name : forall ms x r ids c, no_match x ->
  wappend_each name ids c (map WMatch ms ++ x :: r) = match append_many name ids c ms with (c1, Err e) => (c1, Err e) | (c1, Ok _) => (c1, Err AttributeError) end.
Proof.
  induction ms as [|m0 ms IH]; intros x r ids c N; cbn [map app wappend_each append_many].
  - destruct x as [m|? ?|?|?]; [destruct (N m eq_refl)|reflexivity|reflexivity|reflexivity].
  - set (m := fold_left _ ids m0). destruct (contains c m); [apply IH, N|]. destruct (match renames name with Some n => _ | None => (c, m, ids) end) as [[c1 m1] ids1]. destruct (append c1 m1) as [c2 [u|e]]; [|reflexivity]. rewrite (IH x r ids1 c2 N).
    destruct (append_many name ids1 c2 ms) as [c3 [l|e]]; reflexivity.
Qed.
Lemma wappend_each_all name : forall ms ids c, wappend_each name ids c (map WMatch ms) = drop_ret (append_many name ids c ms).
Proof.
  induction ms as [|m0 ms IH]; intros ids c; cbn [map wappend_each append_many]; [reflexivity|].
  set (m := fold_left _ ids m0). destruct (contains c m); [apply IH|]. destruct (match renames name with Some n => _ | None => (c, m, ids) end) as [[c1 m1] ids1]. destruct (append c1 m1) as [c2 [u|e]]; [|reflexivity].
  rewrite IH. destruct (append_many name ids1 c2 ms) as [c3 [l|e]]; reflexivity.
Qed.
Lemma only_all ms : only_matches (map WMatch ms) = ms.
Proof. induction ms as [|m ms IH]; cbn; congruence. Qed.

(** ** C150 *)
(** A match, and matches in any iterable: a list, a tuple, a set, a generator *)
Theorem C150_matches : forall k c m ms lazily,
  cthen k c (WMatch m) = on_matches k c (One m) /\ cthen k c (WMany lazily (map WMatch ms)) = on_matches k c (Many ms).
Proof.
  intros k c m ms lazily. split.
  - destruct k; reflexivity.
  - destruct k; cbn [cthen on_matches]; rewrite ?wremove_many, ?wmodify_many, ?only_all; try reflexivity. apply wappend_each_all.
Qed.
(** RemoveMatch, RenameMatch, AppendTags and RemoveTags ignore what is not a match *)
Theorem C150_others_ignored : forall k c lazily l, ~ appends k -> cthen k c (WMany lazily l) = on_matches k c (Many (only_matches l)).
Proof.
  intros k c b l N. destruct k as [|name|n|ts|ts]; cbn [cthen on_matches]; rewrite ?wremove_many, ?wmodify_many; try reflexivity. destruct N. now exists name.
Qed.
Theorem C150_other_ignored : forall k c o, ~ appends k -> no_match o -> ~ iterable o -> cthen k c o = (c, Ok tt).
Proof. intros k c o N M E. apply not_iterable in E. destruct o as [m|b l|t|b]; [destruct (M m eq_refl)|discriminate E| |]; destruct k as [|name| | |]; try reflexivity; destruct N; now exists name. Qed.
(** AppendMatch raises AttributeError, after the matches that come before *)
Theorem C150_append_raises : forall name c lazily ms x r, no_match x ->
  cthen (KAppend name) c (WMany lazily (map WMatch ms ++ x :: r))
  = match on_matches (KAppend name) c (Many ms) with (c1, Err e) => (c1, Err e) | (c1, Ok _) => (c1, Err AttributeError) end.
Proof.
  intros name c b ms x r N. cbn [cthen wappend on_matches append_then]. rewrite wappend_each_before by exact N. unfold drop_ret. destruct (append_many name [] c ms) as [c1 [l|e]]; reflexivity.
Qed.
Theorem C150_append_one_raises : forall name c o, no_match o -> ~ iterable o -> cthen (KAppend name) c o = (c, Err AttributeError).
Proof. intros name c o M E. apply not_iterable in E. destruct o as [m|b l|t|b]; [destruct (M m eq_refl)|discriminate E| |]; reflexivity. Qed.

(** *** Whether the consequences run *)
Theorem C150_not_triggered : forall k c o, (forall m, o = WMatch m -> m_start m <= m_end m) -> run_when k c o = (c, Ok false) <-> falsy o.
Proof.
  intros k c o V. unfold run_when. split.
  - intro E. destruct (wtruth o) as [[|]|e] eqn:T; [destruct (rule_then welements cthen k c o) as [c1 [u|e]]; discriminate E| |discriminate E].
    destruct o as [m|b l|t|b]; cbn in T.
    + constructor. specialize (V m eq_refl). unfold mbool in T. destruct (mlen m <? 0) eqn:L; [discriminate T|]. injection T as T. unfold mlen in *. lia.
    + injection T as T. apply orb_false_iff in T as [-> T]. destruct l; [constructor|discriminate T].
    + destruct t; [constructor|discriminate T].
    + injection T as ->. constructor.
  - intros [m E| | |]; try reflexivity. assert (wtruth (WMatch m) = Ok false) as ->; [|reflexivity]. cbn [wtruth]. unfold mbool, mlen. rewrite E.
    replace (m_start m - m_start m) with 0 by lia. reflexivity.
Qed.
Theorem C150_triggered : forall k c o, (forall m, o = WMatch m -> m_start m <= m_end m) -> ~ falsy o ->
  run_when (COne k) c o = (fst (cthen k c o), match snd (cthen k c o) with Ok _ => Ok true | Err e => Err e end).
Proof.
  intros k c o V F. assert (wtruth o = Ok true) as T.
  { destruct (wtruth o) as [[|]|e] eqn:T; [reflexivity| |].
    - exfalso. apply F. apply (proj1 (C150_not_triggered (COne k) c V)). unfold run_when. now rewrite T.
    - destruct o as [m|b l|t|b]; try discriminate T. specialize (V m eq_refl). cbn in T. unfold mbool, mlen in T. destruct (m_end m - m_start m <? 0) eqn:L; [lia|discriminate T]. }
  unfold run_when. rewrite T. cbn [rule_then]. destruct (cthen k c o) as [c1 [u|e]]; reflexivity.
Qed.
(** a generator that yields nothing triggers the rule, and changes nothing *)
Theorem C150_empty_generator : forall k c, run_when (COne k) c (WMany true []) = (c, Ok true).
Proof. intros k c. destruct k; reflexivity. Qed.

(** *** Several consequences *)
(** an iterable: the first element for the first consequence, and so on; elements left over are ignored; when there are not enough, StopIteration *)
Fixpoint one_each (ks : list ckind) (l : list wobj) (c : coll) : coll * res bool :=
  match ks, l with
  | [], _ => (c, Ok true)
  | _ :: _, [] => (c, Err StopIteration)
  | k :: ks, o :: l => match cthen k c o with (c1, Ok _) => one_each ks l c1 | (c1, Err e) => (c1, Err e) end
  end.
Lemma then_each_one : forall ks l c, (match then_each cthen ks l c with (c1, Ok _) => (c1, Ok true) | (c1, Err e) => (c1, Err e) end) = one_each ks l c.
Proof.
  induction ks as [|k ks IH]; intros l c; [reflexivity|]. destruct l as [|o l]; [reflexivity|]. cbn [then_each one_each]. destruct (cthen k c o) as [c1 [u|e]]; [apply IH|reflexivity].
Qed.
Theorem C150_several : forall k ks c lazily l, lazily = true \/ l <> [] -> run_when (CMany (k :: ks)) c (WMany lazily l) = one_each (k :: ks) l c.
Proof.
  intros k ks c b l H. unfold run_when. assert (wtruth (WMany b l) = Ok true) as ->.
  { cbn. destruct b; [reflexivity|]. destruct l; [destruct H as [H|H]; [discriminate|congruence]|reflexivity]. }
  cbn [rule_then welements]. apply then_each_one.
Qed.
(** anything else is given to the first; a second consequence then raises *)
Theorem C150_several_one : forall k ks c o, ~ iterable o -> wtruth o = Ok true -> run_when (CMany (k :: ks)) c o = one_each (k :: ks) [o] c.
Proof. intros k ks c o E T. apply not_iterable in E. unfold run_when. rewrite T. cbn [rule_then]. rewrite E. apply then_each_one. Qed.
Theorem C150_several_match : forall k k' ks c m, 0 < mlen m ->
  run_when (CMany (k :: k' :: ks)) c (WMatch m) = (fst (cthen k c (WMatch m)), match snd (cthen k c (WMatch m)) with Ok _ => Err StopIteration | Err e => Err e end).
Proof.
  intros k k' ks c m L. rewrite C150_several_one; [|intros (b & l & E); discriminate E|cbn; unfold mbool; destruct (mlen m <? 0) eqn:E; [lia|]; destruct (mlen m =? 0) eqn:E'; [lia|reflexivity]].
  cbn [one_each]. destruct (cthen k c (WMatch m)) as [c1 [u|e]]; reflexivity.
Qed.

(** *** Sets: the order in which a response is iterated over *)
Lemma how_many_perm x l l' : Permutation l l' -> how_many x l = how_many x l'.
Proof. unfold how_many. intro P. induction P; cbn [filter]; try (destruct (meq x x0)); try (destruct (meq x y)); cbn [length]; congruence. Qed.
Lemma left_over_perm ms ms' l : Permutation ms ms' -> left_over ms l = left_over ms' l.
Proof. intro P. unfold left_over. f_equal. apply filter_ext. intros [a x]. cbn. now rewrite (how_many_perm x P). Qed.
(** RemoveMatch leaves the same matches, in the same order, in whatever order the set is iterated over *)
Theorem C150_removing_a_set : forall k input ops lazily lazily' ms ms',
  acceptable k false [] ops -> no_assignment ops -> Permutation ms ms' ->
  let c := run (empty_coll k input) ops in
  exists c1 c2, cthen KRemove c (WMany lazily (map WMatch ms)) = (c1, Ok tt) /\ cthen KRemove c (WMany lazily' (map WMatch ms')) = (c2, Ok tt)
    /\ c_del c1 = c_del c2 /\ lookups_agree c1 /\ lookups_agree c2.
Proof.
  intros k input ops b b' ms ms' A NA P c. destruct (@C31_remove_many k input ops ms A NA) as (c1 & r1 & E1 & D1 & _ & _ & _ & _ & _ & L1).
  destruct (@C31_remove_many k input ops ms' A NA) as (c2 & r2 & E2 & D2 & _ & _ & _ & _ & _ & L2). fold c in E1, E2. exists c1, c2.
  rewrite (proj2 (C150_matches KRemove c (mk_match 0 0 0) ms b)), (proj2 (C150_matches KRemove c (mk_match 0 0 0) ms' b')). cbn [on_matches]. rewrite E1, E2.
  split; [reflexivity|]. split; [reflexivity|]. split; [|split; assumption]. rewrite D1, D2, !take_out_all_left. apply left_over_perm, P.
Qed.
(** AppendMatch adds the same matches; their order in the list is that of the iteration *)
Lemma new_elements_filter : forall ms l, no_equal ms -> new_elements meq l ms = filter (fun m => negb (existsb (meq m) l)) ms.
Proof.
  induction ms as [|m ms IH]; intros l N; [reflexivity|]. inversion N as [|? ? F N']; subst. cbn [new_elements filter]. destruct (existsb (meq m) l) eqn:E; cbn [negb app].
  - rewrite app_nil_r. apply IH, N'.
  - f_equal. rewrite IH by exact N'. apply filter_ext_in. intros x Hx. rewrite existsb_app. cbn [existsb]. rewrite meq_sym. rewrite (proj1 (Forall_forall _ _) F x Hx). now rewrite !orb_false_r.
Qed.
Theorem C150_appending_a_set : forall k input ops lazily lazily' ms ms',
  acceptable k false [] ops -> no_assignment ops -> Forall (fun m => accepts k m = true) ms -> no_equal ms -> no_equal ms' -> Permutation ms ms' ->
  let c := run (empty_coll k input) ops in
  exists c1 c2, cthen (KAppend None) c (WMany lazily (map WMatch ms)) = (c1, Ok tt) /\ cthen (KAppend None) c (WMany lazily' (map WMatch ms')) = (c2, Ok tt)
    /\ (exists new new', c_del c1 = c_del c ++ new /\ c_del c2 = c_del c ++ new' /\ sublist new ms /\ sublist new' ms' /\ Permutation new new') /\ lookups_agree c1 /\ lookups_agree c2.
Proof.
  intros k input ops b b' ms ms' A NA Ac N N' P c. destruct (@reached_ok k input ops A NA) as (HI & Hd & _ & Hk). unfold reached in *. fold c in HI, Hd, Hk.
  destruct (@append_many_none [] ms no_ghost c HI) as (c1 & E1 & _ & HI1 & _ & D1); [rewrite Hk; exact Ac|reflexivity|].
  destruct (@append_many_none [] ms' no_ghost c HI) as (c2 & E2 & _ & HI2 & _ & D2); [rewrite Hk; eapply Permutation_Forall; eassumption|reflexivity|].
  rewrite new_elements_filter in D1, E1 by exact N. rewrite new_elements_filter in D2, E2 by exact N'.
  exists c1, c2. rewrite (proj2 (C150_matches (KAppend None) c (mk_match 0 0 0) ms b)), (proj2 (C150_matches (KAppend None) c (mk_match 0 0 0) ms' b')). cbn [on_matches append_then]. unfold drop_ret. rewrite E1, E2.
  split; [reflexivity|]. split; [reflexivity|]. split; [|split; eapply Inv_agree; eassumption].
  assert (S : forall l : list mtch, sublist (filter (fun m => negb (existsb (meq m) (c_del c))) l) l).
  { induction l as [|x l IH]; cbn [filter]; [constructor|]. destruct (negb _); constructor; exact IH. }
  assert (Pf : forall f l l', Permutation l l' -> Permutation (filter f l) (filter (f : mtch -> bool) l')).
  { intros f l l' Q. induction Q; cbn [filter]; try (destruct (f x)); try (destruct (f y)); auto using perm_swap. eapply perm_trans; eassumption. }
  eexists _, _. split; [exact D1|]. split; [exact D2|]. split; [apply S|]. split; [apply S|]. apply Pf, P.
Qed.

(** ** Cases *)
Definition wm (i : nat) (st en : Z) : mtch := mk_match i st en.
Definition w_ops : list op := [OExtend [wm 1 0 1; wm 2 1 3; wm 3 4 5]; OStarting 0].
Definition w_coll : coll := run (empty_coll KMatches (Some (s "abcdef"))) w_ops.
Example C150_case :
  (forall k, ~ appends k -> cthen k w_coll (WMany false [WThing true; WMatch (wm 2 1 3); WMany false [WMatch (wm 1 0 1)]; WText (s "x")]) = on_matches k w_coll (Many [wm 2 1 3]))
  /\ c_del (fst (cthen KRemove w_coll (WMany true [WThing false; WMatch (wm 2 1 3)]))) = [wm 1 0 1; wm 3 4 5]
  /\ (let (c', r) := cthen (KAppend None) w_coll (WMany false [WMatch (wm 4 3 4); WThing false; WMatch (wm 5 5 6)]) in map m_id (c_del c') = [1; 2; 3; 4]%nat /\ r = Err AttributeError)
  /\ run_when (CMany [KRemove; KAppend None]) w_coll (WMatch (wm 2 1 3)) = (fst (cthen KRemove w_coll (WMatch (wm 2 1 3))), Err StopIteration)
  /\ (let (c', r) := run_when (CMany [KRemove; KAppend None]) w_coll (WMany false [WMatch (wm 2 1 3); WMany true [WMatch (wm 4 3 4)]; WThing true]) in map m_id (c_del c') = [1; 3; 4]%nat /\ r = Ok true)
  /\ run_when (CMany [KRemove; KAppend None]) w_coll (WMany true []) = (w_coll, Err StopIteration)
  /\ falsy (WMatch (wm 9 3 3)) /\ ~ falsy (WMany true []).
Proof.
  split; [intros k N; exact (@C150_others_ignored k w_coll false [WThing true; WMatch (wm 2 1 3); WMany false [WMatch (wm 1 0 1)]; WText (s "x")] N)|]. repeat match goal with |- _ /\ _ => split end; try (vm_compute; reflexivity); try (vm_compute; split; reflexivity).
  - constructor. reflexivity.
  - intro F. inversion F.
Qed.
Example C150_case_sets :
  acceptable KMatches false [] w_ops /\ no_assignment w_ops /\ Permutation [wm 3 4 5; wm 1 0 1] [wm 1 0 1; wm 3 4 5]
  /\ map m_id (c_del (fst (cthen KRemove w_coll (WMany false (map WMatch [wm 3 4 5; wm 1 0 1]))))) = [2]%nat
  /\ no_equal [wm 4 3 4; wm 5 5 6] /\ Forall (fun m => accepts KMatches m = true) [wm 4 3 4; wm 5 5 6].
Proof.
  split; [vm_compute; repeat constructor|]. split; [repeat constructor|]. split; [apply perm_swap|]. split; [vm_compute; reflexivity|]. split; [repeat constructor|]. repeat constructor.
Qed.
