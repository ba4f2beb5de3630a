(** * Property C147: the whole of [matches], as an edition of the list of the matches the patterns found *)
From Verif Require Import Base BaseFacts Match Spec MatchFacts Coll CollFacts CollQuery CollSem CollSem2 SpecColl CollHist CollUniv
  Loose PropsLoose PropsColl PropsConseq Conseq ConseqFacts Processors ProcFacts PropsProc Topo TopoFacts Rules RulesFacts PropsRules PropsEngine
  Typed Rebulk RebulkFacts PropsRebulk Pipeline PropsPipeline SpecMix PropsMix.
From Coq Require Import Permutation ZifyBool.
From Coq Require String.
Export Coq.Strings.String.StringSyntax.
Open Scope string_scope.
Open Scope list_scope.
Set Implicit Arguments.
Unset Strict Implicit.
Open Scope Z_scope.

(** ** Specification *)
(** A user rule: [when] answers after looking things up, [then] makes the calls and applies the consequences
    [does u response] on the matches; the markers stay.  On every list of matches of which [P] holds these are [proper] (SpecMix), and [P] holds
    of what they leave. *)
Definition performs {R} (bh : behav found R) (does : nat -> R -> list SpecMix.event) (P : list mtch -> Prop) (u : nat) : Prop :=
  forall f f1 x, b_when bh u f = (f1, x) ->
    (exists qs, forallb is_lookup qs = true /\ fd_matches f1 = run (fd_matches f) qs) /\ c_del (fd_markers f1) = c_del (fd_markers f)
    /\ forall resp, x = Ok resp -> b_truthy bh resp = true ->
         fd_matches (fst (b_then bh u f1 resp)) = happened (fd_matches f1) (does u resp) /\ c_del (fd_markers (fst (b_then bh u f1 resp))) = c_del (fd_markers f1)
         /\ (P (c_del (fd_matches f)) -> all_proper KMatches (c_del (fd_matches f)) (does u resp) /\ P (settled (c_del (fd_matches f)) (does u resp))).
(** The rules are considered one after the other.  The matches being [l], a rule that is enabled and whose
    [when] answers something true changes them into [settled l (does u response)] (SpecMix: what its calls and
    consequences do to a plain list); any other rule changes nothing. *)
Inductive edits {R} (bh : behav found R) (does : nat -> R -> list SpecMix.event) (markers : list mtch) : list nat -> list mtch -> list mtch -> Prop :=
| no_rule_left l : edits bh does markers [] l l
| disabled_rule u us l l' : b_enabled bh u = false -> edits bh does markers us l l' -> edits bh does markers (u :: us) l l'
| idle_rule f f1 resp u us l l' : b_enabled bh u = true -> c_del (fd_matches f) = l -> c_del (fd_markers f) = markers -> shows_members (fd_matches f) ->
    b_when bh u f = (f1, Ok resp) -> b_truthy bh resp = false -> edits bh does markers us l l' -> edits bh does markers (u :: us) l l'
| active_rule f f1 resp u us l l' : b_enabled bh u = true -> c_del (fd_matches f) = l -> c_del (fd_markers f) = markers -> shows_members (fd_matches f) ->
    b_when bh u f = (f1, Ok resp) -> b_truthy bh resp = true -> edits bh does markers us (settled l (does u resp)) l' -> edits bh does markers (u :: us) l l'.

(** The lists the built-in consequences keep well-behaved: no two matches are [==], identities are
    different, no match is an ancestor of another one, none is a marker. *)
Definition tidy (l : list mtch) : Prop :=
  no_equal l /\ NoDup (map m_id l) /\ no_parent_of l l /\ Forall (fun m => m_marker m = false) l.
(** [ms] out, changed by [f], and back at the end, but for those equal to one that is there *)
Definition redone (f : mtch -> mtch) (l ms : list mtch) : list mtch := others ms l ++ new_elements meq (others ms l) (map f ms).
Definition after (a : action) (l ms : list mtch) : list mtch :=
  match a with
  | Removing => others ms l
  | Renaming n => redone (fun m => set_name m n) l ms
  | Tagging ts => redone (fun m => set_tags m (m_tags m ++ ts)) l ms
  | Untagging ts => redone (fewer_tags ts) l ms
  | Appending _ => l
  end.
(** the rules [us], each selecting among the matches (and looking at the markers) and applying one built-in consequence *)
Definition picking (markers : list mtch) (pick : nat -> list mtch -> list mtch -> list mtch) (act : nat -> action) (us : list nat) (l : list mtch) : list mtch :=
  fold_left (fun l u => after (act u) l (pick u l markers)) us l.

(** ** Proofs *)
Lemma lookup_proper o l : is_lookup o = true -> proper KMatches l (Call o) /\ settle l (Call o) = l.
Proof.
  destruct o; try discriminate; intros _; (split; [split; [constructor|split; [reflexivity|exact Logic.I]]|reflexivity]).
Qed.
Lemma lookups_proper qs l : forallb is_lookup qs = true -> all_proper KMatches l (map Call qs) /\ settled l (map Call qs) = l.
Proof.
  unfold settled. induction qs as [|o qs IH]; intro H; [split; [exact Logic.I|reflexivity]|]. cbn [forallb] in H. apply andb_prop in H as [H1 H2].
  destruct (@lookup_proper o l H1) as [A B]. destruct (IH H2) as [C D]. cbn [map all_proper fold_left]. rewrite B. split; [split; assumption|exact D].
Qed.
Lemma run_happened ops c : run c ops = happened c (map Call ops).
Proof. unfold run, happened. revert c. induction ops as [|o ops IH]; intro c; [reflexivity|]. cbn [map fold_left happen]. apply IH. Qed.
(** [P]: what holds of the lists of matches; the collection shows exactly its members *)
Definition good (P : list mtch -> Prop) (c : coll) : Prop := Exact c /\ c_kind c = KMatches /\ P (c_del c).
Lemma good_events (P : list mtch -> Prop) c es : good P c -> all_proper KMatches (c_del c) es -> P (settled (c_del c) es) -> good P (happened c es) /\ c_del (happened c es) = settled (c_del c) es.
Proof.
  intros (HE & Hk & HP) A S. rewrite <- Hk in A. destruct (@events_exact es c HE A) as (E1 & E2 & E3). split; [|exact E3]. split; [exact E1|]. split; [congruence|]. rewrite E3. exact S.
Qed.
Lemma good_lookups P c qs : good P c -> forallb is_lookup qs = true -> good P (run c qs) /\ c_del (run c qs) = c_del c.
Proof.
  intros G H. rewrite run_happened. destruct (@lookups_proper qs (c_del c) H) as [A B]. destruct (@good_events P c (map Call qs) G A) as [X Y]; [rewrite B; apply G|]. rewrite B in Y. split; assumption.
Qed.
Lemma good_removes (P : list mtch -> Prop) c ms : (forall l l', sublist l' l -> P l -> P l') -> (forall l, P l -> no_equal l) -> good P c ->
  good P (fst (drop_ret (remove_then c (Many ms)))) /\ c_del (fst (drop_ret (remove_then c (Many ms)))) = take_out_all (c_del c) ms.
Proof.
  intros Hs Hn G. assert (A : all_proper KMatches (c_del c) [Then Removing (Many ms)]) by (split; [apply no_equal_apart, Hn, G|exact Logic.I]).
  refine (@good_events P c [Then Removing (Many ms)] G A _). cbn. eapply Hs; [apply take_out_sublist|apply G].
Qed.
Lemma good_shows P c : good P c -> shows_members c.
Proof. intros (H & _). apply Exact_shows, H. Qed.
Lemma conflicting_lookups ops : forallb is_lookup (map OConflicting ops) = true.
Proof. induction ops; [reflexivity|assumption]. Qed.
Section Users.
  Context {R : Type} (user : behav found R) (does : nat -> R -> list SpecMix.event) (P : list mtch -> Prop).
  Lemma users_edit us s s' ret : (forall u, In u us -> performs user does P u) -> good P (fd_matches s) -> consider_all user us s s' ret ->
    good P (fd_matches s') /\ c_del (fd_markers s') = c_del (fd_markers s) /\ edits user does (c_del (fd_markers s)) us (c_del (fd_matches s)) (c_del (fd_matches s')).
  Proof.
    intros Hp G H. revert G. induction H as [s|u l s s1 s2 ret H1 H2 IH|u l s s1 s2 resp ret H1 H2 IH]; intro G.
    - split; [exact G|split; [reflexivity|constructor]].
    - assert (G1 : good P (fd_matches s1) /\ (s1 = s /\ b_enabled user u = false \/ c_del (fd_matches s1) = c_del (fd_matches s) /\ c_del (fd_markers s1) = c_del (fd_markers s) /\ b_enabled user u = true /\ exists resp, b_when user u s = (s1, Ok resp) /\ b_truthy user resp = false)).
      { inversion H1 as [E|f1 resp E Ew Et|]; subst; [split; [exact G|left; split; [reflexivity|exact E]]|].
        destruct (Hp u (or_introl eq_refl) _ _ _ Ew) as [(qs & Q & Eq) [M1 _]]. destruct (@good_lookups P _ qs G Q) as [G1 D1]. rewrite <- Eq in G1, D1. split; [exact G1|]. right. split; [exact D1|]. split; [exact M1|]. split; [exact E|]. exists resp. split; assumption. }
      destruct G1 as [G1 C]. destruct (IH (fun v Hv => Hp v (or_intror Hv)) G1) as (G2 & M2 & E2). split; [exact G2|].
      destruct C as [[-> En]|(D1 & M1 & En & resp & Ew & Et)]; [split; [exact M2|]; apply disabled_rule; assumption|]. rewrite D1, M1 in E2. split; [congruence|].
      eapply idle_rule; [exact En|reflexivity|reflexivity|apply (good_shows G)|exact Ew|exact Et|exact E2].
    - inversion H1 as [|f1 r E Ew Et|f1 r f2 E Ew Et En]; subst. destruct (Hp u (or_introl eq_refl) _ _ _ Ew) as [(qs & Q & Eq) [M1 B]]. destruct (B resp eq_refl Et) as (B1 & M2 & B2).
      rewrite En in B1, M2. cbn [fst] in B1, M2. destruct (@good_lookups P _ qs G Q) as [G1 D1]. rewrite <- Eq in G1, D1.
      destruct (B2 (proj2 (proj2 G))) as [A S]. rewrite <- D1 in A, S. destruct (@good_events P _ _ G1 A S) as [G2 D2]. rewrite <- B1 in G2, D2.
      destruct (IH (fun v Hv => Hp v (or_intror Hv)) G2) as (G3 & M3 & E3). split; [exact G3|]. rewrite D2, D1, M2, M1 in E3. split; [congruence|].
      eapply active_rule; [exact E|reflexivity|reflexivity|apply (good_shows G)|exact Ew|exact Et|exact E3].
  Qed.
End Users.
Lemma privates_out l : no_equal l -> take_out_all l (filter m_private l) = filter (fun m => negb (m_private m)) l.
Proof.
  intro Hn. destruct (@take_members (filter m_private l) l Hn) as [A _]; [apply NoDup_filter; clear -Hn; induction Hn as [|a l Ha Hn IH]; constructor; [intro Hin; rewrite Forall_forall in Ha; specialize (Ha a Hin); rewrite meq_refl in Ha; discriminate|exact IH]|intros x Hx; apply filter_In in Hx; tauto|].
  rewrite A. unfold others. apply filter_ext_in. intros x Hx. f_equal. destruct (m_private x) eqn:E.
  - apply existsb_exists. exists x. split; [apply filter_In; split; assumption|apply meq_refl].
  - apply existsb_false_iff. intros y Hy. apply filter_In in Hy as [Hy Py]. destruct (meq x y) eqn:Em; [|reflexivity]. rewrite (no_equal_eq Hn Hx Hy Em) in E. congruence.
Qed.
Lemma take_out_others rm : forall l, no_equal l -> take_out_all l rm = PropsConseq.others rm l.
Proof.
  induction rm as [|m rm IH]; intros l Hn; [symmetry; apply filter_all; reflexivity|]. unfold take_out_all. cbn [fold_left]. change (fold_left take_out rm (take_out l m)) with (take_out_all (take_out l m) rm).
  assert (T : take_out l m = filter (fun x => negb (meq x m)) l).
  { unfold take_out. clear IH. induction Hn as [|a l Ha Hn IH]; [reflexivity|]. cbn [remove_first filter]. rewrite (meq_sym m a). destruct (meq a m) eqn:E; cbn [negb].
    - symmetry. apply filter_all. rewrite Forall_forall in Ha. intros x Hx. specialize (Ha x Hx). destruct (meq x m) eqn:E2; [|reflexivity].
      apply meq_mkey in E. apply meq_mkey in E2. apply meq_false_mkey in Ha. congruence.
    - destruct (remove_first (meq m) l) as [l'|]; f_equal; exact IH. }
  rewrite T, IH by (apply no_equal_filter, Hn). unfold PropsConseq.others. rewrite filter_filter. apply filter_ext. intro x. cbn [existsb]. destruct (meq x m), (existsb (meq x) rm); reflexivity.
Qed.
Lemma appended_found (P : list mtch -> Prop) input (ms : list mtch) : no_equal ms -> Forall (fun m => m_marker m = false) ms -> P ms -> good P (run (empty_coll KMatches (Some input)) (map OAppend ms)).
Proof.
  intros Hn Hm HP. assert (G : forall ms c, Exact c -> c_kind c = KMatches -> no_equal (c_del c ++ ms) -> Forall (fun m => m_marker m = false) ms ->
    Exact (run c (map OAppend ms)) /\ c_kind (run c (map OAppend ms)) = KMatches /\ c_del (run c (map OAppend ms)) = c_del c ++ ms).
  { clear. induction ms as [|m ms IH]; intros c HE Hk Hn Hm; [rewrite app_nil_r; split; [exact HE|split; [exact Hk|reflexivity]]|]. inversion Hm as [|? ? M1 M2]; subst.
    assert (A : accepts (c_kind c) m = true) by (rewrite Hk; unfold accepts; cbn; rewrite M1; reflexivity).
    destruct (Exact_append HE A) as (c1 & E1 & HE1 & Hk1 & Hd1). unfold run. cbn [map fold_left step]. rewrite E1. cbn [unit_out fst].
    destruct (IH c1 HE1) as (I1 & I2 & I3); [congruence|rewrite Hd1, <- app_assoc; exact Hn|exact M2|]. split; [exact I1|]. split; [exact I2|]. unfold run in I3. rewrite I3, Hd1, <- app_assoc. reflexivity. }
  destruct (G ms (empty_coll KMatches (Some input)) (Exact_empty KMatches (Some input)) eq_refl Hn Hm) as (A & B & C). split; [exact A|]. split; [exact B|]. rewrite C. exact HP.
Qed.

(** ** C147
    A Rebulk object with the two default rules and user rules of priorities strictly between theirs.  [P] holds
    of the matches found, is kept when some are taken out, and is about lists without two [==] matches; the user
    rules perform proper events where [P] holds.  If [matches] returns: the rules were considered in [middle],
    the order in which the rules are executed; the conflict solver took out of the list of what was found the
    matches [losers]; the user rules edited that list; the result is the edited list without its private
    matches, its markers are those found, and its lookups show exactly these matches. *)
Theorem C147_the_result_is_an_edited_list : forall Ctx R (ctx : Ctx) (r : rb Ctx) env perm solvers order (user : Ctx -> behav found R) does isinst check input others f (P : list mtch -> Prop),
  iteration_order perm -> class_prio env -> instances_local env (effective_rules env ctx r) -> an_order order ->
  r_prio env 0 = 2048 -> r_prio env 1 = -2048 -> Forall (fun u => -2048 < r_prio env u < 2048) others ->
  Permutation (effective_rules env ctx r) (0 :: 1 :: others)%nat ->
  rb_disabled r ctx = false ->
  (forall l l', sublist l' l -> P l -> P l') -> (forall l, P l -> no_equal l) ->
  (forall u, In u others -> performs (user ctx) does P u) ->
  (forall outs n', yields ctx input (effective_patterns ctx r) 0 outs n' -> P (filter (fun m => negb (m_marker m)) (concat outs))) ->
  rb_matches env perm (fun c => with_defaults solvers order (user c)) isinst check r ctx input = Ok f ->
  exists outs n' middle c losers edited,
    yields ctx input (effective_patterns ctx r) 0 outs n'
    /\ execute_all_rules env perm recorder (effective_rules env ctx r) [] = (0%nat :: middle ++ [1%nat], Ok []) /\ Permutation middle others
    /\ let ms := filter (fun m => negb (m_marker m)) (concat outs) in
       conflict_when solvers (run (empty_coll KMatches (Some input)) (map OAppend ms)) = (c, Ok losers)
       /\ edits (user ctx) does (filter m_marker (concat outs)) middle (PropsConseq.others losers ms) edited
       /\ c_del (fd_matches f) = filter (fun m => negb (m_private m)) edited
       /\ c_del (fd_markers f) = filter m_marker (concat outs)
       /\ shows_members (fd_matches f).
Proof.
  intros Ctx R ctx r env perm solvers order user does isinst check input others f P Hp Hc Hl Ho P0 P1 Hm Hr D Hs Hn Hu HU E.
  unfold rb_matches, matches_patterns in E. rewrite D in E.
  change {| fd_next := 0; fd_matches := empty_coll KMatches (Some input); fd_markers := empty_coll KMarkers (Some input); fd_keys := effective_keys ctx r |}
    with (fresh input (effective_keys ctx r)) in E.
  destruct (@run_patterns_spec Ctx ctx input (effective_patterns ctx r) (fresh input (effective_keys ctx r)) eq_refl eq_refl) as [A _].
  destruct (run_patterns ctx input (effective_patterns ctx r) (fresh input (effective_keys ctx r))) as [f1|e]; [|discriminate].
  destruct (A f1 eq_refl) as (outs & n' & Y & Ef1). cbn [fd_next fresh] in Y.
  destruct (if check then check_declared_keys isinst (fd_keys f1) (fd_matches f1) else Ok tt); [|discriminate].
  unfold execute_rules in E. rewrite D in E.
  destruct (execute_all_rules env perm (with_defaults solvers order (user ctx)) (effective_rules env ctx r) f1) as [f' [ret|e]] eqn:Ex; [|discriminate]. injection E as ->.
  destruct (execute_all_rules env perm recorder (effective_rules env ctx r) []) as [ord fin] eqn:Er.
  pose proof (C30_execution Er Ex) as (-> & H).
  destruct (C67_default_rules_frame Hp Hc Hl Hr P0 P1 Hm Er) as (middle & -> & Pm).
  assert (forall u, In u middle -> u <> 0%nat /\ u <> 1%nat) as Hne.
  { intros u Hu'. apply (Permutation_in _ Pm) in Hu'. rewrite Forall_forall in Hm. specialize (Hm u Hu'). split; intros ->; lia. }
  change (0%nat :: middle ++ [1%nat]) with ([0%nat] ++ (middle ++ [1%nat])) in H.
  apply consider_all_app in H as (f2 & r1 & r2 & H1 & H & ->). apply consider_all_app in H as (f3 & r3 & r4 & H2 & H3 & ->).
  assert (exists o, consider (with_defaults solvers order (user ctx)) 0 f1 f2 o) as (o1 & C1).
  { inversion H1 as [|? ? ? ? ? ? X1 X2|? ? ? ? ? ? ? X1 X2]; subst; inversion X2; subst; eauto. }
  assert (exists o, consider (with_defaults solvers order (user ctx)) 1 f3 f o) as (o3 & C3).
  { inversion H3 as [|? ? ? ? ? ? X1 X2|? ? ? ? ? ? ? X1 X2]; subst; inversion X2; subst; eauto. }
  destruct (solver_considered Ho C1) as (c & Ec & Ef2). destruct (remover_considered C3) as (c' & Ec' & Ef).
  set (ms := filter (fun m => negb (m_marker m)) (concat outs)).
  assert (Pms : P ms) by exact (HU outs n' Y).
  assert (E1 : fd_matches f1 = run (empty_coll KMatches (Some input)) (map OAppend ms)) by (rewrite Ef1; reflexivity).
  assert (G1 : good P (fd_matches f1)).
  { rewrite E1. apply appended_found; [apply Hn, Pms| |exact Pms]. apply Forall_forall. intros m Hin. apply filter_In in Hin as [_ Hin]. now apply negb_true_iff in Hin. }
  assert (D1 : c_del (fd_matches f1) = ms) by (rewrite Ef1; apply stage_del).
  unfold conflict_rule in Ec. destruct (loop_ops solvers (by_length (c_del (fd_matches f1))) (fd_matches f1) []) as (ops & Eops).
  fold (conflict_when solvers (fd_matches f1)) in Eops. destruct (conflict_when solvers (fd_matches f1)) as [c1 [losers|e]] eqn:Ew; [|discriminate]. cbn [fst] in Eops.
  destruct (@good_lookups P _ (map OConflicting ops) G1 (conflicting_lookups ops)) as [G1' D1']. rewrite <- Eops in G1', D1'.
  destruct (@good_removes P c1 (order losers) Hs Hn G1') as [G2 D2]. rewrite Ec in G2, D2. cbn [fst] in G2, D2. rewrite D1', D1 in D2.
  rewrite (take_out_all_perm (Permutation_sym (Ho losers))), take_out_others in D2 by (apply Hn, Pms).
  assert (G2' : good P (fd_matches f2)) by (rewrite Ef2; exact G2). assert (D2' : c_del (fd_matches f2) = PropsConseq.others losers ms) by (rewrite Ef2; exact D2).
  destruct (users_alone Hne H2) as (ret' & H2').
  destruct (@users_edit R (user ctx) does P middle f2 f3 ret') as (G3 & M3 & E3); [intros u Hin; apply Hu; eapply Permutation_in; eassumption|exact G2'|exact H2'|].
  assert (M2 : c_del (fd_markers f2) = filter m_marker (concat outs)) by (rewrite Ef2, Ef1; apply (stage_del input (effective_keys ctx r) outs n')). rewrite D2', M2 in E3.
  unfold private_rule in Ec'.
  assert (G4 : good P c' /\ c_del c' = filter (fun m => negb (m_private m)) (c_del (fd_matches f3))).
  { destruct (@good_removes P (fd_matches f3) (filter m_private (c_del (fd_matches f3))) Hs Hn G3) as [G4 D4]. rewrite Ec' in G4, D4. cbn [fst] in G4, D4.
      split; [exact G4|]. rewrite D4. apply privates_out, Hn, G3. }
  destruct G4 as [G4 D4]. exists outs, n', middle, c1, losers, (c_del (fd_matches f3)).
  split; [exact Y|]. split; [reflexivity|]. split; [exact Pm|]. cbv zeta. split; [fold ms; rewrite <- E1; exact Ew|]. split; [exact E3|]. rewrite Ef. cbn [fd_matches with_matches]. split; [exact D4|]. split; [|apply (good_shows G4)]. cbn [fd_markers with_matches]. congruence.
Qed.

(** ** The built-in consequences, on tidy lists *)
Lemma no_equal_sublist l l' : sublist l' l -> no_equal l -> no_equal l'.
Proof.
  intros S H. induction S as [|x l1 l2 S IH|x l1 l2 S IH]; [constructor| |]; inversion H as [|? ? H1 H2]; subst; [|apply IH, H2].
  constructor; [|apply IH, H2]. rewrite Forall_forall in *. intros y Hy. apply H1. eapply sublist_In; eassumption.
Qed.
Lemma NoDup_sublist {A} (l l' : list A) : sublist l' l -> NoDup l -> NoDup l'.
Proof.
  intros S H. induction S as [|x l1 l2 S IH|x l1 l2 S IH]; [constructor| |]; inversion H as [|? ? H1 H2]; subst; [|apply IH, H2].
  constructor; [|apply IH, H2]. intro Hx. apply H1. eapply sublist_In; eassumption.
Qed.
Lemma sublist_map {A B} (g : A -> B) l l' : sublist l' l -> sublist (map g l') (map g l).
Proof. intro S. induction S; cbn [map]; constructor; assumption. Qed.
Lemma tidy_sublist l l' : sublist l' l -> tidy l -> tidy l'.
Proof.
  intros S (H1 & H2 & H3 & H4). split; [eapply no_equal_sublist; eassumption|]. split; [eapply NoDup_sublist; [apply sublist_map, S|exact H2]|]. split.
  - intros x p y m Hx Hp Hy Hm. apply (H3 x p y m); [eapply sublist_In; eassumption|exact Hp|exact Hy|eapply sublist_In; eassumption].
  - rewrite Forall_forall in *. intros x Hx. apply H4. eapply sublist_In; eassumption.
Qed.
Lemma NoDup_ids_eq l a b : NoDup (map m_id l) -> In a l -> In b l -> m_id a = m_id b -> a = b.
Proof.
  induction l as [|x l IH]; intros H Ha Hb E; [contradiction|]. inversion H as [|? ? H1 H2]; subst. destruct Ha as [->|Ha], Hb as [->|Hb]; auto.
  - exfalso. apply H1. rewrite E. apply in_map, Hb.
  - exfalso. apply H1. rewrite <- E. apply in_map, Ha.
Qed.
Lemma NoDup_of_ids l : NoDup (map m_id l) -> NoDup l.
Proof. apply NoDup_map_inv. Qed.
Definition gentle (f : mtch -> mtch) : Prop := forall m, m_id (f m) = m_id m /\ m_parent (f m) = m_parent m /\ m_marker (f m) = m_marker m.
Lemma changed_redone f l ms : gentle f -> tidy l -> NoDup ms -> incl ms l -> changed f l (Many ms) = redone f l ms.
Proof.
  intros Hf (Hn & Hi & Ha & Hm) Hnd Hin. unfold changed. cbn [responded]. destruct (take_members Hn Hnd Hin) as [T1 T2]. rewrite T1, T2. unfold joined, redone.
  assert (map (seen f (map m_id ms)) (others ms l) = others ms l) as ->.
  { transitivity (map (fun x : mtch => x) (others ms l)); [|apply map_id]. apply map_ext_in. intros x Hx. rewrite seen_upds. unfold others in Hx. apply filter_In in Hx as [Hx Hb].
    apply upds_id. intros y Hy Hi'. apply in_map_iff in Hi' as (m & Em & Hm'). inversion Hy as [|? p ? Hp Hp']; subst.
    - assert (m = y) as -> by (apply (NoDup_ids_eq Hi); [apply Hin, Hm'|exact Hx|exact Em]). apply negb_true_iff in Hb.
      rewrite existsb_false_iff in Hb. specialize (Hb y Hm'). rewrite meq_refl in Hb. discriminate.
    - apply (Ha x p y m Hx Hp Hp' (Hin m Hm')). congruence. }
  assert (map (seen f (map m_id ms)) ms = map f ms) as ->; [|reflexivity].
  apply map_ext_in. intros m Hm'. rewrite seen_upds. apply upds_self; [intro z; split; apply Hf| |apply in_map, Hm'|].
  - clear -Hi Hin Hnd. induction ms as [|x t IH]; cbn [map]; [constructor|]. inversion Hnd as [|? ? N1 N2]; subst. constructor; [|apply IH; [exact N2|intros y Hy; apply Hin; right; exact Hy]].
    intro C. apply in_map_iff in C as (y & Ey & Hy). apply N1. rewrite <- (NoDup_ids_eq Hi (Hin y (or_intror Hy)) (Hin x (or_introl eq_refl)) Ey). exact Hy.
  - intros p y Hp Hy Hi'. apply in_map_iff in Hi' as (m2 & Em & Hm2). apply (Ha m p y m2 (Hin m Hm') Hp Hy (Hin m2 Hm2)). congruence.
Qed.
Lemma others_sublist ms l : sublist (others ms l) l.
Proof. unfold others. induction l as [|x l IH]; cbn [filter]; [constructor|]. destruct (negb _); constructor; exact IH. Qed.
Lemma new_sublist l src : sublist (new_elements meq l src) src.
Proof.
  revert l. induction src as [|x src IH]; intro l; cbn [new_elements]; [constructor|]. destruct (existsb (meq x) l); cbn [app]; constructor; apply IH.
Qed.
Lemma no_equal_snoc l x : no_equal l -> existsb (meq x) l = false -> no_equal (l ++ [x]).
Proof.
  intros H E. rewrite existsb_false_iff in E. induction H as [|a l Ha H IH]; cbn [app]; [constructor; constructor|]. constructor; [|apply IH; intros y Hy; apply E; right; exact Hy].
  apply Forall_app. split; [exact Ha|]. constructor; [|constructor]. rewrite meq_sym. apply E. left. reflexivity.
Qed.
Lemma no_equal_new src : forall l, no_equal l -> no_equal (l ++ new_elements meq l src).
Proof.
  induction src as [|x src IH]; intros l H; cbn [new_elements]; [rewrite app_nil_r; exact H|]. destruct (existsb (meq x) l) eqn:E; cbn [app].
  - rewrite app_nil_r. apply IH, H.
  - specialize (IH (l ++ [x]) (no_equal_snoc H E)). rewrite <- app_assoc in IH. exact IH.
Qed.
Lemma redone_from f l ms x : In x (redone f l ms) -> In x l \/ exists m, In m ms /\ x = f m.
Proof.
  unfold redone. intro H. apply in_app_or in H as [H|H]; [left; eapply sublist_In; [apply others_sublist|exact H]|]. right.
  apply (sublist_In (new_sublist _ _)) in H. apply in_map_iff in H as (m & E & Hm). exists m. split; [exact Hm|congruence].
Qed.
Lemma redone_tidy f l ms : gentle f -> tidy l -> NoDup ms -> incl ms l -> tidy (redone f l ms).
Proof.
  intros Hf (Hn & Hi & Ha & Hm) Hnd Hin. split; [apply no_equal_new; eapply no_equal_sublist; [apply others_sublist|exact Hn]|].
  assert (B : forall x, In x (redone f l ms) -> exists y, In y l /\ m_id x = m_id y /\ m_parent x = m_parent y /\ m_marker x = m_marker y).
  { intros x Hx. apply redone_from in Hx as [Hx|(m & Hm' & ->)]; [exists x; auto|]. exists m. split; [apply Hin, Hm'|]. exact (Hf m). }
  split; [|split].
  - unfold redone. rewrite map_app. eapply NoDup_sublist with (l := map m_id (others ms l) ++ map m_id ms).
    + assert (G : forall a b c : list nat, sublist b c -> sublist (a ++ b) (a ++ c)) by (induction a; intros; cbn [app]; [assumption|constructor; auto]). apply G.
      replace (map m_id ms) with (map m_id (map f ms)) by (rewrite map_map; apply map_ext; intro m; apply Hf). apply sublist_map, new_sublist.
    + rewrite <- map_app. eapply Permutation_NoDup; [|exact Hi]. apply Permutation_map. apply NoDup_Permutation; [apply NoDup_of_ids, Hi| |].
      * clear B. assert (G : forall l1 : list mtch, NoDup l1 -> (forall x, In x l1 -> ~ In x ms) -> NoDup (l1 ++ ms)).
        { induction l1 as [|a l1 IH]; intros N D; cbn [app]; [exact Hnd|]. inversion N as [|? ? N1 N2]; subst. constructor; [|apply IH; [exact N2|intros x Hx; apply D; right; exact Hx]].
          intro C. apply in_app_or in C as [C|C]; [exact (N1 C)|exact (D a (or_introl eq_refl) C)]. }
        apply G; [eapply NoDup_sublist; [apply others_sublist|apply NoDup_of_ids, Hi]|]. intros x Hx C. unfold others in Hx. apply filter_In in Hx as [_ Hx]. apply negb_true_iff in Hx.
        rewrite existsb_false_iff in Hx. specialize (Hx x C). rewrite meq_refl in Hx. discriminate.
      * intro x. split.
        -- intro Hx. apply in_or_app. destruct (existsb (meq x) ms) eqn:E; [|left; unfold others; apply filter_In; split; [exact Hx|rewrite E; reflexivity]].
           right. apply existsb_exists in E as (y & Hy & Ey). rewrite (no_equal_eq Hn Hx (Hin y Hy) Ey). exact Hy.
        -- intro Hx. apply in_app_or in Hx as [Hx|Hx]; [eapply sublist_In; [apply others_sublist|exact Hx]|apply Hin, Hx].
  - intros x p y m Hx Hp Hy Hm'. destruct (B x Hx) as (x0 & X0 & _ & Xp & _). destruct (B m Hm') as (m0 & M0 & Mi & _ & _). rewrite Mi. apply (Ha x0 p y m0 X0); [congruence|exact Hy|exact M0].
  - apply Forall_forall. intros x Hx. destruct (B x Hx) as (y & Hy & _ & _ & E). rewrite E. rewrite Forall_forall in Hm. apply Hm, Hy.
Qed.
(** what the spec of the consequences says is [after], and tidiness is kept *)
Definition no_new_name (a : action) : Prop := match a with Appending (Some (_ :: _)) => False | _ => True end.
Lemma joined_members ms : forall l, incl ms l -> joined l ms = l.
Proof.
  unfold joined. induction ms as [|m ms IH]; intros l H; cbn [new_elements]; [apply app_nil_r|]. 
  assert (E : existsb (meq m) l = true) by (apply existsb_exists; exists m; split; [apply H; left; reflexivity|apply meq_refl]). rewrite E. cbn [app]. rewrite app_nil_r. apply IH. intros x Hx. apply H. right. exact Hx.
Qed.
Lemma joined_as_members n ms : forall l, incl ms l -> joined_as n [] l ms = l.
Proof.
  induction ms as [|m ms IH]; intros l H; cbn [joined_as]; [reflexivity|]. rewrite (eq_refl : seen (fun x => set_name x (Some n)) [] m = m).
  assert (E : existsb (meq m) l = true) by (apply existsb_exists; exists m; split; [apply H; left; reflexivity|apply meq_refl]). rewrite E. apply IH. intros x Hx. apply H. right. exact Hx.
Qed.
Lemma settle_after a l ms : tidy l -> NoDup ms -> incl ms l -> proper KMatches l (Then a (Many ms)) /\ settle l (Then a (Many ms)) = after a l ms /\ tidy (after a l ms).
Proof.
  intros T Hnd Hin. pose proof T as (Hn & Hi & Ha & Hm).
  assert (Ac : Forall (fun m => accepts KMatches m = true) (responded (Many ms))).
  { apply Forall_forall. intros m Hm'. rewrite Forall_forall in Hm. unfold accepts. cbn. rewrite (Hm m (Hin m Hm')). reflexivity. }
  assert (Os : one_state (l ++ responded (Many ms))).
  { intros x y Hx Hy E. apply (NoDup_ids_eq Hi); [| |exact E]; [apply in_app_or in Hx as [Hx|Hx]; [exact Hx|apply Hin, Hx]|apply in_app_or in Hy as [Hy|Hy]; [exact Hy|apply Hin, Hy]]. }
  assert (G : forall f, gentle f -> changed f l (Many ms) = redone f l ms /\ tidy (redone f l ms)) by (intros f Hf; split; [apply changed_redone|apply redone_tidy]; assumption).
  destruct a as [|name|n|ts|ts]; cbn [proper settle after].
  - split; [apply no_equal_apart, Hn|]. cbn [responded]. split; [apply (proj1 (take_members Hn Hnd Hin))|]. eapply tidy_sublist; [apply others_sublist|exact T].
  - split; [split; [exact Ac|destruct name as [[|ch n]|]; [exact Logic.I|split; [exact Os|exact Logic.I]|exact Logic.I]]|]. split; [|exact T].
    destruct name as [[|ch n]|]; [apply joined_members, Hin|apply joined_as_members, Hin|apply joined_members, Hin].
  - split; [split; [exact Ac|split; [exact Hn|split; [exact Os|exact Logic.I]]]|]. apply (G (new_name n)). intro m. repeat split.
  - split; [split; [exact Ac|split; [exact Hn|split; [exact Os|exact Logic.I]]]|]. apply (G (more_tags ts)). intro m. repeat split.
  - split; [split; [exact Ac|split; [exact Hn|split; [exact Os|exact Logic.I]]]|]. apply (G (fewer_tags ts)). intro m. repeat split.
Qed.

(** ** The user rules select among the matches and apply one built-in consequence: the result is a function of what was found. *)
Definition choosing (pick : nat -> list mtch -> list mtch -> list mtch) (act : nat -> action) : behav found (list mtch) :=
  Behav (fun _ => true)
        (fun u f => (f, Ok (pick u (c_del (fd_matches f)) (c_del (fd_markers f)))))
        (fun u f l => (with_matches f (fst (consequence (act u) (fd_matches f) (Many l))), snd (consequence (act u) (fd_matches f) (Many l))))
        (fun l => match l with [] => false | _ => true end).
(** the rule selects: among the matches, each at most once *)
Definition selects (pick : nat -> list mtch -> list mtch -> list mtch) (u : nat) : Prop :=
  forall l markers, NoDup (pick u l markers) /\ incl (pick u l markers) l.
Lemma choosing_performs pick act u : (forall l markers, tidy l -> NoDup (pick u l markers) /\ incl (pick u l markers) l) ->
  performs (choosing pick act) (fun u l => [Then (act u) (Many l)]) tidy u.
Proof.
  intros Hs f f1 x [= <- <-]. split; [exists []; split; reflexivity|]. split; [reflexivity|]. intros resp [= <-] _. split; [reflexivity|]. split; [reflexivity|].
  intro T. destruct (Hs _ (c_del (fd_markers f)) T) as [A B]. destruct (@settle_after (act u) _ _ T A B) as (S1 & S2 & S3). split; [split; [exact S1|exact Logic.I]|].
  unfold settled. cbn [fold_left]. rewrite S2. exact S3.
Qed.
Lemma others_nil l : PropsConseq.others [] l = l.
Proof. apply filter_all. reflexivity. Qed.
Lemma after_nothing a l : after a l [] = l.
Proof. destruct a; cbn [after]; unfold redone; cbn [map new_elements]; rewrite ?app_nil_r, ?others_nil; reflexivity. Qed.
Lemma edits_picking pick act mk us : (forall u l markers, In u us -> tidy l -> NoDup (pick u l markers) /\ incl (pick u l markers) l) ->
  forall l l', tidy l -> edits (choosing pick act) (fun u l => [Then (act u) (Many l)]) mk us l l' -> l' = picking mk pick act us l.
Proof.
  intros Hs l l' T H. revert Hs T. induction H as [l|u us l l' E H IH|f f1 resp u us l l' E D M S W B H IH|f f1 resp u us l l' E D M S W B H IH]; intros Hs T; [reflexivity|discriminate| |].
  - cbn in W. injection W as <- <-. rewrite D, M in B. cbn in B. destruct (pick u l mk) eqn:Ep; [|discriminate]. unfold picking. cbn [fold_left]. rewrite Ep, after_nothing.
    apply IH; [intros v l0 m0 Hv; apply Hs; right; exact Hv|exact T].
  - cbn in W. injection W as <- <-. rewrite D, M in *. destruct (Hs u l mk (or_introl eq_refl) T) as [A I']. destruct (@settle_after (act u) _ _ T A I') as (S1 & S2 & S3).
    unfold settled in IH. cbn [fold_left] in IH. rewrite S2 in IH. unfold picking. cbn [fold_left]. apply IH; [intros v l0 m0 Hv; apply Hs; right; exact Hv|exact S3].
Qed.
(** The user rules select among the matches, each match at most once, and apply one built-in consequence each:
    the result is computed from the list of the matches found: without those the conflict solver takes out,
    edited by the rules in order, without the private ones. *)
Theorem C147_built_in_rules : forall Ctx (ctx : Ctx) (r : rb Ctx) env perm solvers order pick act isinst check input others f,
  iteration_order perm -> class_prio env -> instances_local env (effective_rules env ctx r) -> an_order order ->
  r_prio env 0 = 2048 -> r_prio env 1 = -2048 -> Forall (fun u => -2048 < r_prio env u < 2048) others ->
  Permutation (effective_rules env ctx r) (0 :: 1 :: others)%nat ->
  rb_disabled r ctx = false ->
  (forall u l markers, In u others -> tidy l -> NoDup (pick u l markers) /\ incl (pick u l markers) l) ->
  (forall outs n', yields ctx input (effective_patterns ctx r) 0 outs n' -> tidy (filter (fun m => negb (m_marker m)) (concat outs))) ->
  rb_matches env perm (fun c => with_defaults solvers order (choosing pick act)) isinst check r ctx input = Ok f ->
  exists outs n' middle c losers,
    yields ctx input (effective_patterns ctx r) 0 outs n'
    /\ execute_all_rules env perm recorder (effective_rules env ctx r) [] = (0%nat :: middle ++ [1%nat], Ok []) /\ Permutation middle others
    /\ let ms := filter (fun m => negb (m_marker m)) (concat outs) in
       let markers := filter m_marker (concat outs) in
       conflict_when solvers (run (empty_coll KMatches (Some input)) (map OAppend ms)) = (c, Ok losers)
       /\ c_del (fd_matches f) = filter (fun m => negb (m_private m)) (picking markers pick act middle (PropsConseq.others losers ms))
       /\ c_del (fd_markers f) = markers
       /\ tidy (c_del (fd_matches f)) /\ shows_members (fd_matches f).
Proof.
  intros Ctx ctx r env perm solvers order pick act isinst check input others f Hp Hc Hl Ho P0 P1 Hm Hr D Hs HU E.
  destruct (@C147_the_result_is_an_edited_list Ctx (list mtch) ctx r env perm solvers order (fun _ => choosing pick act) (fun u l => [Then (act u) (Many l)]) isinst check input others f tidy
    Hp Hc Hl Ho P0 P1 Hm Hr D tidy_sublist (fun l T => proj1 T)) as (outs & n' & middle & c & losers & edited & Y & Er & Pm & Ew & Ed & F & M & Sh); [|exact HU|exact E|].
  - intros u Hu. apply choosing_performs. intros l markers. apply Hs, Hu.
  - exists outs, n', middle, c, losers. split; [exact Y|]. split; [exact Er|]. split; [exact Pm|]. split; [exact Ew|].
    assert (T0 : tidy (PropsConseq.others losers (filter (fun m => negb (m_marker m)) (concat outs)))) by (eapply tidy_sublist; [apply others_sublist|exact (HU outs n' Y)]).
    assert (Hs' : forall u l markers, In u middle -> tidy l -> NoDup (pick u l markers) /\ incl (pick u l markers) l) by (intros u l markers Hu; apply Hs; eapply Permutation_in; eassumption).
    pose proof (@edits_picking pick act _ middle Hs' _ _ T0 Ed) as Ee. rewrite <- Ee. split; [exact F|]. split; [exact M|]. split; [|exact Sh].
    assert (G : forall us l, (forall u, In u us -> In u middle) -> tidy l -> tidy (picking (filter m_marker (concat outs)) pick act us l)).
    { induction us as [|u us IH]; intros l Hin T; [exact T|]. unfold picking. cbn [fold_left]. apply IH; [intros v Hv; apply Hin; right; exact Hv|].
      destruct (Hs' u l (filter m_marker (concat outs)) (Hin u (or_introl eq_refl)) T) as [A B]. apply (settle_after (act u) T A B). }
    rewrite F, Ee. eapply tidy_sublist; [|apply G; [intros u Hu; exact Hu|exact T0]].
    generalize (picking (filter m_marker (concat outs)) pick act middle (PropsConseq.others losers (filter (fun m => negb (m_marker m)) (concat outs)))) as l.
    induction l as [|x l IH]; cbn [filter]; [constructor|]. destruct (negb (m_private x)); constructor; exact IH.
Qed.

(** ** ... and nothing raises *)
Lemma then_ok P c a r : good P c -> proper KMatches (c_del c) (Then a r) -> snd (consequence a c r) = Ok tt.
Proof.
  intros (HE & Hk & _) Hp. rewrite <- Hk in Hp. destruct (event_exact HE Hp) as (_ & _ & _ & H). cbn [happen] in H. destruct (consequence a c r) as [c' [[]|e]]; [reflexivity|discriminate].
Qed.
Lemma solved_list (P : list mtch -> Prop) solvers order c0 c losers : (forall l l', sublist l' l -> P l -> P l') -> (forall l, P l -> no_equal l) -> an_order order ->
  good P c0 -> conflict_when solvers c0 = (c, Ok losers) ->
  snd (drop_ret (remove_then c (Many (order losers)))) = Ok tt /\ good P (fst (drop_ret (remove_then c (Many (order losers)))))
  /\ c_del (fst (drop_ret (remove_then c (Many (order losers))))) = PropsConseq.others losers (c_del c0).
Proof.
  intros Hs Hn Ho G Ew. destruct (loop_ops solvers (by_length (c_del c0)) c0 []) as (ops & Eops). fold (conflict_when solvers c0) in Eops. rewrite Ew in Eops. cbn [fst] in Eops.
  destruct (@good_lookups P _ (map OConflicting ops) G (conflicting_lookups ops)) as [G1 D1]. rewrite <- Eops in G1, D1.
  split; [apply (@then_ok P c Removing (Many (order losers)) G1); apply no_equal_apart, Hn, G1|].
  destruct (@good_removes P c (order losers) Hs Hn G1) as [G2 D2]. split; [exact G2|]. rewrite D2, D1.
  rewrite (take_out_all_perm (Permutation_sym (Ho losers))), take_out_others; [reflexivity|apply Hn, G].
Qed.
Lemma yields_one Ctx (ctx : Ctx) input ps : forall n outs n' outs2 n2, yields ctx input ps n outs n' -> yields ctx input ps n outs2 n2 -> outs = outs2 /\ n' = n2.
Proof.
  induction ps as [|p ps IH]; intros n outs n' outs2 n2 Y1 Y2; inversion Y1; subst; inversion Y2; subst; try congruence; [split; reflexivity|eapply IH; eassumption|].
  match goal with A : pt_match p ctx n input = Ok ?x, B : pt_match p ctx n input = Ok ?y |- _ => rewrite A in B; injection B as -> -> -> end.
  match goal with A : yields _ _ ps _ ?o1 n', B : yields _ _ ps _ ?o2 n2 |- _ => destruct (IH _ _ _ _ _ A B) as [-> ->] end. split; reflexivity.
Qed.
Lemma tidy_distinct l : tidy l -> distinct_objects l.
Proof. intros (Hn & Hi & _) a b Ha Hb [E|E]; [exact (no_equal_eq Hn Ha Hb E)|exact (NoDup_ids_eq Hi Ha Hb E)]. Qed.

(** ** ... and [matches] does return, when the patterns do, the rules can be ordered, the declared keys are
    respected and the matches found have no conflict solver of their own, the public ones not being empty; the rules start
    from matches of which no two public ones conflict. *)
Theorem C147_matches_returns : forall Ctx (ctx : Ctx) (r : rb Ctx) env perm solvers order pick act isinst check input others outs n' ord,
  iteration_order perm -> class_prio env -> instances_local env (effective_rules env ctx r) -> an_order order ->
  r_prio env 0 = 2048 -> r_prio env 1 = -2048 -> Forall (fun u => -2048 < r_prio env u < 2048) others ->
  Permutation (effective_rules env ctx r) (0 :: 1 :: others)%nat ->
  rb_disabled r ctx = false ->
  (forall u l markers, In u others -> tidy l -> NoDup (pick u l markers) /\ incl (pick u l markers) l) ->
  yields ctx input (effective_patterns ctx r) 0 outs n' ->
  let ms := filter (fun m => negb (m_marker m)) (concat outs) in
  let markers := filter m_marker (concat outs) in
  tidy ms -> Forall (fun m => m_solver m = None /\ (m_private m = false -> nonempty m)) ms ->
  execute_all_rules env perm recorder (effective_rules env ctx r) [] = (ord, Ok []) ->
  (check = true -> check_declared_keys isinst (effective_keys ctx r) (run (empty_coll KMatches (Some input)) (map OAppend ms)) = Ok tt) ->
  exists f middle losers,
    rb_matches env perm (fun c => with_defaults solvers order (choosing pick act)) isinst check r ctx input = Ok f
    /\ ord = 0%nat :: middle ++ [1%nat] /\ Permutation middle others
    /\ c_del (fd_matches f) = filter (fun m => negb (m_private m)) (picking markers pick act middle (PropsConseq.others losers ms))
    /\ (forall a b, In a (PropsConseq.others losers ms) -> In b (PropsConseq.others losers ms) -> m_private a = false -> m_private b = false ->
          overlap a b -> mlen (initiator a) = mlen (initiator b))
    /\ c_del (fd_markers f) = markers /\ tidy (c_del (fd_matches f)) /\ shows_members (fd_matches f).
Proof.
  intros Ctx ctx r env perm solvers order pick act isinst check input others outs n' ord Hp Hc Hl Ho P0 P1 Hm Hr D Hs Y ms markers T Hf Er Hk.
  set (bh := with_defaults solvers order (choosing pick act)). set (f1 := stage_result (fresh input (effective_keys ctx r)) outs n').
  assert (E0 : run_patterns ctx input (effective_patterns ctx r) (fresh input (effective_keys ctx r)) = Ok f1).
  { apply (@run_patterns_spec Ctx ctx input (effective_patterns ctx r) (fresh input (effective_keys ctx r)) eq_refl eq_refl). exact Y. }
  destruct (C67_default_rules_frame Hp Hc Hl Hr P0 P1 Hm Er) as (middle & Eo & Pm).
  assert (Hs' : forall u l markers, In u middle -> tidy l -> NoDup (pick u l markers) /\ incl (pick u l markers) l) by (intros u l mk Hu; apply Hs; eapply Permutation_in; eassumption).
  assert (Hne : forall u, In u middle -> u <> 0%nat /\ u <> 1%nat).
  { intros u Hu'. apply (Permutation_in _ Pm) in Hu'. rewrite Forall_forall in Hm. specialize (Hm u Hu'). split; intros ->; lia. }
  assert (E1 : fd_matches f1 = run (empty_coll KMatches (Some input)) (map OAppend ms)) by reflexivity.
  assert (G1 : good tidy (fd_matches f1)).
  { rewrite E1. apply appended_found; [apply T| |exact T]. apply Forall_forall. intros m Hin. apply filter_In in Hin as [_ Hin]. now apply negb_true_iff in Hin. }
  assert (D1 : c_del (fd_matches f1) = ms) by (apply (stage_del input (effective_keys ctx r) outs n')).
  (* the conflict solver *)
  assert (Hh : all_handed (map OAppend ms) = ms) by apply appends_handed.
  assert (Lst : list_run [] (map OAppend ms) = ms) by apply appends_list.
  pose proof (tidy_distinct T) as Td. rewrite Forall_forall in Hf.
  assert (Hsit : situation KMatches (map OAppend ms)).
  { constructor; rewrite ?Hh, ?Lst.
    - apply appends_acceptable. apply Forall_forall. intros m Hin'. apply filter_In in Hin'. tauto.
    - apply appends_no_assignment.
    - intros a b Ha Hb Eab. apply Td; auto.
    - intros a b Ha Hb Eab. rewrite (Td a b Ha Hb (or_introl Eab)). reflexivity.
    - intros m Hin' Hpv. apply (proj2 (Hf m Hin') Hpv). }
  destruct (@C35_conflicts_resolved_partial solvers order KMatches (Some input) (map OAppend ms) Hsit) as (c' & E' & _ & G).
  { unfold no_custom_solver. rewrite Hh. apply Forall_forall. intros m Hin'. apply Hf, Hin'. }
  { exact Ho. } { rewrite Hh. exact Td. } { rewrite Lst. apply NoDup_of_ids, T. }
  rewrite <- E1 in E'. unfold conflict_rule in E'. destruct (conflict_when solvers (fd_matches f1)) as [c1 [losers|e]] eqn:Ew; [|discriminate].
  destruct (@solved_list tidy solvers order _ c1 losers tidy_sublist (fun l T => proj1 T) Ho G1 Ew) as (S1 & S2 & S3). rewrite D1 in S3.
  rewrite E' in S3. cbn [fst] in S3. rewrite S3 in G.
  (* nothing raises *)
  assert (Ex : exists f ret, execute_all_rules env perm bh (effective_rules env ctx r) f1 = (f, Ok ret)).
  { destruct (execute_all_rules env perm bh (effective_rules env ctx r) f1) as [f [ret|e]] eqn:Ex; [exists f, ret; reflexivity|]. exfalso.
    pose proof (C30_execution Er Ex) as [[X _]|(l1 & u & l2 & s1 & ret & Eord & H1 & Hra)]; [discriminate|]. rewrite Eo in Eord.
    assert (Gs : forall s u e s', good tidy (fd_matches s) -> In u (middle ++ [1%nat]) -> raises bh u s s' e -> False).
    { clear - Hs' Hne. intros s u e s' Gs Hu Hra. apply in_app_or in Hu as [Hu|[<-|[]]].
      - destruct (Hne u Hu) as [N0 N1]. destruct u as [|[|u]]; [congruence|congruence|]. destruct Hra as [x1 x2 En Ew|s2 resp s3 e En Ew Et Eth]; cbn [bh with_defaults choosing b_when b_then] in Ew; [discriminate|]. injection Ew as <- <-.
        cbn [bh with_defaults choosing b_when b_then] in Eth. destruct (Hs' _ (c_del (fd_matches s)) (c_del (fd_markers s)) Hu (proj2 (proj2 Gs))) as [A B]. destruct (@settle_after (act (S (S u))) _ _ (proj2 (proj2 Gs)) A B) as (Pr & _ & _).
        injection Eth as _ Eth. pose proof (@then_ok tidy _ _ _ Gs Pr) as Ok1. congruence.
      - destruct Hra as [x1 x2 En Ew|s2 resp s3 e En Ew Et Eth]; cbn [bh with_defaults default_behav b_when b_then] in Ew; [discriminate|]. injection Ew as <- <-.
        cbn [bh with_defaults default_behav b_when b_then] in Eth. pose proof (@then_ok tidy _ Removing (Many (filter m_private (c_del (fd_matches s)))) Gs (no_equal_apart (proj1 (proj2 (proj2 Gs))))) as Ok1. cbn [consequence] in Ok1.
        destruct (drop_ret (remove_then (fd_matches s) (Many (filter m_private (c_del (fd_matches s)))))) as [c x]. change (x = Ok tt) in Ok1. injection Eth as _ Eth. congruence. }
    destruct l1 as [|z l1]; cbn [app] in Eord; injection Eord as <- Eord.
    - inversion H1; subst. destruct Hra as [x1 x2 En Ew2|s2 resp s3 e En Ew2 Et Eth]; cbn [bh with_defaults default_behav b_when b_then] in Ew2; rewrite Ew in Ew2; [discriminate|]. injection Ew2 as <- <-. cbn [bh with_defaults default_behav b_when b_then fd_matches with_matches] in Eth.
      destruct (drop_ret (remove_then c1 (Many (order losers)))) as [c x]. change (x = Ok tt) in S1. injection Eth as _ Eth. congruence.
    - change (0%nat :: l1) with ([0%nat] ++ l1) in H1. apply consider_all_app in H1 as (f2 & r1 & r2 & H1 & H2 & _).
      assert (exists o, consider bh 0 f1 f2 o) as (o1 & C1).
      { inversion H1 as [|? ? ? ? ? ? X1 X2|? ? ? ? ? ? ? X1 X2]; subst; inversion X2; subst; eauto. }
      destruct (solver_considered Ho C1) as (c & Ec & Ef2). unfold conflict_rule in Ec. rewrite Ew in Ec. rewrite Ec in S2. cbn [fst] in S2.
      assert (G2 : good tidy (fd_matches f2)) by (rewrite Ef2; exact S2).
      (* the rules before the one that raises are user rules *)
      assert (Hl1 : forall v, In v l1 -> In v middle /\ In u (middle ++ [1%nat])).
      { intros v Hv. split; [|rewrite Eord; apply in_or_app; right; left; reflexivity].
        assert (Hpre : exists l3, middle = l1 ++ l3); [|destruct Hpre as (l3 & ->); apply in_or_app; left; exact Hv].
        clear -Eord. revert l1 Eord. induction middle as [|a mid IH]; intros [|b l1] E; cbn [app] in E; [exists []; reflexivity| |exists (a :: mid); reflexivity|].
        - injection E as <- E. destruct l1; discriminate.
        - injection E as <- E. destruct (IH l1 E) as (l3 & ->). exists l3. reflexivity. }
      assert (Hu : In u (middle ++ [1%nat])) by (rewrite Eord; apply in_or_app; right; left; reflexivity).
      destruct (@users_alone (list mtch) solvers order (choosing pick act) l1 f2 s1 r2) as (ret' & H2'); [intros v Hv; apply Hne, Hl1, Hv|exact H2|].
      destruct (@users_edit (list mtch) (choosing pick act) (fun u l => [Then (act u) (Many l)]) tidy l1 f2 s1 ret') as (G3 & _); [|exact G2|exact H2'|exact (Gs s1 u e f G3 Hu Hra)].
      intros v Hv. apply choosing_performs. intros l mk. apply Hs', Hl1, Hv. }
  destruct Ex as (f & ret & Ex).
  assert (E : rb_matches env perm (fun c => with_defaults solvers order (choosing pick act)) isinst check r ctx input = Ok f).
  { unfold rb_matches, matches_patterns. rewrite D.
    change {| fd_next := 0; fd_matches := empty_coll KMatches (Some input); fd_markers := empty_coll KMarkers (Some input); fd_keys := effective_keys ctx r |}
      with (fresh input (effective_keys ctx r)). rewrite E0.
    assert (Ck : (if check then check_declared_keys isinst (fd_keys f1) (fd_matches f1) else Ok tt) = Ok tt) by (destruct check; [exact (Hk eq_refl)|reflexivity]). rewrite Ck.
    unfold execute_rules. rewrite D. fold bh. rewrite Ex. reflexivity. }
  exists f, middle, losers. split; [exact E|]. split; [exact Eo|]. split; [exact Pm|].
  destruct (@C147_built_in_rules Ctx ctx r env perm solvers order pick act isinst check input others f Hp Hc Hl Ho P0 P1 Hm Hr D Hs) as (outs2 & n2 & middle2 & c2 & losers2 & Y2 & Er2 & _ & Ew2 & F & M & Ti & Sh); [|exact E|].
  { intros outs2 n2 Y2. destruct (yields_one Y Y2) as [<- _]. exact T. }
  destruct (yields_one Y Y2) as [<- _]. fold ms in Ew2. rewrite Er2 in Er. injection Er as <-. 
  injection Eo as Eo. apply app_inj_tail in Eo as [-> _]. rewrite <- E1, Ew in Ew2. injection Ew2 as <- <-.
  split; [exact F|]. split; [exact G|]. split; [exact M|]. split; [exact Ti|exact Sh].
Qed.

(** ** A concrete case
    The patterns find a private match, two conflicting ones, and two others, which rule 2 tags; rule 3 renames the
    tagged ones that have no name; rule 4 removes those named "old". *)
Definition run_b := set_name (mk_match 2 1 5) (Some (s "old")).
Definition run_d := mk_match 4 9 10.
Definition run_e := set_name (mk_match 5 20 22) (Some (s "year")).
Definition run_ms := [pl_a; run_b; pl_c; run_d; run_e].
Definition run_pat : pat unit := Pat 0 (fun _ => false) (fun _ n _ => Ok (n, (run_ms, []))) (PInfo None [] [] false false [] false ShFunctional).
Definition run_rb : rb unit := Rb (fun _ => false) [run_pat] [0; 1; 2; 3; 4]%nat [] [].
Definition run_pick (u : nat) (l markers : list mtch) : list mtch :=
  match u with
  | 2%nat => filter (fun m => 8 <? m_start m) l
  | 3%nat => filter (fun m => match m_name m, m_tags m with None, _ :: _ => true | _, _ => false end) l
  | _ => filter (name_is (s "old")) l
  end.
Definition run_act (u : nat) : action :=
  match u with 2%nat => Tagging [s "late"] | 3%nat => Renaming (Some (s "title")) | _ => Removing end.
Definition run_env : renv := REnv (fun r => r) (fun r => match r with O => 2048 | S O => -2048 | S (S n) => - Z.of_nat n end) (fun _ => []).
Example C147_case :
  exists f, rb_matches run_env (fun l => l) (fun _ => with_defaults (fun _ _ _ => VDefault) (fun l => l) (choosing run_pick run_act)) (fun _ _ => true) true run_rb tt [] = Ok f
    /\ c_del (fd_matches f) = [set_tags run_e [s "late"]; set_name (set_tags run_d [s "late"]) (Some (s "title"))].
Proof. eexists. split; [vm_compute; reflexivity|]. vm_compute. reflexivity. Qed.
Lemma filter_selects (p : mtch -> bool) l : tidy l -> NoDup (filter p l) /\ incl (filter p l) l.
Proof. intros (_ & H & _). split; [apply NoDup_filter, NoDup_of_ids, H|]. intros x Hx. apply filter_In in Hx. tauto. Qed.
Lemma run_tidy : tidy run_ms.
Proof.
  split; [|split; [|split]].
  - unfold no_equal. repeat constructor.
  - cbn. repeat constructor; cbn; intuition discriminate.
  - intros x p y m Hx Hp. assert (F : Forall (fun x => m_parent x = None) run_ms) by (repeat constructor). rewrite Forall_forall in F. rewrite (F x Hx) in Hp. discriminate.
  - repeat constructor.
Qed.
Example C147_case_hypotheses :
  instances_local run_env (effective_rules run_env tt run_rb) /\ class_prio run_env /\ effective_rules run_env tt run_rb = [0; 1; 2; 3; 4]%nat
  /\ Forall (fun u => -2048 < r_prio run_env u < 2048) [2; 3; 4]%nat
  /\ (forall u l markers, tidy l -> NoDup (run_pick u l markers) /\ incl (run_pick u l markers) l)
  /\ yields tt [] (effective_patterns tt run_rb) 0 [run_ms] 0
  /\ tidy run_ms /\ Forall (fun m => m_solver m = None /\ (m_private m = false -> nonempty m)) run_ms
  /\ execute_all_rules run_env (fun l => l) recorder (effective_rules run_env tt run_rb) [] = ([0; 2; 3; 4; 1]%nat, Ok [])
  /\ check_declared_keys (fun _ _ => true) (effective_keys tt run_rb) (run (empty_coll KMatches (Some [])) (map OAppend run_ms)) = Ok tt.
Proof.
  split; [|split; [|split; [|split; [|split; [|split; [|split; [|split; [|split]]]]]]]].
  - intros a i _ [].
  - intros a b E. cbn in E. subst. reflexivity.
  - reflexivity.
  - repeat constructor; cbn; lia.
  - intros u l mk T. destruct u as [|[|[|[|u]]]]; apply filter_selects, T.
  - apply (@y_enabled unit tt [] run_pat [] 0%nat 0%nat run_ms []); [reflexivity|reflexivity|constructor].
  - exact run_tidy.
  - repeat constructor; intros; unfold nonempty; cbn; lia.
  - vm_compute. reflexivity.
  - vm_compute. reflexivity.
Qed.
(** a rule of the general theorem which is not a built-in consequence: unless there is a match with the identity
    100 or equal to the new one, the first match is taken out, the new one is appended, and what ends it is tagged *)
Definition run_new := mk_match 100 40 41.
Definition replacing : behav found mtch :=
  Behav (fun _ => true)
        (fun _ f => (f, match c_del (fd_matches f) with
                        | m :: r => if existsb (fun x => (m_id x =? 100)%nat) (m :: r) || existsb (meq run_new) r then Err IndexError else Ok m
                        | [] => Err IndexError
                        end))
        (fun _ f m => (with_matches f (happened (fd_matches f) [Call (ORemove m); Call (OAppend run_new)]), Ok tt))
        (fun _ => true).
Example C147_replacing : forall u, performs replacing (fun _ m => [Call (ORemove m); Call (OAppend run_new)]) (fun l => tidy l /\ forall x, In x l -> m_parent x = None) u.
Proof.
  intros u f f1 x E. assert (f1 = f) as -> by (symmetry; exact (f_equal fst E)). assert (x = snd (b_when replacing u f)) as -> by (rewrite E; reflexivity). clear E. split; [exists []; split; reflexivity|]. split; [reflexivity|]. intros resp Er _. split; [reflexivity|]. split; [reflexivity|].
  intros [T Hpar]. cbn [replacing b_when snd] in Er. revert Er T Hpar. destruct (c_del (fd_matches f)) as [|m r]; [discriminate|]. intros Er T Hpar. revert Er.
  destruct (existsb (fun x => (m_id x =? 100)%nat) (m :: r) || existsb (meq run_new) r) eqn:Ex; [discriminate|]. intros [= <-]. apply orb_false_iff in Ex as [E1 E2].
  pose proof T as (Hn & Hi & Ha & Hm).
  assert (S1 : fst (list_step (m :: r) (ORemove m)) = r) by (cbn; rewrite meq_refl; reflexivity).
  assert (S2 : fst (list_step r (OAppend run_new)) = r ++ [run_new]) by reflexivity.
  assert (Tr : tidy r) by (eapply tidy_sublist; [|exact T]; constructor; clear; induction r; constructor; assumption).
  split.
  - change (proper KMatches (m :: r) (Call (ORemove m)) /\ proper KMatches (fst (list_step (m :: r) (ORemove m))) (Call (OAppend run_new)) /\ True). rewrite S1. split; [split; [constructor|split; [reflexivity|apply no_equal_apart, Hn]]|]. split; [|exact Logic.I].
    split; [constructor; [reflexivity|constructor]|split; [reflexivity|exact Logic.I]].
  - change (settled (m :: r) [Call (ORemove m); Call (OAppend run_new)]) with (fst (list_step (fst (list_step (m :: r) (ORemove m))) (OAppend run_new))). rewrite S1, S2. assert (Hp' : forall x, In x (r ++ [run_new]) -> m_parent x = None).
    { intros x Hx. apply in_app_or in Hx as [Hx|[<-|[]]]; [apply Hpar; right; exact Hx|reflexivity]. }
    split; [|exact Hp']. destruct Tr as (Tn & Ti & Ta & Tm). split; [apply no_equal_snoc; assumption|]. split; [|split].
    + rewrite map_app. cbn [map]. apply (Permutation_NoDup (Permutation_cons_append (map m_id r) (m_id run_new))). constructor; [|exact Ti].
      intro C. apply in_map_iff in C as (y & Ey & Hy). cbn [existsb] in E1. apply orb_false_iff in E1 as [_ E1]. rewrite existsb_false_iff in E1. specialize (E1 y Hy). cbn beta in E1. rewrite Ey in E1. discriminate.
    + intros x p y z Hx Hp. rewrite (Hp' x Hx) in Hp. discriminate.
    + apply Forall_app. split; [exact Tm|]. constructor; [reflexivity|constructor].
Qed.

Print Assumptions C147_the_result_is_an_edited_list. Print Assumptions C147_built_in_rules. Print Assumptions C147_matches_returns.
