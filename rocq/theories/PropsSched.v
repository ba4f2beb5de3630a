(** * Property C149: calls of matches() at the same time *)
From Verif Require Import Base BaseFacts Match MatchFacts Conseq TagHeap PropsTags Sched.
From Coq Require String.
Export Coq.Strings.String.StringSyntax.
Open Scope string_scope.
Open Scope list_scope.
Set Implicit Arguments.
Unset Strict Implicit.
Open Scope nat_scope.

(** ** Specification *)
(** no call adds or removes tags, or no pattern of any call is given tags *)
Definition apart (calls : list call) (h : tags_heap) : Prop :=
  (forall c, In c calls -> no_tag_rule (c_rules c)) \/ (forall c, In c calls -> no_tags (c_patterns c) h).
(** how often call i makes a step in a schedule *)
Definition steps_of (i : nat) (schedule : list nat) : nat := count_occ Nat.eq_dec schedule i.

(** ** A call on its own *)
Definition solo (n : nat) (st : tags_heap * thread) : tags_heap * thread := Nat.iter n step st.
Lemma solo_add n m st : solo (n + m) st = solo n (solo m st).
Proof. unfold solo. induction n as [|n IH]; [reflexivity|]. change (step (Nat.iter (n + m) step st) = step (Nat.iter n step (Nat.iter m step st))). now rewrite IH. Qed.
Lemma solo_S n st : solo (S n) st = solo n (step st).
Proof. rewrite <- Nat.add_1_r, solo_add. reflexivity. Qed.
Lemma solo_done n h l : solo n (h, Thread [] l) = (h, Thread [] l).
Proof. induction n as [|n IH]; [reflexivity|]. rewrite solo_S. exact IH. Qed.
Lemma solo_find t k : forall ms h l, solo (length ms) (h, Thread (map (AFind t) ms ++ k) l) = (let '(h', l') := fold_left (find_one t) ms (h, l) in (h', Thread k l')).
Proof.
  induction ms as [|m ms IH]; intros h l; [reflexivity|]. cbn [length map app]. rewrite solo_S. cbn [step th_todo th_held fold_left find_one].
  destruct (new_match h t m) as [h1 o]. apply IH.
Qed.
Lemma solo_find_all input k : forall ps h l, exists n, solo n (h, Thread (flat_map (fun p => map (AFind (tp_tags p)) (tp_find p input)) ps ++ k) l)
  = (let '(h', l') := fold_left (fun st p => fold_left (find_one (tp_tags p)) (tp_find p input) st) ps (h, l) in (h', Thread k l')).
Proof.
  induction ps as [|p ps IH]; intros h l; [exists 0; reflexivity|]. cbn [flat_map fold_left]. rewrite <- app_assoc.
  pose proof (solo_find (tp_tags p) (flat_map (fun p => map (AFind (tp_tags p)) (tp_find p input)) ps ++ k) (tp_find p input) h l) as S.
  destruct (fold_left (find_one (tp_tags p)) (tp_find p input) (h, l)) as [h1 l1]. destruct (IH h1 l1) as [n N].
  exists (n + length (tp_find p input)). rewrite solo_add, S. exact N.
Qed.
Lemma solo_edit e k : forall os h l, exists n, solo n (h, Thread (map (AEdit e) os ++ k) l) = (fold_left (edit_one e) os h, Thread k l).
Proof.
  induction os as [|o os IH]; intros h l; [exists 0; reflexivity|]. destruct (IH (edit_one e h o) l) as [n N]. exists (S (S n)). cbn [map app fold_left]. rewrite !solo_S. exact N.
Qed.
Lemma solo_look r k h : forall b a, solo (length b) (h, Thread (ALook r (map (tview h) a) :: k) (a ++ b)) = (h, Thread (ALook r (map (tview h) (a ++ b)) :: k) (a ++ b)).
Proof.
  induction b as [|o b IH]; intro a; [now rewrite app_nil_r|]. cbn [length]. rewrite solo_S. cbn [step th_todo th_held]. rewrite map_length.
  assert (nth_error (a ++ o :: b) (length a) = Some o) as -> by (clear; induction a; [reflexivity|assumption]).
  specialize (IH (a ++ [o])). rewrite <- app_assoc in IH. cbn [app] in IH. rewrite map_app in IH. exact IH.
Qed.
Lemma solo_rules : forall rules h l, exists n, solo n (h, Thread (map (fun r => ALook r []) rules) l) = (let '(h', l') := fold_left run_rule rules (h, l) in (h', Thread [] l')).
Proof.
  induction rules as [|r rules IH]; intros h l; [exists 0; reflexivity|]. cbn [map fold_left]. set (k := map (fun r => ALook r []) rules) in *.
  assert (exists n, solo n (h, Thread (ALook r [] :: k) l) = (let '(h', l') := run_rule (h, l) r in (h', Thread k l'))) as [n N].
  { unfold run_rule. pose proof (solo_look r k h l []) as L. cbn [map app] in L. set (sel := picked l (tr_when r (map (tview h) l))).
    assert (nth_error l (length (map (tview h) l)) = None) as Ne by (rewrite map_length; apply nth_error_None; apply Nat.le_refl).
    destruct (tr_action r) as [|nm|e] eqn:A.
    - exists (1 + length l). rewrite solo_add, L. change (solo 1) with step; cbn [step th_todo th_held]. now rewrite Ne, A.
    - exists (1 + length l). rewrite solo_add, L. change (solo 1) with step; cbn [step th_todo th_held]. rewrite Ne, A. fold sel. destruct (fold_left t_remove_one sel (l, [])). reflexivity.
    - destruct (fold_left t_remove_one sel (l, [])) as [l1 rm] eqn:E. destruct (solo_edit e (AAppend rm :: k) rm h l1) as [n N].
      exists (1 + (n + (1 + length l))). rewrite !solo_add, L.
      assert (solo 1 (h, Thread (ALook r (map (tview h) l) :: k) l) = (h, Thread (map (AEdit e) rm ++ AAppend rm :: k) l1)) as ->.
      { change (solo 1) with step; cbn [step th_todo th_held]. rewrite Ne, A. fold sel. now rewrite E. }
      rewrite N. reflexivity. }
  destruct (run_rule (h, l) r) as [h1 l1]. destruct (IH h1 l1) as [n' N']. exists (n' + n). rewrite solo_add, N. exact N'.
Qed.
Lemma solo_call c h : exists n, forall m, n <= m -> exists h' l', solo m (h, begin c) = (h', Thread [] l') /\ map (tview h') l' = snd (t_matches (c_patterns c) (c_rules c) h (c_input c)).
Proof.
  unfold begin, t_matches, find_all. destruct (solo_find_all (c_input c) (map (fun r => ALook r []) (c_rules c)) (c_patterns c) h []) as [n N].
  destruct (fold_left _ (c_patterns c) (h, [])) as [h1 l1]. destruct (solo_rules (c_rules c) h1 l1) as [n' N']. exists (n' + n). intros m M.
  assert (solo (n' + n) (h, Thread (flat_map (fun p => map (AFind (tp_tags p)) (tp_find p (c_input c))) (c_patterns c) ++ map (fun r => ALook r []) (c_rules c)) []) = (let '(h', l') := fold_left run_rule (c_rules c) (h1, l1) in (h', Thread [] l'))) as E.
  { rewrite solo_add, N. exact N'. }
  destruct (fold_left run_rule (c_rules c) (h1, l1)) as [h2 l2]. exists h2, l2. split; [|reflexivity].
  replace m with ((m - (n' + n)) + (n' + n)) by lia. rewrite solo_add, E. apply solo_done.
Qed.

(** ** A call among others against the same call on its own *)
Section Run.
Variables (edits : bool) (n0 : nat).
(** the objects a call holds: when tags are changed, their lists are its own *)
Definition owns (R : nat -> nat -> Prop) (a b : nat) : Prop := R a b /\ (edits = true -> n0 <= a).
Definition same_action (R : nat -> nat -> Prop) (h : tags_heap) (a a' : action) : Prop :=
  match a, a' with
  | AFind t m, AFind t' m' => m = m' /\ rel_tags R t t' /\ (edits = true -> forall x, t = Some x -> x < n0 /\ th_cell h x = [])
  | ALook r v, ALook r' v' => r = r' /\ v = v' /\ (edits = false -> forall e, tr_action r <> TTags e)
  | AEdit e o, AEdit e' o' => e = e' /\ rel_obj (owns R) o o' /\ edits = true
  | AWrite o l, AWrite o' l' => l = l' /\ rel_obj (owns R) o o' /\ edits = true
  | AAppend os, AAppend os' => Forall2 (rel_obj (owns R)) os os'
  | _, _ => False
  end.
Record same_call (R : nat -> nat -> Prop) (h : tags_heap) (t : thread) (g : tags_heap) (u : thread) : Prop := {
  sc_heap : related R h g;
  sc_todo : Forall2 (same_action R h) (th_todo t) (th_todo u);
  sc_held : Forall2 (rel_obj (owns R)) (th_held t) (th_held u);
  sc_next : n0 <= th_next h
}.
Lemma owned_rel R l l' : Forall2 (rel_obj (owns R)) l l' -> Forall2 (rel_obj R) l l'.
Proof. intro F. induction F as [|o o' l l' [X [Y _]] F IH]; constructor; [split; assumption|exact IH]. Qed.
Lemma owns_extends R R' : extends R R' -> extends (owns R) (owns R').
Proof. intros E a b [X Y]. split; [apply E, X|exact Y]. Qed.
(** what a step changes in the lists *)
Lemma step_changes h t x : x < th_next h -> (forall o l k, th_todo t = AWrite o l :: k -> t_tags o <> x) -> th_cell (fst (step (h, t))) x = th_cell h x.
Proof.
  intros X N. cbn [step]. destruct (th_todo t) as [|[tags m|r views|e o|o tags|os] k] eqn:T; [reflexivity| | |reflexivity| |reflexivity].
  - unfold new_match, th_new. assert (Nat.eqb x (th_next h) = false) as E by (apply Nat.eqb_neq; lia).
    destruct tags as [a|]; [destruct (th_cell h a)|]; cbn; rewrite ?E; reflexivity.
  - destruct (nth_error _ _); [reflexivity|]. destruct (tr_action r); [reflexivity| |]; destruct (fold_left t_remove_one _ _); reflexivity.
  - cbn. specialize (N o tags k eq_refl). assert (Nat.eqb x (t_tags o) = false) as -> by (apply Nat.eqb_neq; congruence). reflexivity.
Qed.
Lemma step_next h t : th_next h <= th_next (fst (step (h, t))).
Proof.
  cbn [step]. destruct (th_todo t) as [|[tags m|r views|e o|o tags|os] k]; cbn; try lia.
  - pose proof (next_grows_new h tags m). destruct (new_match h tags m). cbn in *. lia.
  - destruct (nth_error _ _); cbn; [lia|]. destruct (tr_action r); cbn; [lia| |]; destruct (fold_left t_remove_one _ _); cbn; lia.
Qed.
(** the edited list belongs to the call *)
Lemma edited_own R h t g u o l k : same_call R h t g u -> th_todo t = AWrite o l :: k -> (exists b, R (t_tags o) b) /\ n0 <= t_tags o.
Proof.
  intros S T. pose proof (sc_todo S) as F. rewrite T in F. inversion F as [|? a' ? ? A]; subst. destruct a'; cbn in A; try contradiction.
  destruct A as (_ & [_ [X Y]] & E). split; [eauto|auto].
Qed.
Lemma old_kept R h t g u x : same_call R h t g u -> x < n0 -> th_cell (fst (step (h, t))) x = th_cell h x.
Proof. intros S X. apply step_changes; [pose proof (sc_next S); lia|]. intros o l k T. destruct (edited_own S T) as [_ Y]. lia. Qed.
Lemma todo_kept R R' h h' l l' : extends R R' -> (forall x, x < n0 -> th_cell h' x = th_cell h x) -> Forall2 (same_action R h) l l' -> Forall2 (same_action R' h') l l'.
Proof.
  intros E K F. induction F as [|a a' l l' A F IH]; constructor; [|exact IH]. destruct a, a'; cbn in A |- *; try contradiction.
  - destruct A as (A & B & C). split; [exact A|]. split; [destruct tags, tags0; cbn in *; auto|]. intros X x Y. destruct (C X x Y) as [P Q]. split; [exact P|]. now rewrite K.
  - exact A.
  - destruct A as (A & [B C] & D). split; [exact A|]. split; [split; [exact B|apply (owns_extends E), C]|exact D].
  - destruct A as (A & [B C] & D). split; [exact A|]. split; [split; [exact B|apply (owns_extends E), C]|exact D].
  - eapply rel_extends; [apply owns_extends, E|exact A].
Qed.
(** another call makes a step *)
Lemma other_step R R' h t g u t2 g2 u2 : same_call R h t g u -> same_call R' h t2 g2 u2 -> (forall a b b', R a b -> R' a b' -> a < n0) -> same_call R (fst (step (h, t2))) t g u.
Proof.
  intros S S2 D. pose proof (step_next h t2) as N. destruct S as [[A F I C] T H X]. constructor.
  - constructor; auto.
    + intros a b Hab. destruct (A a b Hab). lia.
    + intros a b Hab. rewrite <- (C a b Hab). destruct (A a b Hab). apply step_changes; [assumption|]. intros o l k E Y. subst a.
      destruct (edited_own S2 E) as [[b' B'] Z]. specialize (D _ _ _ Hab B'). lia.
  - eapply todo_kept; [| |exact T]; [intros a b Y; exact Y|]. intros x Hx. eapply old_kept; eassumption.
  - exact H.
  - lia.
Qed.
(** the call itself makes a step *)
Lemma own_step R h t g u : same_call R h t g u ->
  exists R', same_call R' (fst (step (h, t))) (snd (step (h, t))) (fst (step (g, u))) (snd (step (g, u))) /\ forall a b, R' a b -> R a b \/ th_next h <= a.
Proof.
  intros S. pose proof (fun x => @old_kept R h t g u x S) as K. pose proof (step_next h t) as N. destruct S as [Re T H X]. cbn [step] in *.
  inversion T as [Tt Tu|a a' k k' A F Tt Tu].
  - rewrite <- Tt, <- Tu in *. exists R. cbn. split; [|auto]. constructor; cbn; auto. rewrite <- Tt, <- Tu. constructor.
  - rewrite <- Tt, <- Tu in *. destruct a as [tg m|r v|e o|o l|os], a' as [tg' m'|r' v'|e' o'|o' l'|os']; cbn [same_action] in A; try contradiction.
    + destruct A as (<- & B & C). destruct (new_match h tg m) as [h1 o] eqn:E. destruct (new_match g tg' m) as [g1 o'] eqn:E'.
      destruct (new_match_rel Re B E E') as (R' & Y & Re' & Ro & Nw). cbn [fst snd] in *. exists R'. split; [|intros a b Z; destruct (Nw a b Z) as [W|[W _]]; auto].
      constructor; cbn [th_todo th_held]; [exact Re'|eapply todo_kept; eassumption| |lia].
      apply Forall2_app; [eapply rel_extends; [apply owns_extends, Y|exact H]|]. constructor; [|constructor]. destruct Ro as [Ro1 Ro2]. split; [exact Ro1|]. split; [exact Ro2|].
      intro Ed. specialize (C Ed). unfold new_match, th_new in E. destruct tg as [x|].
      * destruct (C x eq_refl) as [P Q]. rewrite Q in E. injection E as <- <-. cbn. exact X.
      * injection E as <- <-. cbn. exact X.
    + destruct A as (<- & <- & NT). pose proof (owned_rel H) as H'.
      assert (match nth_error (th_held t) (length v), nth_error (th_held u) (length v) with Some o, Some o' => tview h o = tview g o' | None, None => True | _, _ => False end) as Nt.
      { clear -H' Re. generalize (length v). induction H' as [|o o' x x' [Y Z] B IH]; intros [|n]; cbn [nth_error]; try exact Logic.I; [unfold tview; now rewrite Y, (re_cell Re Z)|apply IH]. }
      destruct (nth_error (th_held t) (length v)), (nth_error (th_held u) (length v)); try contradiction.
      { cbn [fst snd] in *. exists R. split; [|auto]. constructor; cbn [th_todo th_held]; try assumption. constructor; [|exact F]. cbn. rewrite Nt. auto. }
      clear Nt. set (is := tr_when r v) in *. pose proof (picked_rel is H) as P.
      assert (Nn : Forall2 (rel_obj (owns R)) (@nil tobj) []) by constructor. exists R. destruct (tr_action r) as [|nm|e] eqn:Ac.
      * cbn [fst snd] in *. split; [|auto]. constructor; assumption.
      * destruct (remove_all_rel P H Nn) as [Q1 Q2]. destruct (fold_left t_remove_one (picked (th_held t) is) (th_held t, [])) as [l1 r1]. destruct (fold_left t_remove_one (picked (th_held u) is) (th_held u, [])) as [l1' r1'].
        cbn [fst snd] in *. split; [|auto]. constructor; cbn [th_todo th_held]; try assumption. apply append_all_rel; [|exact Q1]. clear -Q2. induction Q2 as [|o o' x x' [Y Z] B IH]; cbn [map]; constructor; [split; cbn [rename_obj t_match t_tags]; [now rewrite Y|exact Z]|exact IH].
      * destruct (remove_all_rel P H Nn) as [Q1 Q2]. destruct (fold_left t_remove_one (picked (th_held t) is) (th_held t, [])) as [l1 r1]. destruct (fold_left t_remove_one (picked (th_held u) is) (th_held u, [])) as [l1' r1'].
        cbn [fst snd] in *. split; [|auto]. constructor; cbn [th_todo th_held]; try assumption. apply Forall2_app.
        -- assert (edits = true) as Ed by (destruct edits eqn:Ed; [reflexivity|exfalso; exact (NT eq_refl e eq_refl)]). clear -Q2 Ed. induction Q2 as [|o o' x x' Y B IH]; cbn [map]; constructor; [cbn; auto|exact IH].
        -- constructor; [exact Q2|exact F].
    + destruct A as (<- & Y & Ed). cbn [fst snd] in *. exists R. split; [|auto]. constructor; cbn [th_todo th_held]; try assumption. constructor; [|exact F].
      cbn. destruct Y as [Y1 [Y2 Y3]]. rewrite (re_cell Re Y2). split; [reflexivity|]. split; [split; [exact Y1|split; assumption]|exact Ed].
    + destruct A as (<- & Y & Ed). cbn [fst snd] in *. exists R. split; [|auto]. constructor; cbn [th_todo th_held]; [|eapply todo_kept; [|exact K|exact F]; intros a b Z; exact Z|exact H|exact X].
      apply (@edit_rel R (fun _ => l) [o] [o'] h g); [|exact Re]. constructor; [|constructor]. destruct Y as [Y1 [Y2 _]]. split; assumption.
    + cbn [fst snd] in *. exists R. split; [|auto]. constructor; cbn [th_todo th_held]; try assumption. apply append_all_rel; assumption.
Qed.

(** all the calls, each against itself alone *)
Definition all_same (w : world) (alone : nat -> tags_heap * thread) : Prop :=
  exists R : nat -> nat -> nat -> Prop, (forall i, same_call (R i) (w_heap w) (w_threads w i) (fst (alone i)) (snd (alone i)))
    /\ forall i j a b b', i <> j -> R i a b -> R j a b' -> a < n0.
Lemma turn_same w alone i : all_same w alone -> all_same (turn w i) (fun j => if Nat.eqb j i then step (alone j) else alone j).
Proof.
  intros (R & S & D). destruct (own_step (S i)) as (R' & S' & N). exists (fun j => if Nat.eqb j i then R' else R j).
  assert (E : w_heap (turn w i) = fst (step (w_heap w, w_threads w i))) by (unfold turn; destruct (step (w_heap w, w_threads w i)); reflexivity).
  assert (E' : forall j, w_threads (turn w i) j = if Nat.eqb j i then snd (step (w_heap w, w_threads w i)) else w_threads w j) by (intro j; unfold turn; destruct (step (w_heap w, w_threads w i)); reflexivity).
  split.
  - intro j. rewrite E, E'. destruct (Nat.eqb j i) eqn:J.
    + apply Nat.eqb_eq in J. subst j. rewrite <- surjective_pairing in S'. exact S'.
    + apply Nat.eqb_neq in J. eapply other_step; [apply S|apply S|]. intros a b b' X Y. exact (D j i a b b' J X Y).
  - intros j k a b b' J X Y. destruct (Nat.eqb j i) eqn:Ji, (Nat.eqb k i) eqn:Ki.
    + apply Nat.eqb_eq in Ji, Ki. congruence.
    + destruct (N _ _ X) as [Z|Z]; [eapply D; [|exact Z|exact Y]; apply Nat.eqb_eq in Ji; subst; intro; subst; now rewrite Nat.eqb_refl in Ki|].
      destruct (re_alloc (sc_heap (S k)) Y). lia.
    + destruct (N _ _ Y) as [Z|Z]; [eapply D; [|exact X|exact Z]; apply Nat.eqb_eq in Ki; subst; intro; subst; now rewrite Nat.eqb_refl in Ji|].
      destruct (re_alloc (sc_heap (S j)) X). lia.
    + exact (D j k a b b' J X Y).
Qed.
Lemma schedule_same : forall schedule w alone, all_same w alone -> all_same (run_schedule w schedule) (fun i => solo (steps_of i schedule) (alone i)).
Proof.
  induction schedule as [|i schedule IH]; intros w alone A; [exact A|]. cbn [run_schedule fold_left]. apply (turn_same i) in A. apply IH in A. destruct A as (R & S & D). exists R. split; [|exact D].
  intro j. specialize (S j). unfold steps_of in S |- *. cbn [count_occ]. destruct (Nat.eq_dec i j) as [<-|J].
  - rewrite Nat.eqb_refl in S. rewrite solo_S. exact S.
  - assert (Nat.eqb j i = false) as X by (apply Nat.eqb_neq; congruence). rewrite X in S. exact S.
Qed.
End Run.
Lemma start_same calls h : (forall c, In c calls -> configured (c_patterns c) h) -> apart calls h ->
  exists edits, all_same edits (th_next h) (start calls h) (fun i => (h, match nth_error calls i with Some c => begin c | None => Thread [] [] end)).
Proof.
  intros Cf Ap.
  assert (exists edits : bool, (edits = false -> forall c, In c calls -> no_tag_rule (c_rules c)) /\ (edits = true -> forall c, In c calls -> no_tags (c_patterns c) h)) as (edits & NR & NT).
  { destruct Ap as [Ap|Ap]; [exists false|exists true]; split; intros; try discriminate; auto. }
  exists edits, (fun _ a b => a = b /\ a < th_next h). split; [|intros i j a b b' _ [_ X] _; exact X].
  intro i. cbn [start w_heap w_threads fst snd]. constructor.
  - constructor.
    + intros a b [<- X]. auto.
    + intros a b b' [<- _] [<- _]. reflexivity.
    + intros a a' b [-> _] [-> _]. reflexivity.
    + intros a b [<- _]. reflexivity.
  - destruct (nth_error calls i) as [c|] eqn:E; [|constructor]. apply nth_error_In in E. unfold begin. cbn [th_todo]. specialize (Cf c E). specialize (fun e => NR e c E). specialize (fun e => NT e c E).
    apply Forall2_app.
    + assert (G : forall ps, incl ps (c_patterns c) -> forall l, l = flat_map (fun p => map (AFind (tp_tags p)) (tp_find p (c_input c))) ps -> Forall2 (same_action edits (th_next h) (fun a b => a = b /\ a < th_next h) h) l l).
      { induction ps as [|p ps IH]; intros I l ->; [constructor|]. cbn [flat_map]. apply Forall2_app; [|apply IH; [intros q Hq; apply I; right; exact Hq|reflexivity]].
        assert (In p (c_patterns c)) as Hp by (apply I; left; reflexivity). induction (tp_find p (c_input c)) as [|m ms IHm]; cbn [map]; constructor; [|exact IHm]. cbn. split; [reflexivity|]. split.
        - destruct (tp_tags p) eqn:T; [|exact Logic.I]. split; [reflexivity|]. eapply Cf; eassumption.
        - intros Ed x T. split; [eapply Cf; eassumption|]. eapply NT; eassumption. }
      eapply G; [apply incl_refl|reflexivity].
    + assert (G : forall rs, incl rs (c_rules c) -> Forall2 (same_action edits (th_next h) (fun a b => a = b /\ a < th_next h) h) (map (fun r => ALook r []) rs) (map (fun r => ALook r []) rs)).
      { induction rs as [|r rs IH]; intro I; cbn [map]; constructor; [|apply IH; intros q Hq; apply I; right; exact Hq]. cbn. split; [reflexivity|]. split; [reflexivity|]. intros Ed e. apply (NR Ed). apply I. left. reflexivity. }
      apply G, incl_refl.
  - destruct (nth_error calls i); constructor.
  - apply Nat.le_refl.
Qed.

(** ** C149 *)
(** When no call changes tags or no pattern is given tags, calls made at the same time return what each returns alone: after enough steps
    of its own, whatever the others are and do before, between and after them. *)
Theorem C149_calls_at_the_same_time : forall c h, exists enough, forall calls i schedule,
  nth_error calls i = Some c -> (forall c', In c' calls -> configured (c_patterns c') h) -> apart calls h -> enough <= steps_of i schedule ->
  th_todo (w_threads (run_schedule (start calls h) schedule) i) = []
  /\ seen (run_schedule (start calls h) schedule) i = snd (t_matches (c_patterns c) (c_rules c) h (c_input c)).
Proof.
  intros c h. destruct (solo_call c h) as (n & N). exists n. intros calls i schedule E Cf Ap M. destruct (start_same Cf Ap) as (edits & A).
  destruct (schedule_same schedule A) as (R & S & _). specialize (S i). cbn beta in S. rewrite E in S. destruct (N _ M) as (h' & l' & X & V). rewrite X in S. cbn [fst snd] in S.
  split; [|rewrite <- V; unfold seen; exact (views_rel (sc_heap S) (owned_rel (sc_held S)))].
  pose proof (sc_todo S) as F. cbn [th_todo] in F. inversion F. reflexivity.
Qed.
(** A call by itself: the steps are those of [matches()], with or without rules changing tags *)
Theorem C149_a_call_alone : forall c h, exists enough, forall n, enough <= n ->
  let w := run_schedule (start [c] h) (repeat 0 n) in
  th_todo (w_threads w 0) = [] /\ seen w 0 = snd (t_matches (c_patterns c) (c_rules c) h (c_input c)).
Proof.
  intros c h. destruct (solo_call c h) as (n & N). exists n. intros m M. destruct (N m M) as (h' & l' & X & V).
  assert (G : forall n w, w_heap (run_schedule w (repeat 0 n)) = fst (solo n (w_heap w, w_threads w 0)) /\ w_threads (run_schedule w (repeat 0 n)) 0 = snd (solo n (w_heap w, w_threads w 0))).
  { clear. induction n as [|n IH]; intro w; [split; reflexivity|]. cbn [repeat run_schedule fold_left]. fold (run_schedule (turn w 0) (repeat 0 n)). destruct (IH (turn w 0)) as [-> ->]. rewrite solo_S.
    unfold turn. destruct (step (w_heap w, w_threads w 0)) as [h t]. split; reflexivity. }
  destruct (G m (start [c] h)) as [G1 G2]. cbn zeta. unfold seen. rewrite G1, G2. cbn [start w_heap w_threads nth_error]. rewrite X. cbn [fst snd th_todo th_held]. split; [reflexivity|exact V].
Qed.
(** Afterwards the lists of tags given to the patterns are as before: later calls are not affected either. *)
Theorem C149_the_patterns_are_left : forall calls h, (forall c, In c calls -> configured (c_patterns c) h) -> apart calls h ->
  forall schedule c, In c calls -> same_lists (c_patterns c) h (w_heap (run_schedule (start calls h) schedule)).
Proof.
  intros calls h Cf Ap. destruct (start_same Cf Ap) as (edits & A). intros schedule c Hc p a Hp Ha. specialize (Cf c Hc p a Hp Ha).
  assert (G : forall schedule w alone, all_same edits (th_next h) w alone -> th_cell (w_heap (run_schedule w schedule)) a = th_cell (w_heap w) a).
  { clear -Cf. induction schedule as [|i schedule IH]; intros w alone A; [reflexivity|]. cbn [run_schedule fold_left]. pose proof (turn_same i A) as A'. fold (run_schedule (turn w i) schedule).
    rewrite (IH _ _ A'). destruct A as (R & S & _). assert (w_heap (turn w i) = fst (step (w_heap w, w_threads w i))) as -> by (unfold turn; destruct (step (w_heap w, w_threads w i)); reflexivity).
    eapply old_kept; [apply S|exact Cf]. }
  apply (G schedule _ _ A).
Qed.
(** Cases: three calls of two Rebulk objects, the patterns without tags, the rules adding tags; any order of the steps *)
Definition rb1 (input : pstr) : call := Call [TPat None (fun _ => [mk_match 1 0 1; mk_match 2 1 2])] [TRule (fun _ => [0]) (append_tags [s "u"])] input.
Definition rb2 : call := Call [TPat (Some 1) (fun _ => [mk_match 3 0 2])] [TRule (fun l => seq 0 (length l)) (append_tags [s "v"])] (s "ab").
Definition th_two : tags_heap := THeap 2 (fun x => match x with 0 => [s "t"] | _ => [] end).
Example C149_case :
  let calls := [rb1 (s "xx"); rb2; rb1 (s "yy")] in let w := run_schedule (start calls th_two) [0; 1; 2; 2; 0; 1; 0; 2; 1; 2; 0; 1; 2; 0; 1; 0; 1; 2; 2; 1; 0; 0; 2; 1; 1; 2; 0] in
  (forall c, In c calls -> configured (c_patterns c) th_two) /\ apart calls th_two
  /\ map (fun i => map m_tags (seen w i)) [0; 1; 2] = [[[]; [s "u"]]; [[s "v"]]; [[]; [s "u"]]]
  /\ map (fun i => length (th_todo (w_threads w i))) [0; 1; 2] = [0; 0; 0].
Proof.
  cbv zeta. split; [intros c [<-|[<-|[<-|[]]]] p a [<-|[]] E; try discriminate E; injection E as <-; cbn; lia|].
  split; [right; intros c [<-|[<-|[<-|[]]]] p a [<-|[]] E; try discriminate E; injection E as <-; reflexivity|]. split; vm_compute; reflexivity.
Qed.
(** with tags in the pattern and a rule adding one, two calls at the same time both show the tag twice; each alone shows it once *)
Example C149_case_tags : 
  let c := Call tp_ex tr_ex (s "x") in let w := run_schedule (start [c; c] th_ex) [0; 1; 0; 1; 0; 1; 0; 0; 1; 1; 0; 1] in
  map (fun i => map m_tags (seen w i)) [0; 1] = [[[s "t"; s "u"; s "u"]]; [[s "t"; s "u"; s "u"]]]
  /\ map m_tags (snd (t_matches tp_ex tr_ex th_ex (s "x"))) = [[s "t"; s "u"]] /\ ~ apart [c; c] th_ex.
Proof.
  cbv zeta. split; [vm_compute; reflexivity|]. split; [vm_compute; reflexivity|]. intros [A|A].
  - exact (A _ (or_introl eq_refl) _ _ (or_introl eq_refl) eq_refl).
  - specialize (A _ (or_introl eq_refl) _ 0 (or_introl eq_refl) eq_refl). discriminate A.
Qed.
(** the hypothesis with tags in the patterns, and rules which rename and select *)
Example C149_case_no_tag_rule : apart [Call tp_ex [TRule (fun _ => [0]) TKeep; TRule (fun _ => [0]) (TRename (Some (s "n")))] (s "x")] th_ex.
Proof. left. intros c [<-|[]] r e [<-|[<-|[]]]; discriminate. Qed.
