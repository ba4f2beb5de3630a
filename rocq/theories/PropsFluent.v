(** * C76: the fluent building of chains, for every history of calls on any objects *)
From Verif Require Import Base BaseFacts Match Pattern Chain Fluent.
Set Implicit Arguments.
Unset Strict Implicit.
Open Scope nat_scope.

(** ** Specification: what is where follows from the log of the calls *)
Section Spec.
  Context {A : Type}.
  (** the chain an object belongs to; None for the root builder *)
  Definition chain_of (h : handle) : option nat := match h with HRoot => None | HBuilder c | HPart c _ => Some c end.
  (** what a call added: a pattern, or the chain whose builder was returned *)
  Definition added (e : event A) : list (content A) :=
    match ev_call e, ev_result e with
    | KAdd (Ok a), Ok _ => [CLeaf a]
    | KChain (Ok _), Ok (HBuilder n) => [CChain n]
    | _, _ => []
    end.
  Definition same_owner (o o' : option nat) : bool := option_eqb Nat.eqb o o'.
  Definition added_to (o : option nat) (log : list (event A)) : list (content A) :=
    flat_map (fun e => if same_owner (chain_of (ev_on e)) o then added e else []) log.
  (** what the root builder (None) or a chain holds *)
  Definition contents (w : world A) (o : option nat) : list (content A) :=
    match o with None => w_root w | Some c => map (@fp_content A) (w_parts w c) end.
  (** the repeater and hidden calls made on one part, in order *)
  Definition is_part (h : handle) (c i : nat) : bool := match h with HPart c' i' => Nat.eqb c' c && Nat.eqb i' i | _ => false end.
  Definition repeaters_on (c i : nat) (log : list (event A)) : list rvalue :=
    flat_map (fun e => if is_part (ev_on e) c i then match ev_call e with KRepeater v => [v] | _ => [] end else []) log.
  Definition hiddens_on (c i : nat) (log : list (event A)) : list bool :=
    flat_map (fun e => if is_part (ev_on e) c i then match ev_call e with KHidden b => [b] | _ => [] end else []) log.
End Spec.

Section C76.
  Context {A : Type}.
  Implicit Types (w : world A) (s : session A) (ops : list (nat * call A)).

  Lemma option_eqb_nat (o o' : option nat) : same_owner o o' = true <-> o = o'.
  Proof. destruct o as [a|], o' as [b|]; unfold same_owner; simpl; split; intro H; try discriminate; try reflexivity.
    - apply Nat.eqb_eq in H. now subst.
    - injection H as ->. apply Nat.eqb_refl.
  Qed.
  Lemma same_owner_refl o : same_owner o o = true.
  Proof. apply option_eqb_nat; reflexivity. Qed.
  Lemma length_update_nth {B} i (f : B -> B) l : length (update_nth i f l) = length l.
  Proof. revert i; induction l as [|x l IH]; intros [|i]; simpl; auto. Qed.
  Lemma nth_update_nth {B} i j (f : B -> B) l : nth_error (update_nth i f l) j = if Nat.eqb j i then option_map f (nth_error l j) else nth_error l j.
  Proof.
    revert i j; induction l as [|x l IH]; intros [|i] [|j]; simpl; try reflexivity.
    - destruct (Nat.eqb j i); reflexivity.
    - apply IH.
  Qed.
  Lemma map_update_nth {B C} i (f : B -> B) (g : B -> C) l : (forall x, g (f x) = g x) -> map g (update_nth i f l) = map g l.
  Proof. intro H. revert i; induction l as [|x l IH]; intros [|i]; simpl; [reflexivity|reflexivity|now rewrite H|now rewrite IH]. Qed.

  (** ** Invariant *)
  Definition valid w (h : handle) : Prop :=
    match h with
    | HRoot => True
    | HBuilder c => c < w_count w
    | HPart c i => c < w_count w /\ exists a r b, nth_error (w_parts w c) i = Some (FPart (CLeaf a) r b)
    end.
  Definition wf w : Prop :=
    (forall c, w_count w <= c -> w_parts w c = [])
    /\ (forall c p, w_parent w c = Some p -> p < c)
    /\ (forall c, w_count w <= c -> w_parent w c = None).

  Lemma close_loop_root w n o : wf w -> (forall p, o = Some p -> p < n) -> close_loop n w o = Ok HRoot.
  Proof.
    intro W. revert o. induction n as [|n IH]; intros [p|] H; simpl; try reflexivity.
    - specialize (H p eq_refl). lia.
    - apply IH. intros q Hq. specialize (H p eq_refl). apply W in Hq. lia.
  Qed.
  Lemma close_root w c : wf w -> c < w_count w -> close w c = Ok HRoot.
  Proof. intros W H. apply close_loop_root; [assumption|]. intros p Hp. apply W in Hp. lia. Qed.

  (** the outcome of a call on a valid object *)
  Definition grows w w' : Prop :=
    w_count w <= w_count w' /\ forall c i, c < w_count w -> forall a r b, nth_error (w_parts w c) i = Some (FPart (CLeaf a) r b) ->
      exists r' b', nth_error (w_parts w' c) i = Some (FPart (CLeaf a) r' b').
  Lemma valid_grows w w' h : grows w w' -> valid w h -> valid w' h.
  Proof.
    intros [G1 G2]. destruct h as [|c|c i]; simpl; [auto|lia|]. intros (H & a & r & b & E).
    destruct (G2 _ _ H _ _ _ E) as (r' & b' & E'). split; [lia|eauto].
  Qed.
  Lemma grows_refl w : grows w w.
  Proof. split; [lia|eauto]. Qed.
  Lemma add_part_spec w c x : c < w_count w -> wf w ->
    let w' := set_parts w c (w_parts w c ++ [new_part x]) in
    wf w' /\ grows w w'.
  Proof.
    intros Hc (W1 & W2 & W3). split; [split; [|split]|split]; simpl; auto.
    - intros c' H. destruct (Nat.eqb_spec c' c); [lia|auto].
    - intros c' i Hc' a r b E. destruct (Nat.eqb_spec c' c) as [->|]; [|eauto]. exists r, b. rewrite nth_error_app1; [assumption|].
      apply nth_error_Some. rewrite E. discriminate.
  Qed.
  Lemma new_chain_spec w o a : (forall p, o = Some p -> p < w_count w) -> wf w -> wf (new_chain w o a) /\ grows w (new_chain w o a).
  Proof.
    intros Ho (W1 & W2 & W3). split; [split; [|split]|split]; simpl.
    - intros c H. destruct (Nat.eqb_spec c (w_count w)); [reflexivity|apply W1; lia].
    - intros c p. destruct (Nat.eqb_spec c (w_count w)) as [->|]; [apply Ho|apply W2].
    - intros c H. destruct (Nat.eqb_spec c (w_count w)); [lia|apply W3; lia].
    - lia.
    - intros c i Hc x r b E. destruct (Nat.eqb_spec c (w_count w)); [lia|eauto].
  Qed.
  Lemma register_spec w x : wf w -> wf (register w x) /\ grows w (register w x).
  Proof. intros W. split; [exact W|]. split; simpl; [lia|eauto]. Qed.
  Lemma grows_trans w1 w2 w3 : grows w1 w2 -> grows w2 w3 -> grows w1 w3.
  Proof.
    intros [A1 A2] [B1 B2]. split; [lia|]. intros c i Hc a r b E. destruct (A2 _ _ Hc _ _ _ E) as (r' & b' & E').
    assert (Hc' : c < w_count w2) by lia. exact (B2 c i Hc' a r' b' E').
  Qed.
  Lemma modify_spec w c i f : (forall p, fp_content (f p) = fp_content p) -> wf w ->
    let w' := set_parts w c (update_nth i f (w_parts w c)) in c < w_count w -> wf w' /\ grows w w'.
  Proof.
    intros Hf (W1 & W2 & W3) w' Hc. split; [split; [|split]|split]; simpl; auto.
    - intros c' H. destruct (Nat.eqb_spec c' c); [lia|auto].
    - intros c' j Hc' a r b E. destruct (Nat.eqb_spec c' c) as [->|]; [|eauto]. rewrite nth_update_nth, E.
      destruct (Nat.eqb j i); simpl; [|eauto]. destruct (f (FPart (CLeaf a) r b)) as [x r' b'] eqn:Ef.
      specialize (Hf (FPart (CLeaf a) r b)). rewrite Ef in Hf. simpl in Hf. subst. eauto.
  Qed.

  Lemma builder_call_good w c k w' r : wf w -> c < w_count w -> builder_call w c k = (w', r) ->
    wf w' /\ grows w w' /\ (forall h, r = Ok h -> valid w' h).
  Proof.
    intros W Hc. destruct k as [[a|e]|[a|e]|v|b|]; simpl; intros [= <- <-]; try (split; [assumption|split; [apply grows_refl|intros; discriminate]]).
    - destruct (add_part_spec (CLeaf a) Hc W) as [W' G]. split; [exact W'|split; [exact G|]]. intros h [= <-]. simpl. split; [exact Hc|].
      rewrite Nat.eqb_refl, nth_error_app2 by lia. rewrite Nat.sub_diag. simpl. unfold new_part, default_repeater. eauto.
    - destruct (@new_chain_spec w (Some c) a) as [W1 G1]; [intros p [= <-]; exact Hc|exact W|].
      destruct (@add_part_spec (new_chain w (Some c) a) c (CChain (w_count w))) as [W2 G2]; [simpl; lia|exact W1|].
      split; [exact W2|split; [eapply grows_trans; eauto|]]. intros h [= <-]. simpl. lia.
    - split; [assumption|split; [apply grows_refl|]]. intros h E. rewrite (close_root W Hc) in E. injection E as <-. exact I.
  Qed.
  Lemma step_good w h k w' r : wf w -> valid w h -> step w h k = (w', r) -> wf w' /\ grows w w' /\ (forall h, r = Ok h -> valid w' h).
  Proof.
    intros W V. destruct h as [|c|c i]; simpl.
    - destruct k as [[a|e]|[a|e]|v|b|]; simpl; intros [= <- <-]; try (split; [assumption|split; [apply grows_refl|intros; discriminate]]).
      + destruct (register_spec (CLeaf a) W) as [W' G]. split; [exact W'|split; [exact G|]]. intros h [= <-]. exact I.
      + destruct (@new_chain_spec w None a) as [W1 G1]; [discriminate|exact W|].
        split; [exact W1|split; [exact G1|]]. intros h [= <-]. simpl. lia.
    - apply builder_call_good; assumption.
    - destruct V as (Hc & a & r0 & b0 & E0). destruct k as [x|x|v|b|]; try (apply builder_call_good; assumption); intros [= <- <-].
      + destruct (@modify_spec w c i (fun p => FPart (fp_content p) (repeater v (fp_repeat p)) (fp_hidden p)) (fun p => eq_refl) W Hc) as [W' G].
        split; [exact W'|split; [exact G|]]. intros h [= <-]. apply (valid_grows G). simpl. eauto.
      + destruct (@modify_spec w c i (fun p => FPart (fp_content p) (fp_repeat p) b) (fun p => eq_refl) W Hc) as [W' G].
        split; [exact W'|split; [exact G|]]. intros h [= <-]. apply (valid_grows G). simpl. eauto.
  Qed.

  (** the objects held are valid in every session *)
  Definition Good s : Prop := wf (se_world s) /\ (forall h, In h (se_held s) -> valid (se_world s) h).
  Lemma Good_act s o : Good s -> Good (act s o).
  Proof.
    intros [W V]. unfold act. destruct (step (se_world s) (nth (fst o) (se_held s) HRoot) (snd o)) as [w r] eqn:E.
    assert (Vh : valid (se_world s) (nth (fst o) (se_held s) HRoot)).
    { destruct (nth_in_or_default (fst o) (se_held s) HRoot) as [H| ->]; [auto|exact I]. }
    destruct (step_good W Vh E) as (W' & G & R). split; [exact W'|]. cbn [se_world se_held]. intros h H. destruct r as [h'|e].
    - apply in_app_or in H. destruct H as [H|[<-|[]]]; [exact (valid_grows G (V _ H))|auto].
    - exact (valid_grows G (V _ H)).
  Qed.
  Lemma session_snoc ops o : session_of (ops ++ [o]) = act (session_of ops) o.
  Proof. unfold session_of. rewrite fold_left_app. reflexivity. Qed.
  Lemma Good_session ops : Good (session_of ops).
  Proof.
    induction ops as [|o ops IH] using rev_ind; [|rewrite session_snoc; now apply Good_act].
    split; [split; [|split]|]; simpl; auto; [discriminate|]. intros h [<-|[]]. exact I.
  Qed.
  Lemma valid_target ops i : valid (se_world (session_of ops)) (nth i (se_held (session_of ops)) HRoot).
  Proof.
    destruct (Good_session ops) as [_ V]. destruct (nth_in_or_default i (se_held (session_of ops)) HRoot) as [H| ->]; [auto|exact I].
  Qed.

  (** ** What a call does, seen from outside *)
  Lemma step_contents w h k w' r o : wf w -> valid w h -> step w h k = (w', r) ->
    contents w' o = contents w o ++ (if same_owner (chain_of h) o then added (Event h k r) else []).
  Proof.
    intros W V E.
    assert (B : forall c, c < w_count w -> builder_call w c k = (w', r) -> contents w' o = contents w o ++ (if same_owner (Some c) o then added (Event h k r) else [])).
    { intros c Hc. destruct k as [[a|e]|[a|e]|v|b|]; simpl; intros [= <- <-]; cbn; destruct o as [c'|]; cbn; rewrite ?app_nil_r; try reflexivity;
        try (destruct (Nat.eqb _ _); rewrite ?app_nil_r; reflexivity).
      - rewrite (Nat.eqb_sym c c'). destruct (Nat.eqb_spec c' c) as [->|]; [rewrite map_app; reflexivity|now rewrite app_nil_r].
      - rewrite (Nat.eqb_sym c c'). destruct (Nat.eqb_spec c' c) as [->|]; cbn.
        + destruct (Nat.eqb_spec c (w_count w)); [lia|]. rewrite map_app. reflexivity.
        + rewrite app_nil_r. destruct (Nat.eqb_spec c' (w_count w)) as [->|]; [|reflexivity]. destruct W as (W1 & _). rewrite W1 by lia. reflexivity. }
    destruct h as [|c|c i]; simpl in E.
    - destruct k as [[a|e]|[a|e]|v|b|]; simpl in E; injection E as <- <-; cbn; destruct o as [c'|]; cbn; rewrite ?app_nil_r; try reflexivity.
      destruct (Nat.eqb_spec c' (w_count w)) as [->|]; [|reflexivity]. destruct W as (W1 & _). rewrite W1 by lia. reflexivity.
    - apply B; [exact V|exact E].
    - destruct V as (Hc & V). destruct k as [x|x|v|b|]; try (apply B; assumption); injection E as <- <-; cbn;
        (destruct o as [c'|]; cbn; [|now rewrite app_nil_r]); destruct (Nat.eqb c c'); rewrite app_nil_r;
        (destruct (Nat.eqb_spec c' c) as [->|]; [rewrite map_update_nth; reflexivity|reflexivity]).
  Qed.

  (** *** C76 Everything is added once, where the call was made, in order of the calls: the root
      builder holds what was added on it, and a chain holds what was added through its builder or
      any of its parts *)
  Theorem C76_added_in_order ops o : contents (se_world (session_of ops)) o = added_to o (se_log (session_of ops)).
  Proof.
    induction ops as [|op ops IH] using rev_ind; [destruct o; reflexivity|]. rewrite session_snoc. unfold act.
    destruct (step (se_world (session_of ops)) (nth (fst op) (se_held (session_of ops)) HRoot) (snd op)) as [w r] eqn:E.
    cbn [se_world se_log]. unfold added_to. rewrite flat_map_app. fold (added_to o (se_log (session_of ops))). rewrite <- IH.
    rewrite (step_contents o (proj1 (Good_session ops)) (valid_target ops (fst op)) E). cbn [flat_map ev_on]. now rewrite app_nil_r.
  Qed.

  Lemma contents_bound ops o n : In (CChain n) (contents (se_world (session_of ops)) o) -> n < w_count (se_world (session_of ops)).
  Proof.
    revert o n. induction ops as [|op ops IH] using rev_ind; [intros [c|] n []|]. intros o n. rewrite session_snoc. unfold act.
    destruct (step (se_world (session_of ops)) (nth (fst op) (se_held (session_of ops)) HRoot) (snd op)) as [w r] eqn:E. cbn [se_world].
    rewrite (step_contents o (proj1 (Good_session ops)) (valid_target ops (fst op)) E). intro H.
    destruct (step_good (proj1 (Good_session ops)) (valid_target ops (fst op)) E) as (_ & (G & _) & R).
    apply in_app_or in H. destruct H as [H|H]; [apply IH in H; lia|].
    destruct (same_owner _ o); [|destruct H]. unfold added in H. cbn [ev_call ev_result] in H.
    destruct (snd op) as [[a|e]|[a|e]|v|b|]; destruct r as [[|c|c j]|e']; simpl in H; try tauto; destruct H as [[= <-]|[]]; apply (R (HBuilder c) eq_refl).
  Qed.
  (** *** C76 regex, string and functional return the part just added (the root builder returns
      itself), chain returns the builder of a new chain *)
  Theorem C76_returned ops i k h h' : nth_error (se_held (session_of ops)) i = Some h ->
    snd (step (se_world (session_of ops)) h k) = Ok h' ->
    match k with
    | KAdd _ => match chain_of h with
                | None => h' = HRoot
                | Some c => h' = HPart c (length (added_to (Some c) (se_log (session_of ops))))
                end
    | KChain _ => exists n, h' = HBuilder n /\ forall o, ~ In (CChain n) (contents (se_world (session_of ops)) o)
    | KRepeater _ | KHidden _ => h' = h
    | KClose => h' = HRoot
    end.
  Proof.
    intros Hi E.
    assert (V : valid (se_world (session_of ops)) h) by (apply (Good_session ops), (nth_error_In _ _ Hi)).
    pose proof (proj1 (Good_session ops)) as W. set (w := se_world (session_of ops)) in *.
    pose proof (fun o n => @contents_bound ops o n) as F. fold w in F.
    assert (L : forall c, length (w_parts w c) = length (added_to (Some c) (se_log (session_of ops)))).
    { intro c. rewrite <- C76_added_in_order. simpl. now rewrite map_length. }
    assert (B : forall c, c < w_count w -> snd (builder_call w c k) = Ok h' ->
              match k with
              | KAdd _ => h' = HPart c (length (w_parts w c))
              | KChain _ => exists n, h' = HBuilder n /\ forall o, ~ In (CChain n) (contents w o)
              | KClose => h' = HRoot | _ => False end).
    { intros c Hc. destruct k as [[a|e]|[a|e]|v|b|]; simpl; try discriminate.
      - now intros [= <-].
      - intros [= <-]. exists (w_count w). split; [reflexivity|]. intros o H. apply F in H. lia.
      - rewrite (close_root W Hc). now intros [= <-]. }
    destruct h as [|c|c j]; simpl in E |- *.
    - destruct k as [[a|e]|[a|e]|v|b|]; simpl in E; try discriminate; injection E as <-; [reflexivity|].
      exists (w_count w). split; [reflexivity|]. intros o H. apply F in H. lia.
    - specialize (B c V E). destruct k; try contradiction; try assumption. rewrite <- L. assumption.
    - destruct V as (Hc & V). destruct k; try (now injection E as <-); specialize (B c Hc E); try assumption. rewrite <- L. assumption.
  Qed.

  (** *** C76 close() on any chain builder or part, at any depth, returns the root builder, and
      changes nothing *)
  Theorem C76_close_returns_the_root ops h : In h (se_held (session_of ops)) -> h <> HRoot ->
    step (se_world (session_of ops)) h KClose = (se_world (session_of ops), Ok HRoot).
  Proof.
    intros H N. destruct (Good_session ops) as [W V]. specialize (V h H). destruct h as [|c|c i]; [congruence| |]; cbn.
    - now rewrite close_root.
    - destruct V. now rewrite close_root.
  Qed.
  (** *** C76 which calls raise: adding raises what building the pattern raised; [repeater] and
      [hidden] exist on parts only, [close] on chain builders and parts only; every other call
      returns *)
  Definition raises (h : handle) (k : call A) : option exn :=
    match h, k with
    | _, KAdd (Err e) | _, KChain (Err e) => Some e
    | HRoot, KClose => Some AttributeError
    | HRoot, (KRepeater _ | KHidden _) | HBuilder _, (KRepeater _ | KHidden _) => Some AttributeError
    | _, _ => None
    end.
  Theorem C76_errors ops h k : In h (se_held (session_of ops)) ->
    match raises h k with
    | Some e => snd (step (se_world (session_of ops)) h k) = Err e
    | None => exists h', snd (step (se_world (session_of ops)) h k) = Ok h'
    end.
  Proof.
    intros H. pose proof (C76_close_returns_the_root H) as C. unfold raises.
    destruct h as [|c|c i], k as [[a|x]|[a|x]|v|b|]; cbn; eauto; specialize (C ltac:(discriminate)); cbn in C; apply (f_equal snd) in C; cbn in C; rewrite C; eauto.
  Qed.
  (** a call that raises changes nothing *)
  Theorem C76_failed_call w h k w' e : step w h k = (w', Err e) -> w' = w.
  Proof.
    assert (B : forall c, builder_call w c k = (w', Err e) -> w' = w).
    { intro c. destruct k as [[a|x]|[a|x]|v|b|]; simpl; intros [= <-]; reflexivity. }
    destruct h as [|c|c i]; simpl; [|apply B|]; destruct k as [[a|x]|[a|x]|v|b|]; simpl; intros [= <-]; reflexivity.
  Qed.

  (** ** Repeaters and hidden parts *)
  Definition settings (c i : nat) (log : list (event A)) : (Z * option Z) * bool :=
    (fold_left (fun r v => repeater v r) (repeaters_on c i log) default_repeater, last (hiddens_on c i log) false).
  Definition setting (p : fpart A) := (fp_repeat p, fp_hidden p).
  Lemma is_part_spec h c i : is_part h c i = true -> h = HPart c i.
  Proof. destruct h as [|c'|c' i']; simpl; try discriminate. intro H. apply andb_prop in H. destruct H as [H1 H2]. apply Nat.eqb_eq in H1, H2. congruence. Qed.
  Lemma settings_snoc c i log e : settings c i (log ++ [e]) =
    if is_part (ev_on e) c i then
      match ev_call e with
      | KRepeater v => (repeater v (fst (settings c i log)), snd (settings c i log))
      | KHidden b => (fst (settings c i log), b)
      | _ => settings c i log
      end
    else settings c i log.
  Proof.
    unfold settings, repeaters_on, hiddens_on. rewrite !flat_map_app. cbn [flat_map]. rewrite !app_nil_r. rewrite !fold_left_app.
    destruct (is_part (ev_on e) c i); [|rewrite app_nil_r; reflexivity].
    destruct (ev_call e); cbn [fold_left fst snd]; rewrite ?app_nil_r; try reflexivity. now rewrite last_last.
  Qed.
  (** before a part exists nothing is called on it *)
  Lemma step_settings w h k w' r c i : wf w -> valid w h -> step w h k = (w', r) ->
    match nth_error (w_parts w c) i with
    | Some p => exists p', nth_error (w_parts w' c) i = Some p' /\ fp_content p' = fp_content p /\ setting p' =
                  (if is_part h c i then match k with KRepeater v => (repeater v (fp_repeat p), fp_hidden p) | KHidden b => (fp_repeat p, b) | _ => setting p end else setting p)
    | None => forall p', nth_error (w_parts w' c) i = Some p' -> setting p' = (default_repeater, false) /\ is_part h c i = false
    end.
  Proof.
    intros W V E.
    assert (K : (forall c, w_parts w' c = w_parts w c) -> is_part h c i = false \/ (match k with KRepeater _ | KHidden _ => False | _ => True end) ->
      match nth_error (w_parts w c) i with
      | Some p => exists p', nth_error (w_parts w' c) i = Some p' /\ fp_content p' = fp_content p /\ setting p' =
                  (if is_part h c i then match k with KRepeater v => (repeater v (fp_repeat p), fp_hidden p) | KHidden b => (fp_repeat p, b) | _ => setting p end else setting p)
      | None => forall p', nth_error (w_parts w' c) i = Some p' -> setting p' = (default_repeater, false) /\ is_part h c i = false
      end).
    { intros P D. rewrite P. destruct (nth_error (w_parts w c) i) as [p|]; [|discriminate]. exists p. split; [reflexivity|]. split; [reflexivity|].
      destruct D as [->|D]; [reflexivity|]. destruct (is_part h c i); [|reflexivity]. now destruct k. }
    assert (Q : forall c0 x, (forall c1, w_parts w' c1 = if Nat.eqb c1 c0 then w_parts w c1 ++ [new_part x] else w_parts w c1) ->
      (match k with KRepeater _ | KHidden _ => False | _ => True end) ->
      match nth_error (w_parts w c) i with
      | Some p => exists p', nth_error (w_parts w' c) i = Some p' /\ fp_content p' = fp_content p /\ setting p' =
                  (if is_part h c i then match k with KRepeater v => (repeater v (fp_repeat p), fp_hidden p) | KHidden b => (fp_repeat p, b) | _ => setting p end else setting p)
      | None => forall p', nth_error (w_parts w' c) i = Some p' -> setting p' = (default_repeater, false) /\ is_part h c i = false
      end).
    { intros c0 x P D. rewrite P. destruct (Nat.eqb_spec c c0) as [->|].
      - destruct (nth_error (w_parts w c0) i) as [p|] eqn:Ep.
        + exists p. rewrite nth_error_app1 by (apply nth_error_Some; congruence). split; [assumption|]. split; [reflexivity|].
          destruct (is_part h c0 i); [|reflexivity]. now destruct k.
        + intros p' Hp. split.
          * rewrite nth_error_app2 in Hp by (now apply nth_error_None). destruct (i - length (w_parts w c0)) as [|[|?]]; simpl in Hp; try discriminate. injection Hp as <-. reflexivity.
          * destruct (is_part h c0 i) eqn:Eh; [|reflexivity]. apply is_part_spec in Eh. subst h. destruct V as (_ & ? & ? & ? & V). congruence.
      - destruct (nth_error (w_parts w c) i) as [p|]; [|discriminate]. exists p. split; [reflexivity|]. split; [reflexivity|].
        destruct (is_part h c i); [|reflexivity]. now destruct k. }
    assert (B : forall c0, c0 < w_count w -> builder_call w c0 k = (w', r) -> (match k with KRepeater _ | KHidden _ => is_part h c i = false | _ => True end) ->
      match nth_error (w_parts w c) i with
      | Some p => exists p', nth_error (w_parts w' c) i = Some p' /\ fp_content p' = fp_content p /\ setting p' =
                  (if is_part h c i then match k with KRepeater v => (repeater v (fp_repeat p), fp_hidden p) | KHidden b => (fp_repeat p, b) | _ => setting p end else setting p)
      | None => forall p', nth_error (w_parts w' c) i = Some p' -> setting p' = (default_repeater, false) /\ is_part h c i = false
      end).
    { intros c0 Hc Eb D. destruct k as [[a|e]|[a|e]|v|b|]; simpl in Eb; injection Eb as <- <-; try (apply K; [reflexivity|tauto]).
      - apply (Q c0 (CLeaf a)); [|exact I]. intro c1. cbn. destruct (Nat.eqb_spec c1 c0) as [->|]; reflexivity.
      - apply (Q c0 (CChain (w_count w))); [|exact I]. intro c1. cbn. destruct (Nat.eqb_spec c1 c0) as [->|].
        + destruct (Nat.eqb_spec c0 (w_count w)); [lia|reflexivity].
        + destruct (Nat.eqb_spec c1 (w_count w)) as [->|]; [|reflexivity]. destruct W as (W1 & _). now rewrite W1. }
    destruct h as [|c0|c0 j]; simpl in E.
    - apply K; [|now left]. destruct k as [[a|e]|[a|e]|v|b|]; simpl in E; injection E as <- <-; try reflexivity.
      intro c1. cbn. destruct (Nat.eqb_spec c1 (w_count w)) as [->|]; [|reflexivity]. destruct W as (W1 & _). now rewrite W1.
    - apply (B c0 V E). destruct k; try exact I; reflexivity.
    - destruct V as (Hc & V). destruct k as [x|x|v|b|]; try (apply (B c0 Hc E); exact I); injection E as <- <-; cbn [set_parts w_parts is_part];
        (destruct (Nat.eqb_spec c c0) as [->|]).
      all: try (destruct (nth_error (w_parts w c) i) as [p|]; [|intros ? ?; discriminate]; exists p; rewrite (proj2 (Nat.eqb_neq c0 c)) by congruence; repeat split; reflexivity).
      all: rewrite Nat.eqb_refl, nth_update_nth, (Nat.eqb_sym j i); cbn [andb]; destruct (Nat.eqb_spec i j) as [->|];
           clear V K Q B; destruct (nth_error (w_parts w c0) _) as [p|]; cbn [option_map]; try (intros ? ?; discriminate); eexists; (split; [reflexivity|split; reflexivity]).
  Qed.
  Lemma settings_absent ops c i : nth_error (w_parts (se_world (session_of ops)) c) i = None -> settings c i (se_log (session_of ops)) = (default_repeater, false).
  Proof.
    induction ops as [|op ops IH] using rev_ind; [reflexivity|]. rewrite session_snoc. unfold act.
    destruct (step (se_world (session_of ops)) (nth (fst op) (se_held (session_of ops)) HRoot) (snd op)) as [w r] eqn:E. cbn [se_world se_log].
    pose proof (step_settings c i (proj1 (Good_session ops)) (valid_target ops (fst op)) E) as T. intro H.
    destruct (nth_error (w_parts (se_world (session_of ops)) c) i) as [q|] eqn:Eq; [destruct T as (? & T & _); congruence|].
    rewrite settings_snoc. cbn [ev_on]. destruct (is_part _ c i) eqn:Eh; [|now apply IH]. apply is_part_spec in Eh.
    pose proof (valid_target ops (fst op)) as V. rewrite Eh in V. destruct V as (_ & ? & ? & ? & V). congruence.
  Qed.
  (** *** C76 A part has the repeater and the visibility set on that very part, whatever was
      called on the others; by default exactly once, and visible *)
  Theorem C76_settings ops c i p : nth_error (w_parts (se_world (session_of ops)) c) i = Some p ->
    fp_repeat p = fold_left (fun r v => repeater v r) (repeaters_on c i (se_log (session_of ops))) default_repeater
    /\ fp_hidden p = last (hiddens_on c i (se_log (session_of ops))) false.
  Proof.
    assert (S : forall p, nth_error (w_parts (se_world (session_of ops)) c) i = Some p -> setting p = settings c i (se_log (session_of ops))).
    2: { intro H. apply S in H. unfold setting, settings in H. injection H as -> ->. split; reflexivity. }
    clear p.
    induction ops as [|op ops IH] using rev_ind; intros p.
    - simpl. destruct i; discriminate.
    - rewrite session_snoc. unfold act.
      destruct (step (se_world (session_of ops)) (nth (fst op) (se_held (session_of ops)) HRoot) (snd op)) as [w r] eqn:E. cbn [se_world se_log].
      pose proof (step_settings c i (proj1 (Good_session ops)) (valid_target ops (fst op)) E) as T. intro H.
      rewrite settings_snoc. cbn [ev_on ev_call].
      pose proof (@settings_absent ops c i) as N. destruct (nth_error (w_parts (se_world (session_of ops)) c) i) as [q|].
      + destruct T as (p' & E' & _ & S'). rewrite E' in H. injection H as <-. rewrite S'. specialize (IH q eq_refl). rewrite <- IH. reflexivity.
      + destruct (T _ H) as [S' ->]. rewrite (N eq_refl). exact S'.
  Qed.

  (** *** C76 A nested chain is repeated exactly once and visible: no call on any object the
      user gets can change that *)
  Theorem C76_nested_chains_once ops c p n : In p (w_parts (se_world (session_of ops)) c) -> fp_content p = CChain n ->
    fp_repeat p = (1%Z, Some 1%Z) /\ fp_hidden p = false.
  Proof.
    assert (S : forall i p, nth_error (w_parts (se_world (session_of ops)) c) i = Some p -> fp_content p = CChain n -> setting p = (default_repeater, false)).
    2: { intros H E. apply In_nth_error in H. destruct H as [i H]. specialize (S i p H E). unfold setting in S. injection S as -> ->. split; reflexivity. }
    clear p. induction ops as [|op ops IH] using rev_ind; intros i p; [destruct i; discriminate|]. rewrite session_snoc. unfold act.
    destruct (step (se_world (session_of ops)) (nth (fst op) (se_held (session_of ops)) HRoot) (snd op)) as [w r] eqn:E. cbn [se_world se_log].
    pose proof (step_settings c i (proj1 (Good_session ops)) (valid_target ops (fst op)) E) as T. intros H Ec.
    destruct (nth_error (w_parts (se_world (session_of ops)) c) i) as [q|] eqn:Eq.
    - destruct T as (p' & E' & C' & S'). rewrite E' in H. injection H as <-. rewrite C' in Ec. rewrite S'. specialize (IH i q Eq Ec).
      destruct (is_part _ c i) eqn:Eh; [|exact IH]. apply is_part_spec in Eh.
      pose proof (valid_target ops (fst op)) as V. rewrite Eh in V. destruct V as (_ & a & r0 & b0 & V). rewrite V in Eq. injection Eq as <-. discriminate.
    - destruct (T _ H) as [S' _]. exact S'.
  Qed.

  (** ** The chains form a tree *)
  Lemma step_chain w h k w' r : wf w -> valid w h -> step w h k = (w', r) ->
    (w_count w' = w_count w /\ w_parent w' = w_parent w /\ (forall o n, In (CChain n) (if same_owner (chain_of h) o then added (Event h k r) else []) -> False))
    \/ (w_count w' = S (w_count w) /\ r = Ok (HBuilder (w_count w)) /\ added (Event h k r) = [CChain (w_count w)]
        /\ forall c, w_parent w' c = if Nat.eqb c (w_count w) then chain_of h else w_parent w c).
  Proof.
    intros W V E.
    assert (B : forall c, chain_of h = Some c -> c < w_count w -> builder_call w c k = (w', r) ->
      (w_count w' = w_count w /\ w_parent w' = w_parent w /\ (forall o n, In (CChain n) (if same_owner (chain_of h) o then added (Event h k r) else []) -> False))
    \/ (w_count w' = S (w_count w) /\ r = Ok (HBuilder (w_count w)) /\ added (Event h k r) = [CChain (w_count w)]
        /\ forall c, w_parent w' c = if Nat.eqb c (w_count w) then chain_of h else w_parent w c)).
    { intros c Hh Hc Eb. destruct k as [[a|e]|[a|e]|v|b|]; simpl in Eb; injection Eb as <- <-.
      3: { right. rewrite Hh. repeat split. }
      all: left; repeat split; try reflexivity; intros o n; destruct (same_owner _ o); cbn; try tauto; intuition discriminate. }
    destruct h as [|c|c i]; simpl in E.
    - destruct k as [[a|e]|[a|e]|v|b|]; simpl in E; injection E as <- <-.
      3: { right. repeat split. }
      all: left; repeat split; try reflexivity; intros o n; destruct (same_owner _ o); cbn; try tauto; intuition discriminate.
    - apply (B c); auto.
    - destruct V as (Hc & V). destruct k as [x|x|v|b|]; try (apply (B c); auto; fail); injection E as <- <-; left; repeat split; try reflexivity;
        intros o n; destruct (same_owner _ o); cbn; tauto.
  Qed.
  (** *** C76 Every chain made is in exactly one place, the one it was asked from, and a nested
      chain is younger than the chain it is in: the chains are finite trees below the root *)
  Theorem C76_tree ops n : n < w_count (se_world (session_of ops)) ->
    exists o before after,
      contents (se_world (session_of ops)) o = before ++ CChain n :: after
      /\ ~ In (CChain n) before /\ ~ In (CChain n) after
      /\ (forall o', In (CChain n) (contents (se_world (session_of ops)) o') -> o' = o)
      /\ (forall c, o = Some c -> c < n)
      /\ w_parent (se_world (session_of ops)) n = o.
  Proof.
    induction ops as [|op ops IH] using rev_ind; [simpl; lia|]. rewrite session_snoc. unfold act.
    destruct (step (se_world (session_of ops)) (nth (fst op) (se_held (session_of ops)) HRoot) (snd op)) as [w r] eqn:E. cbn [se_world].
    pose proof (proj1 (Good_session ops)) as W. pose proof (valid_target ops (fst op)) as V.
    set (h := nth (fst op) (se_held (session_of ops)) HRoot) in *.
    pose proof (fun o => step_contents o W V E) as C. intro Hn.
    destruct (step_chain W V E) as [(Hc & Hp & Hx)|(Hc & -> & Hadd & Hp)].
    - rewrite Hc in Hn. destruct (IH Hn) as (o & b & a & Eo & Nb & Na & U & L & P). exists o, b, (a ++ (if same_owner (chain_of h) o then added (Event h (snd op) r) else [])).
      split; [rewrite C, Eo, <- app_assoc; reflexivity|]. split; [assumption|]. split; [|split; [|split; [assumption|now rewrite Hp]]].
      + rewrite in_app_iff. intros [H|H]; [now apply Na|exact (Hx o n H)].
      + intros o'. rewrite C, in_app_iff. intros [H|H]; [now apply U|exfalso; exact (Hx o' n H)].
    - destruct (Nat.eq_dec n (w_count (se_world (session_of ops)))) as [->|Hne].
      + exists (chain_of h), (contents (se_world (session_of ops)) (chain_of h)), [].
        split; [rewrite C, same_owner_refl, Hadd; reflexivity|]. split; [intro H; apply contents_bound in H; lia|]. split; [tauto|].
        split; [|split].
        * intros o'. rewrite C, in_app_iff. intros [H|H]; [apply contents_bound in H; lia|]. destruct (same_owner (chain_of h) o') eqn:Eo; [|destruct H]. apply option_eqb_nat in Eo. congruence.
        * intros c Eh. destruct h as [|c'|c' i]; simpl in Eh, V; try discriminate; injection Eh as <-; [exact V|exact (proj1 V)].
        * now rewrite Hp, Nat.eqb_refl.
      + rewrite Hc in Hn. destruct (IH ltac:(lia)) as (o & b & a & Eo & Nb & Na & U & L & P).
        assert (Hx : forall o', In (CChain n) (if same_owner (chain_of h) o' then added (Event h (snd op) (Ok (HBuilder (w_count (se_world (session_of ops)))))) else []) -> False).
        { intros o' H. rewrite Hadd in H. destruct (same_owner _ o'); [|destruct H]. destruct H as [H|[]]. injection H as H. lia. }
        exists o, b, (a ++ (if same_owner (chain_of h) o then added (Event h (snd op) (Ok (HBuilder (w_count (se_world (session_of ops)))))) else [])).
        split; [rewrite C, Eo, <- app_assoc; reflexivity|]. split; [assumption|]. split; [|split; [|split; [assumption|]]].
        * rewrite in_app_iff. intros [H|H]; [now apply Na|exact (Hx o H)].
        * intros o'. rewrite C, in_app_iff. intros [H|H]; [now apply U|exfalso; exact (Hx o' H)].
        * rewrite Hp, (proj2 (Nat.eqb_neq n _)) by assumption. exact P.
  Qed.

  (** ** A fluent expression *)
  (** what the user writes for one part: the pattern, then repeaters, then maybe hidden() *)
  Definition part_calls (p : A * list rvalue * option bool) : list (call A) :=
    let '(a, rs, hid) := p in KAdd (Ok a) :: map (@KRepeater A) rs ++ match hid with Some b => [@KHidden A b] | None => [] end.
  Definition part_wanted (p : A * list rvalue * option bool) : fpart A :=
    let '(a, rs, hid) := p in FPart (CLeaf a) (fold_left (fun r v => repeater v r) rs default_repeater) (match hid with Some b => b | None => false end).
  Lemma expression_app w h ks ks' : expression w h (ks ++ ks') =
    match expression w h ks with (w', Ok h') => expression w' h' ks' | (w', Err e) => (w', Err e) end.
  Proof.
    revert w h. induction ks as [|k ks IH]; intros w h; [reflexivity|]. cbn [expression app]. destruct (step w h k) as [w' [h'|e]]; [apply IH|reflexivity].
  Qed.
  (** only the parts of [c] differ *)
  Definition with_parts w c (ps : list (fpart A)) w' : Prop :=
    w_root w' = w_root w /\ w_count w' = w_count w /\ w_parent w' = w_parent w /\ w_options w' = w_options w
    /\ forall x, w_parts w' x = if Nat.eqb x c then ps else w_parts w x.
  Lemma update_last {B} f (l : list B) x : update_nth (length l) f (l ++ [x]) = l ++ [f x].
  Proof. induction l as [|y l IH]; simpl; [reflexivity|now rewrite IH]. Qed.
  Lemma modify_last w c f ps p : w_parts w c = ps ++ [p] ->
    with_parts w c (ps ++ [f p]) (set_parts w c (update_nth (length ps) f (w_parts w c))).
  Proof. intro E. repeat split; try reflexivity. intro x. cbn. destruct (Nat.eqb_spec x c) as [->|]; [|reflexivity]. now rewrite E, update_last. Qed.
  Lemma with_parts_trans w c ps w1 ps' w2 : with_parts w c ps w1 -> with_parts w1 c ps' w2 -> with_parts w c ps' w2.
  Proof.
    intros (A1 & A2 & A3 & A4 & A5) (B1 & B2 & B3 & B4 & B5). repeat split; try congruence. intro x. rewrite B5, A5. destruct (Nat.eqb x c); reflexivity.
  Qed.
  Lemma with_parts_at w c ps w' : with_parts w c ps w' -> w_parts w' c = ps.
  Proof. intros (_ & _ & _ & _ & H). now rewrite H, Nat.eqb_refl. Qed.
  Lemma repeaters_expression w c ps p rs : w_parts w c = ps ++ [p] -> exists w',
    expression w (HPart c (length ps)) (map (@KRepeater A) rs) = (w', Ok (HPart c (length ps)))
    /\ with_parts w c (ps ++ [FPart (fp_content p) (fold_left (fun r v => repeater v r) rs (fp_repeat p)) (fp_hidden p)]) w'.
  Proof.
    revert w p. induction rs as [|v rs IH]; intros w p E; cbn [map expression fold_left].
    - exists w. split; [reflexivity|]. repeat split; try reflexivity. intro x. destruct (Nat.eqb_spec x c) as [->|]; [|reflexivity]. rewrite E. now destruct p.
    - cbn [step]. pose proof (modify_last (fun p => FPart (fp_content p) (repeater v (fp_repeat p)) (fp_hidden p)) E) as M.
      destruct (IH _ _ (with_parts_at M)) as (w' & Ew & P). exists w'. split; [exact Ew|]. exact (with_parts_trans M P).
  Qed.
  Lemma part_expression w h c p : wf w -> chain_of h = Some c -> exists w',
    expression w h (part_calls p) = (w', Ok (HPart c (length (w_parts w c)))) /\ with_parts w c (w_parts w c ++ [part_wanted p]) w'.
  Proof.
    intros W Hh. destruct p as [[a rs] hid]. unfold part_calls, part_wanted.
    assert (E : step w h (KAdd (Ok a)) = (set_parts w c (w_parts w c ++ [new_part (CLeaf a)]), Ok (HPart c (length (w_parts w c))))).
    { destruct h as [|c'|c' i]; simpl in Hh; [discriminate| |]; injection Hh as ->; reflexivity. }
    cbn [expression]. rewrite E, expression_app.
    assert (W0 : with_parts w c (w_parts w c ++ [new_part (CLeaf a)]) (set_parts w c (w_parts w c ++ [new_part (CLeaf a)]))) by (repeat split; reflexivity).
    destruct (repeaters_expression rs (with_parts_at W0)) as (w1 & E1 & P1). rewrite E1. pose proof (with_parts_trans W0 P1) as P.
    destruct hid as [b|]; cbn [expression step].
    - pose proof (modify_last (fun p => FPart (fp_content p) (fp_repeat p) b) (with_parts_at P)) as M. eexists. split; [reflexivity|].
      exact (with_parts_trans P M).
    - exists w1. split; [reflexivity|exact P].
  Qed.
  (** *** C76 Written as one expression, a chain has exactly the parts written, in order, with
      their repeaters; the expression gives back the root builder, which has one more pattern *)
  Theorem C76_expression ops a parts : exists w',
    expression (se_world (session_of ops)) HRoot (KChain (Ok a) :: flat_map part_calls parts ++ [@KClose A]) = (w', Ok HRoot)
    /\ w_root w' = w_root (se_world (session_of ops)) ++ [CChain (w_count (se_world (session_of ops)))]
    /\ w_parts w' (w_count (se_world (session_of ops))) = map part_wanted parts
    /\ w_options w' (w_count (se_world (session_of ops))) = Some a
    /\ (forall c, c < w_count (se_world (session_of ops)) -> w_parts w' c = w_parts (se_world (session_of ops)) c
                                                        /\ w_options w' c = w_options (se_world (session_of ops)) c).
  Proof.
    pose proof (proj1 (Good_session ops)) as W. set (w := se_world (session_of ops)) in *. set (n := w_count w).
    cbn [expression step]. fold n. set (w0 := register (new_chain w None a) (CChain n)).
    assert (W0 : wf w0) by (apply (@new_chain_spec w None a); [discriminate|exact W]).
    assert (G : forall parts w1 h, wf w1 -> chain_of h = Some n -> n < w_count w1 -> exists w' h',
               expression w1 h (flat_map part_calls parts) = (w', Ok h') /\ chain_of h' = Some n /\ wf w'
               /\ with_parts w1 n (w_parts w1 n ++ map part_wanted parts) w').
    { clear. induction parts as [|p parts IH]; intros w1 h W Hh Hn; cbn [flat_map map].
      - exists w1, h. rewrite app_nil_r. repeat split; auto; try apply W. intro x. destruct (Nat.eqb_spec x n) as [->|]; reflexivity.
      - rewrite expression_app. destruct (part_expression p W Hh) as (w2 & E2 & P2). rewrite E2.
        assert (W2 : wf w2).
        { destruct P2 as (_ & Q2 & Q3 & _ & Q5), W as (W1 & W2 & W3). split; [|split].
          - intros c Hc. rewrite Q5. destruct (Nat.eqb_spec c n); [lia|apply W1; lia].
          - intros c q. rewrite Q3. apply W2.
          - intros c Hc. rewrite Q3. apply W3. lia. }
        destruct (IH w2 (HPart n (length (w_parts w1 n))) W2 eq_refl) as (w' & h' & E' & Hh' & W' & P').
        { destruct P2 as (_ & -> & _). exact Hn. }
        exists w', h'. split; [exact E'|]. split; [exact Hh'|]. split; [exact W'|]. rewrite (with_parts_at P2), <- app_assoc in P'. exact (with_parts_trans P2 P'). }
    destruct (G parts w0 (HBuilder n) W0 eq_refl) as (w' & h' & E' & Hh' & W' & P'); [simpl; lia|].
    rewrite expression_app, E'. cbn [expression].
    assert (Ec : step w' h' KClose = (w', Ok HRoot)).
    { assert (Hn : n < w_count w') by (destruct P' as (_ & -> & _); simpl; lia).
      destruct h' as [|c|c i]; simpl in Hh'; [discriminate| |]; injection Hh' as ->; cbn; now rewrite close_root. }
    rewrite Ec. exists w'. split; [reflexivity|]. destruct P' as (P1 & P2 & P3 & P4 & P5). split; [rewrite P1; reflexivity|].
    split; [rewrite P5, Nat.eqb_refl; cbn; now rewrite Nat.eqb_refl|]. split; [rewrite P4; cbn; now rewrite Nat.eqb_refl|].
    intros c Hc. rewrite P4, P5. cbn. rewrite (proj2 (Nat.eqb_neq c n)) by lia. rewrite (proj2 (Nat.eqb_neq c (w_count w))) by (unfold n in *; lia). split; reflexivity.
  Qed.
End C76.

(** a chain with a nested chain, whose parts are asked from two objects, then a pattern on the
    root builder; the enclosing chain is continued through a part kept by the user, as close()
    does not return to it *)
Definition ops76 : list (nat * call nat) :=
  [ (0, KChain (Ok 100));              (* 1: builder of chain 0 *)
    (1, KAdd (Ok 1));                  (* 2: part 0 of chain 0 *)
    (2, KRepeater (RInt 3));         (* 3 *)
    (2, KChain (Ok 200));              (* 4: builder of chain 1 *)
    (4, KAdd (Ok 2));                  (* 5: part 0 of chain 1 *)
    (5, KHidden true);               (* 6 *)
    (5, KAdd (Err ValueError));        (* a bad regular expression: nothing is added *)
    (5, KClose);                     (* 7: the root builder *)
    (7, KAdd (Ok 3));                  (* 8 *)
    (2, KAdd (Ok 4)) ].                (* 9: part 2 of chain 0 *)
Example C76_witness :
  w_root (se_world (session_of ops76)) = [CChain 0; CLeaf 3]
  /\ w_parts (se_world (session_of ops76)) 0 = [FPart (CLeaf 1) (3%Z, Some 3%Z) false; FPart (CChain 1) (1%Z, Some 1%Z) false; FPart (CLeaf 4) (1%Z, Some 1%Z) false]
  /\ w_parts (se_world (session_of ops76)) 1 = [FPart (CLeaf 2) (1%Z, Some 1%Z) true]
  /\ se_held (session_of ops76) = [HRoot; HBuilder 0; HPart 0 0; HPart 0 0; HBuilder 1; HPart 1 0; HPart 1 0; HRoot; HRoot; HPart 0 2].
Proof. vm_compute. repeat split; reflexivity. Qed.

Print Assumptions C76_added_in_order. Print Assumptions C76_returned. Print Assumptions C76_settings.
Print Assumptions C76_tree. Print Assumptions C76_expression. Print Assumptions C76_nested_chains_once.
