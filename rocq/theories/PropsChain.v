(** * Chains: C43-C46 *)
From Verif Require Import Base BaseFacts Match Coll Loose MatchFacts Pattern PatternFacts PropsLoose PropsPattern Chain SpecChain ChainFacts ChainSem.
Set Implicit Arguments.
Unset Strict Implicit.
Open Scope Z_scope.

(** ** C43 *)

(** The search for a chain ends (after at most one attempt per character), whatever its parts are,
    provided what they find is not empty, starts inside the text and has no explicit raw end *)
Theorem C43_chain_terminates_partial : forall p breaker parts n input, Forall proper parts -> Forall convergent parts ->
  exists r, r <> Err Diverges /\ forall fuel, (length input < fuel)%nat -> chain_match fuel p breaker parts n input = r.
Proof.
  intros p breaker parts n input P C. set (f0 := S (length input)).
  exists (chain_match f0 p breaker parts n input). unfold chain_match.
  assert (chain_loop f0 p breaker parts input n input 0 [] <> Err Diverges) as N.
  { apply chain_loop_terminates; auto; try lia. unfold f0, zlen. lia. }
  split; [exact N|]. intros fuel L. eapply chain_loop_mono; [reflexivity|exact N|unfold f0; lia].
Qed.

Lemma process_matches_converges p pm m i : process_matches p pm m i <> Err Diverges.
Proof.
  unfold process_matches. destruct (apply_processor (po_pre p) m) as [[raw m1] same].
  assert (forall A (o : option mtch) (stop : A) go, (forall x, go x <> Err Diverges) -> stop_if_falsy o stop go <> Err Diverges) as S.
  { intros A o stop go H. unfold stop_if_falsy. destruct o as [x|]; [|discriminate]. unfold mbool. destruct (_ <? _); [discriminate|].
    destruct (negb _); [apply H|discriminate]. }
  apply S. intro x. destruct (pm x i false) as [m2 ok]. destruct (negb ok); [discriminate|].
  destruct (process_children _ _ _ _ _) as [cs ok']. destruct (negb ok'); [discriminate|].
  destruct (apply_processor (po_post p) _) as [[m3' m4] same']. apply S. intro y. discriminate.
Qed.
Lemma finish_converges p pm occ : finish_matches p pm occ <> Err Diverges.
Proof.
  unfold finish_matches.
  assert (forall l i, process_all p pm i l <> Err Diverges) as A.
  { induction l as [|m l IH]; intro i; simpl; [discriminate|]. pose proof (@process_matches_converges p pm m i). destruct (process_matches _ _ _ _) as [[? ?]|]; [|congruence].
    specialize (IH (S i)). destruct (process_all _ _ _ _) as [[? ?]|]; congruence. }
  assert (process_patterns p pm occ <> Err Diverges) as B.
  { induction occ as [|o occ IH]; simpl; [discriminate|]. pose proof (A o 0%nat). destruct (process_all _ _ _ _) as [[? ?]|]; [|congruence].
    destruct (process_patterns _ _ _) as [[? ?]|]; congruence. }
  destruct (process_patterns _ _ _) as [[? ?]|]; [discriminate|congruence].
Qed.

(** and so does [matches()] of the chain, with whatever options *)
Theorem C43_chain_matches_terminates_partial : forall p breaker parts n input, Forall proper parts -> Forall convergent parts ->
  exists r, r <> Err Diverges /\ forall fuel, (length input < fuel)%nat -> chain_matches fuel p breaker parts n input = r.
Proof.
  intros p breaker parts n input P C. destruct (@C43_chain_terminates_partial p breaker parts n input P C) as (r & N & H).
  eexists; split; [|intros fuel L; unfold chain_matches; rewrite (H fuel L); reflexivity].
  destruct r as [[k ms]|e]; [|congruence]. pose proof (@finish_converges p (chain_process_match p) [ms]) as F.
  destruct (finish_matches _ _ _); congruence.
Qed.

(** *** String, regex and functional patterns are such parts *)
(** what is asked of the searched strings, of the engine and of the functions *)
Definition sound_source (src : psource) : Prop :=
  match src with
  | SString _ o subs => so_ignore_case o = false /\ Forall (fun sub => sub <> []) subs
  | SRegex _ rxs => forall rx t, In rx rxs -> engine_ok rx t
  | SFunctional fs => forall f t x, In f fs -> In x (results (f t)) -> one_value x /\ 0 <= fst (item_span x) <= snd (item_span x)
  end.

Lemma mtrue_pos m : mtrue m = true -> 0 <= mlen m -> m_start m < m_end m.
Proof. unfold mtrue, mlen. intros H L. destruct (Z.eqb_spec (m_end m - m_start m) 0); [discriminate|lia]. Qed.

Lemma found_advances p src t found : sound_source src -> finds p t src found ->
  Forall (fun m => advances t m /\ m_rawstart m = None /\ Forall (advances t) (m_children m)) (concat found).
Proof.
  intros S F. apply Forall_forall. intros m Hm. apply in_concat in Hm as (ms & Hms & Hm).
  destruct src as [lower o subs|rep rxs|fs]; cbn [finds sound_source] in *.
  - destruct S as [Hi S]. assert (exists sub, In sub subs /\ string_match lower p o sub t = Ok ms) as (sub & Hs & E).
    { clear - F Hms. induction F; [contradiction|]. destruct Hms as [->|Hms]; [exists x; split; [left; auto|auto]|].
      destruct (IHF Hms) as (sub & ? & ?). exists sub. split; [right; auto|auto]. }
    rewrite Forall_forall in S. destruct (@string_match_found lower p o sub t Hi (S sub Hs)) as (l & ms' & G & E' & D).
    rewrite E in E'. injection E' as <-. rewrite D in Hm. apply in_map_iff in Hm as (i & <- & Hin).
    assert (0 < zlen sub). { specialize (S sub Hs). destruct sub; [congruence|]. rewrite zlen_cons. pose proof (zlen_nonneg sub). lia. }
    assert (0 <= i) as Hi0.
    { destruct G as (G & _). rewrite Forall_forall in G. destruct (G i Hin) as (O & _). apply occurs_bounds in O. lia. }
    split; [|split; [reflexivity|constructor]]. split; [reflexivity|]. split; [reflexivity|]. simpl. lia.
  - assert (exists rx, In rx rxs /\ re_match p rep rx t = Ok ms) as (rx & Hr & E).
    { clear - F Hms. induction F; [contradiction|]. destruct Hms as [->|Hms]; [exists x; split; [left; auto|auto]|].
      destruct (IHF Hms) as (sub & ? & ?). exists sub. split; [right; auto|auto]. }
    pose proof (re_match_made E) as M. rewrite Forall_forall in M. destruct (M m Hm) as [M1 M2].
    destruct M1 as (_ & _ & _ & _ & _ & _ & I1 & _ & I2 & I3 & _).
    pose proof (S rx t Hr) as EO. unfold re_match in E. destruct (sequence _ _) as [l|] eqn:Q; [|discriminate].
    apply keep_truthy_inv in E as [L ->]. apply filter_In in Hm as [Hm T]. apply sequence_ok in Q.
    rewrite Forall_forall in L. assert (m_start m < m_end m) as Lt by (apply mtrue_pos; auto).
    assert (exists oc, In oc (rx_finditer rx t) /\ re_one p rep (rx_groups rx) t oc = Ok m) as (oc & Hoc & Q1).
    { clear - Q Hm. induction Q; [contradiction|]. destruct Hm as [->|Hm]; [exists x; split; [left; auto|auto]|].
      destruct (IHQ Hm) as (oc & ? & ?). exists oc. split; [right; auto|auto]. }
    unfold engine_ok in EO. rewrite Forall_forall in EO. destruct (EO oc Hoc) as (E1 & _ & E3).
    unfold re_one in Q1. pose proof (append_children_parent Q1) as (_ & A2 & _ & A4 & _ & _ & _).
    unfold m_span in A2. cbn [m_start m_end new_match] in A2. injection A2 as A2 A3. destruct E1 as [E1 _].
    split; [|split; [exact I2|]]. { split; [exact I1|]. split; [exact I3|]. rewrite A2. split; [apply E1|]. lia. }
    rewrite Forall_forall. intros c Hc. rewrite Forall_forall in M2. destruct (M2 c Hc) as (_ & _ & _ & _ & _ & _ & J1 & _ & J2 & J3 & _).
    rewrite A4 in Hc. cbn [m_children new_match app] in Hc. apply filter_In in Hc as [Hc Tc]. apply in_flat_map in Hc as ([nm caps] & Hg & Hc).
    unfold re_child in Hc. apply in_map_iff in Hc as (sp & <- & Hsp). cbn [snd fst] in Hsp.
    apply in_combine_r in Hg. rewrite Forall_forall in E3. specialize (E3 caps Hg). rewrite Forall_forall in E3.
    assert (In sp caps) as Hsp'.
    { unfold group_spans in Hsp. destruct rep; auto. destruct (rev caps) as [|y r] eqn:Er; [contradiction|]. destruct (_ && _)%bool; [|contradiction].
      destruct Hsp as [<-|[]]. apply in_rev. rewrite Er. now left. }
    destruct (E3 sp Hsp') as [E4 _]. split; [exact J1|]. split; [exact J3|]. unfold mtrue, mlen in Tc. simpl in *.
    destruct (Z.eqb_spec (snd sp - fst sp) 0); [discriminate|]. lia.
  - assert (exists f, In f fs /\ functional_match p f t = Ok ms) as (f & Hf & E).
    { clear - F Hms. induction F; [contradiction|]. destruct Hms as [->|Hms]; [exists x; split; [left; auto|auto]|].
      destruct (IHF Hms) as (sub & ? & ?). exists sub. split; [right; auto|auto]. }
    unfold functional_match in E. destruct (sequence _ _) as [l|] eqn:Q; [|discriminate]. apply keep_truthy_inv in E as [L ->].
    apply filter_In in Hm as [Hm T]. rewrite Forall_forall in L. pose proof (mtrue_pos T (L m Hm)) as Lt. apply sequence_ok in Q. fold (results (f t)) in Q.
    assert (exists x, In x (results (f t)) /\ functional_one p t x = Ok m) as (x & Hx & Q1).
    { clear - Q Hm. induction Q; [contradiction|]. destruct Hm as [->|Hm]; [exists x; split; [left; auto|auto]|].
      destruct (IHQ Hm) as (oc & ? & ?). exists oc. split; [right; auto|auto]. }
    destruct (S f t x Hf Hx) as [S1 S2]. 
    assert (m_span m = item_span x /\ m_input m = Some t /\ m_rawend m = None /\ m_rawstart m = None /\ m_children m = []) as (B1 & B2 & B3 & B4 & B5).
    { unfold functional_one in Q1. destruct x as [st en v o|st en o].
      - destruct v; destruct o; simpl in Q1; try (destruct (mo_value _); [discriminate|]); injection Q1 as <-; auto.
      - injection Q1 as <-. auto. }
    rewrite B5. split; [|auto]. split; [exact B2|]. split; [exact B3|]. unfold m_span in B1. rewrite <- B1 in S2. simpl in S2. lia.
Qed.

Lemma sequence_not {A B} (f : A -> res B) (e : exn) : forall l, (forall x, In x l -> f x <> Err e) -> sequence f l <> Err e.
Proof.
  induction l as [|x l IH]; intro H; simpl; [discriminate|]. pose proof (H x (or_introl eq_refl)). destruct (f x); [|congruence].
  assert (sequence f l <> Err e) by (apply IH; intros; apply H; now right). destruct (sequence f l); congruence.
Qed.
Lemma keep_truthy_err ms e : keep_truthy ms = Err e -> e = ValueError.
Proof.
  induction ms as [|m ms IH]; simpl; [discriminate|]. unfold mbool. destruct (_ <? _); [congruence|]. destruct (keep_truthy ms); [discriminate|auto].
Qed.
Lemma pattern_error p src n t e : sound_source src -> pattern_matches p src n t = Err e -> e <> Diverges /\ e <> InvalidChain.
Proof.
  intros S H.
  assert (forall A (subs : list A) mt, run_pattern p subs mt n t = Err e ->
    (exists sub, In sub subs /\ mt sub t = Err e) \/ exists occ, finish_matches p (process_match p) occ = Err e) as R.
  { intros A subs mt. unfold run_pattern. destruct (sequence _ _) as [occ|e0] eqn:E.
    - destruct (number_lists n occ) as [k occ']. destruct (finish_matches _ _ _) eqn:F; [discriminate|]. intro X. injection X as ->. eauto.
    - intro X. injection X as ->. left. clear - E. induction subs as [|x l IH]; simpl in E; [discriminate|]. destruct (mt x t) eqn:E1.
      + destruct (sequence _ _) eqn:E2; [discriminate|]. injection E as ->. destruct (IH eq_refl) as (s & ? & ?). exists s. split; [now right|auto].
      + injection E as ->. exists x. split; [now left|auto]. }
  assert (forall occ, finish_matches p (process_match p) occ = Err e -> e = ValueError) as F.
  { intros occ. unfold finish_matches. 
    assert (forall m i, process_matches p (process_match p) m i = Err e -> e = ValueError) as P.
    { intros m i. unfold process_matches. destruct (apply_processor _ _) as [[raw m1] same]. unfold stop_if_falsy. destruct m1 as [x|]; [|discriminate].
      unfold mbool. destruct (_ <? _); [congruence|]. destruct (negb _); [|discriminate]. destruct (process_match p x i false) as [m2 ok]. destruct (negb ok); [discriminate|].
      destruct (process_children _ _ _ _ _) as [cs ok']. destruct (negb ok'); [discriminate|]. destruct (apply_processor _ _) as [[m3' m4] same'].
      destruct m4 as [y|]; [|discriminate]. destruct (_ <? _); [congruence|]. destruct (negb _); discriminate. }
    assert (forall l i, process_all p (process_match p) i l = Err e -> e = ValueError) as Q.
    { induction l as [|m l IH]; intro i; cbn [process_all]; [discriminate|]. destruct (process_matches _ _ _ _) as [[? ?]|] eqn:E1.
      - destruct (process_all _ _ _ _) as [[? ?]|] eqn:E2; [discriminate|]. intro X. injection X as ->. eauto.
      - intro X. injection X as ->. eauto. }
    assert (process_patterns p (process_match p) occ = Err e -> e = ValueError) as W.
    { induction occ as [|o occ IH]; cbn [process_patterns]; [discriminate|]. destruct (process_all _ _ _ _) as [[? ?]|] eqn:E1.
      - destruct (process_patterns _ _ _) as [[? ?]|] eqn:E2; [discriminate|]. intro X. injection X as ->. auto.
      - intro X. injection X as ->. eauto. }
    destruct (process_patterns _ _ _) as [[? ?]|]; [discriminate|]. intro X. injection X as ->. auto. }
  assert (forall A (l : list A) f, (forall x e, f x = Err e -> e <> Diverges /\ e <> InvalidChain) -> forall e, sequence f l = @Err (list mtch) e -> e <> Diverges /\ e <> InvalidChain) as SQ.
  { intros A l f Hf. induction l as [|x l IH]; intro e1; simpl; [discriminate|]. destruct (f x) eqn:E1; [|intro X; injection X as <-; eauto].
    destruct (sequence f l) eqn:E2; [discriminate|]. intro X. injection X as <-. eauto. }
  assert (e = ValueError -> e <> Diverges /\ e <> InvalidChain) as V by (intros ->; split; discriminate).
  destruct src as [lower o subs|rep rxs|fs]; cbn [pattern_matches sound_source] in *; apply R in H as [(sub & Hs & H)|(occ & H)]; try (apply V; eauto; fail).
  - destruct S as [S1 S2]. rewrite Forall_forall in S2. destruct (@string_match_found lower p o sub t S1 (S2 sub Hs)) as (l & ms & _ & E & _). congruence.
  - unfold re_match in H. destruct (sequence _ _) as [ms|e1] eqn:E; [apply V; now apply keep_truthy_err in H|]. injection H as ->.
    eapply SQ; [|exact E]. intros oc e2. unfold re_one.
    assert (forall cs main, append_children main cs = Err e2 -> e2 <> Diverges /\ e2 <> InvalidChain) as A; [|apply A].
    induction cs as [|c cs IH]; intro main; cbn [append_children]; [discriminate|]. unfold mbool. destruct (_ <? _); [intro X; injection X as <-; split; discriminate|].
    destruct (negb _); [|apply IH]. destruct (m_marker c); [intro X; injection X as <-; split; discriminate|apply IH].
  - unfold functional_match in H. destruct (sequence _ _) as [ms|e1] eqn:E; [apply V; now apply keep_truthy_err in H|]. injection H as ->.
    eapply SQ; [|exact E]. intros x e2. unfold functional_one. destruct x as [st en v oo|st en oo]; [|discriminate].
    destruct v, oo; cbn; try (destruct (mo_value _)); try discriminate; try (intro X; injection X as <-; split; discriminate);
    destruct (or_else _ _); try discriminate; intro X; injection X as <-; split; discriminate.
Qed.

Lemma raws_found p src n t n' outs raws : no_processor p -> pattern_matches p src n t = Ok (n', (outs, raws)) ->
  exists found rawss, finds p t src found /\ raws = concat rawss
    /\ Forall2 (fun f rs => exists occ, Forall2 same_occurrence f occ /\ Forall2i same_raw 0 occ rs) found rawss.
Proof.
  intros (N1 & N2 & N3) H.
  assert (forall A (subs : list A) mt, (forall sub ms, In sub subs -> mt sub t = Ok ms -> Forall (fun m => m_parent m = None) ms) ->
    run_pattern p subs mt n t = Ok (n', (outs, raws)) -> exists found rawss, Forall2 (fun sub ms => mt sub t = Ok ms) subs found /\ raws = concat rawss
      /\ Forall2 (fun f rs => exists occ, Forall2 same_occurrence f occ /\ Forall2i same_raw 0 occ rs) found rawss) as R.
  { intros A subs mt Hm X. apply run_pattern_spec in X as (found & occs & A1 & A2 & _ & _ & rawss & A3 & A4); auto.
    exists found, rawss. split; [exact A1|]. split; [exact A4|]. clear - A2 A3. revert rawss A3. induction A2; intros rawss A3; inversion A3; subst; constructor; eauto. }
  destruct src; apply R in H; auto; intros sub ms _ E.
  - apply string_match_raw in E. eapply Forall_impl; [|exact E]. simpl; tauto.
  - apply re_match_raw in E. eapply Forall_impl; [|exact E]. simpl; tauto.
  - apply functional_match_raw in E. eapply Forall_impl; [|exact E]. simpl; tauto.
Qed.

(** Parts made of string, regex or functional patterns (without match processors) qualify *)
Theorem C43_patterns_qualify : forall p src rstart rend hidden, no_processor p -> sound_source src ->
  proper (CPart (pattern_matches p src) rstart rend hidden) /\ convergent (CPart (pattern_matches p src) rstart rend hidden).
Proof.
  intros p src rstart rend hidden N S. split.
  2:{ intros n t H. cbn [cp_match] in H. apply pattern_error in H; auto. tauto. }
  intros n t n' ms raws H. cbn [cp_match] in H. split.
  - destruct (returned N H) as (found & F & R). pose proof (found_advances S F) as A. rewrite Forall_forall in A. apply Forall_forall. intros m Hm.
    destruct (R m Hm) as (o & i & Ho & [(_ & St & _)|(c & P & _ & Hc & St & _)]); destruct (A o Ho) as (A1 & _ & A2).
    + destruct St as [(E1 & _ & _ & _ & _ & E2 & _ & _ & _ & _ & E3) _ _ _ _]. unfold m_span in E1. injection E1 as E1 E4. unfold advances in *. rewrite E1, E2, E3, E4. exact A1.
    + rewrite Forall_forall in A2. specialize (A2 c Hc).
      destruct St as [(E1 & _ & _ & _ & _ & E2 & _ & _ & _ & _ & E3) _ _ _ _]. unfold m_span in E1. injection E1 as E1 E4. unfold advances in *. rewrite E1, E2, E3, E4. exact A2.
  - destruct (raws_found N H) as (found & rawss & F & -> & Q). pose proof (found_advances S F) as A. rewrite Forall_forall in A. apply Forall_forall. intros m Hm.
    apply in_concat in Hm as (rs & Hrs & Hm).
    assert (exists f occ, In f found /\ Forall2 same_occurrence f occ /\ Forall2i same_raw 0 occ rs) as (f & occ & Hf & Q1 & Q2).
    { clear - Q Hrs. induction Q as [|f rs0 fs rss (occ & X) Q IH]; [contradiction|]. destruct Hrs as [->|Hrs]; [exists f, occ; split; [now left|auto]|].
      destruct (IH Hrs) as (f1 & occ1 & ? & ?). exists f1, occ1. split; [now right|auto]. }
    destruct (Forall2i_in_r Q2 Hm) as (a & j & Ha & W1 & _ & _ & _ & W2 & W3).
    assert (exists o, In o f /\ same_occurrence o a) as (o & Ho & So).
    { clear - Q1 Ha. induction Q1; [contradiction|]. destruct Ha as [->|Ha]; [exists x; split; [now left|auto]|]. destruct (IHQ1 Ha) as (o & ? & ?). exists o. split; [now right|auto]. }
    destruct (A o) as (A1 & _); [apply in_concat; eauto|]. apply same_occurrence_len in So as (_ & S1 & _ & _ & _ & _ & _ & _ & _ & S2 & _ & S3 & _).
    unfold m_span in *. injection W1 as W1 W4. injection S1 as S1 S4. unfold advances in *. rewrite W1, W2, W3, W4, S1, S2, S3, S4. exact A1.
Qed.

(** ** C44 *)
(** one string, regex or function, whose occurrences are inside the text and from left to right *)
Definition left_to_right (spans : list (Z * Z)) : Prop := StronglySorted (fun a b => snd a <= fst b) spans.
Definition orderly_source (src : psource) : Prop :=
  match src with
  | SString _ o [sub] => so_ignore_case o = false /\ sub <> []
  | SRegex _ [rx] => forall t, engine_ok rx t /\ left_to_right (map oc_span (rx_finditer rx t))
  | SFunctional [f] => forall t, left_to_right (map item_span (results (f t)))
                       /\ Forall (fun x => one_value x /\ span_ok t (item_span x)) (results (f t))
  | _ => False
  end.
(** of each valid occurrence, the whole match only is returned *)
Definition parents_only (p : popts) : Prop := po_children p = false /\ po_every p = false /\ po_private_children p = false.

Lemma sorted_filter {A} (R : A -> A -> Prop) f l : StronglySorted R l -> StronglySorted R (filter f l).
Proof. intro H. eapply subseq_sorted; [apply subseq_filter|exact H]. Qed.
Lemma sorted_spans (l : list mtch) : left_to_right (map m_span l) <-> StronglySorted (fun a b => m_end a <= m_start b) l.
Proof.
  unfold left_to_right. induction l as [|m l IH]; simpl; split; intro H; try constructor; inversion H as [|? ? H1 H2]; subst; try (apply IH; exact H1).
  - rewrite Forall_forall in *. intros x Hx. apply (H2 (m_span x)). now apply in_map.
  - rewrite Forall_forall in *. intros x Hx. apply in_map_iff in Hx as (y & <- & Hy). now apply H2.
Qed.

Lemma orderly_sound src : orderly_source src -> sound_source src.
Proof.
  destruct src as [lower o subs|rep rxs|fs]; simpl.
  - destruct subs as [|sub [|? ?]]; try tauto. intros [? ?]. repeat constructor; auto.
  - destruct rxs as [|rx [|? ?]]; try tauto. intros H rx' t [<-|[]]. apply H.
  - destruct fs as [|f [|? ?]]; try tauto. intros H f' t x [<-|[]] Hx. destruct (H t) as [_ F]. rewrite Forall_forall in F. destruct (F x Hx) as [? [? ?]]. split; auto.
Qed.

(** the occurrences found by such a pattern *)
Lemma orderly_found p src t found : orderly_source src -> finds p t src found ->
  exists ms, found = [ms] /\ Forall (fun m => m_end m <= zlen t /\ m_parent m = None /\ mtrue m = true) ms /\ StronglySorted (fun a b => m_end a <= m_start b) ms.
Proof.
  intros S F. destruct src as [lower o subs|rep rxs|fs]; cbn [finds orderly_source] in *.
  - destruct subs as [|sub [|? ?]]; try tauto. inversion F as [|? ms ? ? E F']; subst. inversion F'; subst. exists ms. split; [reflexivity|].
    pose proof (string_match_raw E) as R. destruct S as [S1 S2]. destruct (@string_match_found lower p o sub t S1 S2) as (l & ms' & (G1 & G2 & _) & E' & D). rewrite E in E'. injection E' as <-. split.
    + rewrite Forall_forall in *. intros m Hm. specialize (R m Hm). split; [|tauto]. rewrite D in Hm. apply in_map_iff in Hm as (i & <- & Hi).
      destruct (G1 i Hi) as [O _]. apply occurs_bounds in O. simpl. lia.
    + rewrite D. clear - G2. induction G2 as [|i l S IH Fo]; simpl; constructor; auto. rewrite Forall_forall in *. intros m Hm. apply in_map_iff in Hm as (j & <- & Hj).
      simpl. now apply Fo.
  - destruct rxs as [|rx [|? ?]]; try tauto. inversion F as [|? ms ? ? E F']; subst. inversion F'; subst. exists ms. split; [reflexivity|].
    pose proof (re_match_raw E) as R. destruct (S t) as [S1 S2]. unfold re_match in E. destruct (sequence _ _) as [l|] eqn:Q; [|discriminate].
    apply keep_truthy_inv in E as [_ ->]. apply sequence_ok in Q.
    assert (Forall2 (fun o m => m_span m = oc_span o) (rx_finditer rx t) l) as SP.
    { clear - Q. induction Q as [|o m os l E0 E IH]; constructor; auto. unfold re_one in E0. apply append_children_parent in E0 as (_ & E0 & _). rewrite E0.
      unfold m_span. simpl. now destruct (oc_span o). }
    split.
    + rewrite Forall_forall in *. intros m Hm. specialize (R m Hm). split; [|tauto]. apply filter_In in Hm as [Hm _].
      unfold engine_ok in S1. clear - SP S1 Hm. induction SP as [|o m' os l E _ IH]; [contradiction|]. inversion S1 as [|? ? ((_ & B) & _) S2]; subst.
      destruct Hm as [->|Hm]; [unfold m_span in E; rewrite <- E in B; exact B|auto].
    + apply sorted_filter. apply sorted_spans. assert (map m_span l = map oc_span (rx_finditer rx t)) as ->; auto.
      clear - SP. induction SP; simpl; congruence.
  - destruct fs as [|f [|? ?]]; try tauto. inversion F as [|? ms ? ? E F']; subst. inversion F'; subst. exists ms. split; [reflexivity|].
    pose proof (functional_match_raw E) as R. destruct (S t) as [S1 S2]. unfold functional_match in E. destruct (sequence _ _) as [l|] eqn:Q; [|discriminate].
    apply keep_truthy_inv in E as [_ ->]. apply sequence_ok in Q. fold (results (f t)) in Q.
    assert (Forall2 (fun x m => m_span m = item_span x) (results (f t)) l) as SP.
    { clear - Q. induction Q as [|x m xs l E0 E IH]; constructor; auto. unfold functional_one in E0. destruct x as [st en v o|st en o].
      - destruct v; destruct o; simpl in E0; try (destruct (mo_value _); [discriminate|]); injection E0 as <-; auto.
      - injection E0 as <-. auto. }
    split.
    + rewrite Forall_forall in *. intros m Hm. specialize (R m Hm). split; [|tauto]. apply filter_In in Hm as [Hm _]. rewrite <- Forall_forall in S2.
      clear - SP S2 Hm. induction SP as [|o m' os l E _ IH]; [contradiction|]. inversion S2 as [|? ? (_ & _ & B) S3]; subst.
      destruct Hm as [->|Hm]; [unfold m_span in E; rewrite <- E in B; exact B|auto].
    + apply sorted_filter. apply sorted_spans. assert (map m_span l = map item_span (results (f t))) as ->; auto.
      clear - SP. induction SP; simpl; congruence.
Qed.

(** numbered raw matches agreeing with the occurrences *)
Lemma raws_numbered t : forall f occ rs j, Forall2 same_occurrence f occ -> Forall2i same_raw j occ rs ->
  Forall (fun m => advances t m /\ m_rawstart m = None /\ m_end m <= zlen t /\ m_parent m = None /\ mtrue m = true) f ->
  Forall (located t) rs /\ map m_index rs = seq j (length rs) /\ map m_span rs = map m_span f.
Proof.
  induction f as [|o f IH]; intros occ rs j F G A.
  - inversion F; subst. inversion G; subst. repeat split; constructor.
  - inversion F as [|? a ? occ' F1 F2]; subst. inversion G as [|? ? r ? rs' G1 G2]; subst. inversion A as [|? ? A1 A2]; subst.
    destruct (IH _ _ _ F2 G2 A2) as (I1 & I2 & I3). destruct A1 as ((A1 & A3 & A4) & A5 & A6 & A7 & A8).
    apply same_occurrence_len in F1 as (L & S1 & _ & _ & _ & _ & _ & _ & _ & S2 & S3 & S4 & _ & S5). destruct G1 as (G1 & G3 & G4 & G5 & G6 & G7).
    assert (m_index r = j) as Ij. { apply G4. unfold mtrue in *. now rewrite L. }
    split; [|split; [simpl; congruence|simpl; congruence]]. constructor; auto.
    unfold m_span in *. injection G1 as G1 G8. injection S1 as S1 S6. unfold located. rewrite G1, G8, G3, G5, G6, G7, S1, S2, S3, S4, S5, S6. repeat split; auto; lia.
Qed.
Lemma produced_visible p t : parents_only p -> forall f occ oss rs j, Forall2 same_occurrence f occ -> Forall2i (produces p) j occ oss ->
  map m_span rs = map m_span f -> map m_index rs = seq j (length rs) ->
  Forall (fun m => advances t m /\ m_rawstart m = None /\ m_end m <= zlen t /\ m_parent m = None /\ mtrue m = true) f ->
  Forall (located t) (concat oss) /\ Forall (fun m => Forall (fun c => m_parent c <> None) (m_children m)) (concat oss)
  /\ exists sub, subseq sub rs /\ Forall2 agrees (concat oss) sub.
Proof.
  intros (C1 & C2 & C3). induction f as [|o f IH]; intros occ oss rs j F G Sp Ix A.
  - inversion F; subst. inversion G; subst. destruct rs; [|discriminate]. repeat split; try constructor. exists []. split; constructor.
  - inversion F as [|? a ? occ' F1 F2]; subst. inversion G as [|? ? os ? oss' G1 G2]; subst. inversion A as [|? ? A1 A2]; subst.
    destruct rs as [|r rs]; [discriminate|]. simpl in Sp, Ix. injection Sp as Sp1 Sp2 Sp3. injection Ix as Ix1 Ix2.
    destruct (IH _ _ rs (S j) F2 G2 Sp3 Ix2 A2) as (I1 & I2 & sub & I3 & I4).
    destruct G1 as (P & [(T1 & _ & _ & _ & _ & T2 & _ & _ & _ & T3 & T4) T5 _ _ _] & P2 & P3 & P4). cbn [concat].
    assert (os = [] \/ os = [P]) as [-> | ->].
    { cbv zeta in P4. destruct P4 as [(_ & _ & ->)|(_ & ->)]; [|auto]. unfold chosen. rewrite C1, C2, C3. simpl. destruct (negb (ignored p P)); auto. }
    + split; [exact I1|]. split; [exact I2|]. exists sub. split; [now apply sub_skip|exact I4].
    + destruct A1 as ((B1 & B3 & B4) & B5 & B6 & B7 & B8).
      apply same_occurrence_len in F1 as (L & S1 & _ & _ & _ & _ & _ & _ & _ & S2 & S3 & S4 & _ & S5).
      unfold m_span in T1, S1. injection T1 as T1 T6. injection S1 as S1 S6. cbn [app]. split; [|split].
      * constructor; auto. unfold located. rewrite T1, T2, T3, T4, T6, S1, S2, S3, S4, S6. repeat split; auto; lia.
      * constructor; auto. clear - P3. induction P3 as [|x y l l' [_ E] _ IH]; constructor; auto. congruence.
      * exists (r :: sub). split; [now apply sub_take|]. constructor; auto. unfold agrees, m_span. rewrite T1, T6, S1, S6, T5, Ix1, Sp1, Sp2. auto.
Qed.

(** Such patterns, used as parts, are ordinary *)
Theorem C44_patterns_ordinary : forall p src rstart rend hidden, no_processor p -> parents_only p -> orderly_source src ->
  ordinary (CPart (pattern_matches p src) rstart rend hidden).
Proof.
  intros p src rstart rend hidden N PO S. pose proof (orderly_sound S) as S0. split; cbn [cp_match].
  2:{ intros n t H. apply pattern_error in H; auto. tauto. }
  intros n t n' ms raws H. destruct (raws_found N H) as (found & rawss & F & -> & Q).
  destruct (C41_all_or_nothing N H) as (found' & occs & outss & F' & B & D & ->).
  destruct (orderly_found S F) as (f & -> & A1 & A2). destruct (orderly_found S F') as (f' & -> & _).
  assert (f' = f) as ->.
  { clear - F F'. destruct src; cbn [finds] in *; inversion F; inversion F'; subst; congruence. }
  pose proof (found_advances S0 F) as A3. simpl in A3. rewrite app_nil_r in A3.
  assert (Forall (fun m => advances t m /\ m_rawstart m = None /\ m_end m <= zlen t /\ m_parent m = None /\ mtrue m = true) f) as A.
  { rewrite Forall_forall in *. intros m Hm. destruct (A1 m Hm) as (? & ? & ?). destruct (A3 m Hm) as (? & ? & ?). repeat split; auto; apply H3. }
  inversion Q as [|? rs ? ? (occ & Q1 & Q2) Q3]; subst. inversion Q3; subst. 
  inversion B as [|? occ' ? ? B1 B2]; subst. inversion B2; subst. inversion D as [|? os ? ? (oss & D1 & ->) D2]; subst. inversion D2; subst.
  simpl. rewrite !app_nil_r. destruct (raws_numbered Q1 Q2 A) as (R1 & R2 & R3).
  destruct (produced_visible PO B1 D1 R3 R2 A) as (V1 & V2 & V3).
  constructor; auto. apply sorted_spans. rewrite R3. now apply sorted_spans.
Qed.

(** In a steady chain of ordinary parts, every match is composed of its parts, each found where it is
    placed and adjacent to the previous one.  Missing: chains whose attempts can fail after several
    visible pieces, for which the claim is false (C44_stale_text_refuted). *)
Theorem C44_pieces_in_place_partial : forall fuel p breaker parts n input n' ms M, Forall ordinary parts -> steady parts ->
  chain_match fuel p breaker parts n input = Ok (n', ms) -> In M ms -> composed input parts M.
Proof.
  intros fuel p breaker parts n input n' ms M O S H Hm. unfold chain_match in H.
  apply chain_loop_composed in H; auto; [rewrite Forall_forall in H; auto|lia|].
  unfold from, py_slice, py_clip. simpl. rewrite Z.min_l by apply zlen_nonneg. simpl. rewrite firstn_all2; [reflexivity|unfold zlen; lia].
Qed.

(** *** Examples.  The regular expression [...] of one character of a set *)
Fixpoint scan (set : pstr) (i : Z) (t : pstr) : list occurrence :=
  match t with
  | [] => []
  | c :: r => (if char_in c set then [Occurrence (i, i + 1) []] else []) ++ scan set (i + 1) r
  end.
Definition char_rx (set : pstr) : regex := Regex [] (scan set 0).
Lemma scan_spec set : forall t i, Forall (fun o => i <= fst (oc_span o) /\ snd (oc_span o) = fst (oc_span o) + 1 /\ snd (oc_span o) <= i + zlen t /\ oc_groups o = []) (scan set i t)
  /\ left_to_right (map oc_span (scan set i t)).
Proof.
  induction t as [|c t IH]; intro i; cbn [scan]; [split; constructor|]. destruct (IH (i + 1)) as [I1 I2]. rewrite zlen_cons. pose proof (zlen_nonneg t) as Z0.
  assert (Forall (fun o => i <= fst (oc_span o) /\ snd (oc_span o) = fst (oc_span o) + 1 /\ snd (oc_span o) <= i + (1 + zlen t) /\ oc_groups o = []) (scan set (i + 1) t)) as I3.
  { eapply Forall_impl; [|exact I1]. cbv beta. unfold pstr, char in *. intros o (H1 & H2 & H3 & H4). repeat split; auto; lia. }
  destruct (char_in c set); [|split; auto]. split.
  - constructor; [|exact I3]. cbn [oc_span oc_groups fst snd]. repeat split; try lia.
  - constructor; [exact I2|]. apply Forall_forall. intros sp Hsp. apply in_map_iff in Hsp as (o & <- & Ho). rewrite Forall_forall in I1. destruct (I1 o Ho). cbn [fst snd oc_span]. lia.
Qed.
Lemma char_rx_orderly set : orderly_source (SRegex false [char_rx set]).
Proof.
  intro t. destruct (scan_spec set t 0) as [S1 S2]. split; [|exact S2]. unfold engine_ok. eapply Forall_impl; [|exact S1].
  intros o (H1 & H2 & H3 & H4). rewrite H4. unfold span_ok. split; [lia|]. split; [reflexivity|constructor].
Qed.
Definition char_part (id : nat) (set : String.string) (rep : Z * option Z) (hidden : bool) : cpart :=
  CPart (pattern_matches (default_pattern id no_opts) (SRegex false [char_rx (s set)])) (fst rep) (snd rep) hidden.
Lemma char_part_ordinary id set rep hidden : ordinary (char_part id set rep hidden).
Proof. apply C44_patterns_ordinary; [repeat split|repeat split|apply char_rx_orderly]. Qed.
Lemma char_part_proper id set rep hidden : proper (char_part id set rep hidden) /\ convergent (char_part id set rep hidden).
Proof. apply C43_patterns_qualify; [repeat split|apply orderly_sound, char_rx_orderly]. Qed.

Definition chain_opts : popts := default_pattern 100 no_opts.
Definition spans_of (r : res (nat * list mtch)) : list (Z * Z * list (Z * Z)) :=
  match r with Ok (_, ms) => map (fun m => (m_span m, map m_span (m_children m))) ms | Err _ => [] end.

(** the chain  a b* c?  is steady and made of ordinary parts; its matches in "xabbcabz" *)
Definition abc_chain : list cpart := [char_part 1 "a" (1, Some 1) false; char_part 2 "b" (0, None) false; char_part 3 "c" (0, Some 1) false].
Example C44_example : Forall ordinary abc_chain /\ steady abc_chain
  /\ spans_of (chain_match 20 chain_opts None abc_chain 0 (s "xabbcabz"))
     = [((1, 5), [(1, 2); (2, 3); (3, 4); (4, 5)]); ((5, 7), [(5, 6); (6, 7)])].
Proof.
  split; [repeat (apply Forall_cons; [apply char_part_ordinary|]); constructor|]. split; [|vm_compute; reflexivity].
  simpl. split; [repeat constructor; unfold optional; simpl; lia|]. left. unfold optional. simpl. lia.
Qed.
Example C43_example : Forall proper abc_chain /\ Forall convergent abc_chain.
Proof. split; repeat (apply Forall_cons; [apply char_part_proper|]); constructor. Qed.

(** The chain  a [ab] c  on "abdac": the second attempt is made on the text "dac" left by the first
    failure but placed one character too far to the left: the match "dac" is reported, in which the piece
    of the part  a  is "d" *)
Definition aab_chain : list cpart := [char_part 1 "a" (1, Some 1) false; char_part 2 "ab" (1, Some 1) false; char_part 3 "c" (1, Some 1) false].
Theorem C44_stale_text_refuted : exists n' M outs raws f,
  chain_matches 20 chain_opts None aab_chain 0%nat (s "abdac") = Ok (n', (outs, raws)) /\ In M outs /\ m_raw M = VStr (s "dac")
  /\ hd_error (m_children M) = Some f /\ m_pattern f = Some 1%nat /\ m_raw f = VStr (s "d").
Proof. do 5 eexists. split; [vm_compute; reflexivity|]. split; [left; reflexivity|]. vm_compute. auto. Qed.
(** and for the same reason a chain is missed: "abc" in "abdabc" *)
Theorem C44_missed_refuted : 
  (exists n' outs raws, chain_matches 20 chain_opts None aab_chain 0%nat (s "abdabc") = Ok (n', (outs, raws)) /\ outs = [])
  /\ (exists n' M outs raws, chain_matches 20 chain_opts None aab_chain 0%nat (s "abc") = Ok (n', (outs, raws)) /\ In M outs /\ m_raw M = VStr (s "abc")).
Proof.
  split; [do 3 eexists; split; [vm_compute; reflexivity|reflexivity]|].
  do 4 eexists. split; [vm_compute; reflexivity|]. split; [left; reflexivity|]. vm_compute. auto.
Qed.

(** A part whose matches carry an explicit raw end (set by a match processor): the search never ends *)
Definition with_raw_end (m : mtch) : mtch :=
  Mtch (m_id m) (m_start m) (m_end m) (m_lit m) (m_name m) (m_tags m) (m_marker m) (m_private m) (m_fmt m) (m_solver m) (m_input m)
       (m_rawstart m) (Some (m_end m)) (m_index m) (m_pattern m) (m_parent m) (m_children m).
Definition raw_end_pattern : popts :=
  new_pattern 1 no_opts DNone DNone DNone false false false false [] [] false false None (Some (fun m => (with_raw_end m, Keep))) None.
Definition raw_end_part : cpart :=
  CPart (pattern_matches raw_end_pattern (SString (fun t => t) (StringOpts None None false) [s "ab"])) 1 (Some 1) false.
Theorem C43_explicit_raw_end_refuted : forall fuel, chain_match fuel chain_opts None [raw_end_part] 0 (s "abab") = Err Diverges.
Proof.
  assert (forall fuel n acc, chain_loop fuel chain_opts None [raw_end_part] (s "abab") n (s "ab") 2 acc = Err Diverges) as L.
  { induction fuel as [|f IH]; intros n acc; cbn [chain_loop]; [reflexivity|].
    change (2 <? zlen (s "abab")) with true. cbv iota.
    assert (exists m n', run_parts None (s "abab") true [raw_end_part] (CState n false (s "ab") 2 []) = Ok (CState n' true (s "ab") 2 [m], true)
            /\ forall id, exists M, build_chain_match chain_opts id [m] (s "abab") = Ok M) as (m & n' & -> & B).
    { do 2 eexists. split; [vm_compute; reflexivity|]. intro id. eexists. vm_compute. reflexivity. }
    cbn [cs_found negb cs_current cs_next cs_text cs_offset]. destruct (B n') as (M & ->). apply IH. }
  intros [|f]; [reflexivity|]. unfold chain_match. cbn [chain_loop]. change (0 <? zlen (s "abab")) with true. cbv iota.
  assert (exists m n', run_parts None (s "abab") true [raw_end_part] (CState 0 false (s "abab") 0 []) = Ok (CState n' true (s "ab") 2 [m], true)
            /\ forall id, exists M, build_chain_match chain_opts id [m] (s "abab") = Ok M) as (m & n' & -> & B).
  { do 2 eexists. split; [vm_compute; reflexivity|]. intro id. eexists. vm_compute. reflexivity. }
  cbn [cs_found negb cs_current cs_next cs_text cs_offset]. destruct (B n') as (M & ->). apply L.
Qed.

(** ** C45 *)
(** of the occurrences [all] of a part, the [k] first ones are its repetitions: adjacent to each other and (unless
    the part is the first of the chain) to what precedes, no more than the upper bound, and as many as possible *)
Definition repetitions (first : bool) (upper : option Z) (all : list mtch) (k : nat) : Prop :=
  (k <= length all)%nat /\ (forall z, upper = Some z -> Z.of_nat k <= Z.max 0 z)
  /\ exists a e, (first = false \/ k = 0%nat -> a = 0) /\ tile a (firstn k all) e
     /\ ((exists z, upper = Some z /\ z <= Z.of_nat k) \/ k = length all
         \/ exists m, nth_error all k = Some m /\ (first = false \/ k <> 0%nat) /\ m_start m <> e).

Lemma tile_end_fun : forall l a e a' e', tile a l e -> tile a' l e' -> (l = [] -> a = a') -> e = e'.
Proof.
  induction l as [|m l IH]; intros a e a' e' H K N; simpl in *; [rewrite <- H, <- K; auto|].
  destruct H as [_ H], K as [_ K]. exact (IH _ _ _ _ H K (fun _ => eq_refl)).
Qed.
Lemma repetitions_le first upper all k k' : repetitions first upper all k -> repetitions first upper all k' -> (k < k')%nat -> False.
Proof.
  intros (A1 & A2 & a & e & A3 & A4 & A5) (B1 & B2 & a' & e' & B3 & B4 & _) L.
  destruct A5 as [(z & Z1 & Z2)|[->|(m & M1 & M2 & M3)]]; [specialize (B2 z Z1); lia|lia|].
  destruct (@tile_firstn (firstn k' all) a' e' k B4) as (e1 & T1 & T2 & _). rewrite firstn_firstn, Nat.min_l in T1 by lia.
  destruct T2 as (m' & N1 & N2); [rewrite firstn_length_le; lia|].
  assert (nth_error (firstn k' all) k = nth_error all k) as X.
  { rewrite <- (firstn_skipn k' all) at 2. rewrite nth_error_app1; [reflexivity|rewrite firstn_length_le; lia]. }
  rewrite X, M1 in N1. injection N1 as <-. apply M3. rewrite N2. symmetry. eapply tile_end_fun; [exact A4|exact T1|].
  intro E. apply (f_equal (@length _)) in E. rewrite firstn_length_le in E by lia. simpl in E. rewrite A3, B3; auto. destruct M2; [auto|congruence].
Qed.
Lemma repetitions_fun first upper all k k' : repetitions first upper all k -> repetitions first upper all k' -> k = k'.
Proof.
  intros H K. destruct (lt_eq_lt_dec k k') as [[L|L]|L]; [exfalso|exact L|exfalso]; eapply repetitions_le; [exact H|exact K|exact L|exact K|exact H|exact L].
Qed.

(** A part keeps exactly its repetitions if they are at least as many as the lower bound, and the attempt is
    abandoned otherwise *)
Theorem C45_repetitions_partial : forall first cp n t n' outs all, ordinary cp -> cp_match cp n t = Ok (n', (outs, all)) ->
  exists k, (forall k', repetitions first (cp_end cp) all k' <-> k' = k)
    /\ (cp_start cp <= Z.of_nat k -> exists ms, part_matches first cp n t = Ok (n', (ms, firstn k all)))
    /\ (Z.of_nat k < cp_start cp -> part_matches first cp n t = Err InvalidChain).
Proof.
  intros first cp n t n' outs all O E. pose proof (proj1 O _ _ _ _ _ E) as [[L1 L2] Or Ix _ _].
  destruct (@truncate_run first (cp_end cp) all t L2 Or Ix) as (k & a & e & K1 & K2 & K3 & K4 & K5 & K6 & K7).
  exists k. split.
  - assert (repetitions first (cp_end cp) all k) as R by (split; [exact K2|]; split; [exact K6|]; exists a, e; auto).
    intro k'. split; [intro; eapply repetitions_fun; eauto|intros ->; exact R].
  - unfold part_matches. rewrite E, K1.
    assert (validate_repeater (cp_start cp) (firstn k all) = true <-> cp_start cp <= Z.of_nat k) as V.
    { split; [intro; eapply validate_count; eauto|]. intro H. unfold validate_repeater. rewrite negb_true_iff, Z.ltb_ge.
      rewrite (@fold_max_seq (firstn k all) 0 (-1)); [|rewrite firstn_length_le by exact K2; rewrite <- firstn_map, Ix, firstn_seq; f_equal; lia|lia].
      rewrite firstn_length_le by exact K2. destruct (firstn k all) eqn:Ef; [|lia].
      apply (f_equal (@length _)) in Ef. rewrite firstn_length_le in Ef by exact K2. simpl in Ef. lia. }
    destruct (validate_repeater _ _) eqn:Ev; split; intro H; eauto.
    + destruct V as [V _]. specialize (V eq_refl). lia.
    + apply V in H. discriminate.
Qed.
(** [composed] (C44) tells the same of the chain: each part is repeated within its bounds *)
Theorem C45_chain_partial : forall fuel p breaker parts n input n' ms M, Forall ordinary parts -> steady parts ->
  chain_match fuel p breaker parts n input = Ok (n', ms) -> In M ms ->
  exists pieces, Forall2 (fun cp ps => cp_start cp <= zlen ps /\ forall k, cp_end cp = Some k -> zlen ps <= Z.max 0 k) parts pieces
    /\ exists vs, among vs (shown parts pieces) /\ vs <> []
    /\ Forall2 (fun v c => set_parent c None = set_parent v None) (flat_map (fun v => m_children v ++ [v]) vs) (m_children M).
Proof.
  intros fuel p breaker parts n input n' ms M O S H Hm. destruct (C44_pieces_in_place_partial O S H Hm) as (b & pieces & e & vs & f & l & _ & L & A & V1 & _ & _ & _ & C).
  exists pieces. split.
  - clear - L. induction L as [|first cp parts b pieces e' rest e R L IH]; constructor; auto. destruct R as [_ _ R1 R2]. auto.
  - exists vs. split; [exact A|]. split; [intros ->; discriminate|exact C].
Qed.

(** A part with two alternatives, "a" and "b", to be found once: both are kept in "ab", since each
    alternative numbers its own occurrences from 0 *)
Definition ab_part : cpart :=
  CPart (pattern_matches (default_pattern 1 no_opts) (SString (fun t => t) (StringOpts None None false) [s "a"; s "b"])) 1 (Some 1) false.
Theorem C45_alternatives_refuted : exists n' ms raws,
  part_matches true ab_part 0 (s "ab") = Ok (n', (ms, raws)) /\ cp_end ab_part = Some 1 /\ map m_span raws = [(0, 1); (1, 2)] /\ map m_span ms = [(0, 1); (1, 2)].
Proof. do 3 eexists. split; [vm_compute; reflexivity|]. split; [reflexivity|]. split; reflexivity. Qed.

Example C45_example : exists n' ms raws, part_matches false (char_part 1 "b" (1, Some 2) false) 0 (s "bbbb") = Ok (n', (ms, raws)) /\ map m_span raws = [(0, 1); (1, 2)].
Proof. do 3 eexists. split; [vm_compute; reflexivity|reflexivity]. Qed.

(** ** C46 *)
(** the decimal writing of a natural number *)
Fixpoint decimal_n (fuel : nat) (n : nat) : pstr :=
  match fuel with
  | O => []
  | S f => (if Nat.ltb n 10 then [] else decimal_n f (n / 10)) ++ [N.of_nat (48 + n mod 10)]
  end.
Definition decimal (n : nat) : pstr := decimal_n (S n) n.
Example decimal_example : decimal 0 = s "0" /\ decimal 1207 = s "1207". Proof. split; vm_compute; reflexivity. Qed.

Lemma is_digit_of_nat k : (k < 10)%nat -> is_digit (N.of_nat (48 + k)) = true.
Proof. intro H. unfold is_digit. apply andb_true_iff. split; apply N.leb_le; lia. Qed.
Lemma decimal_n_spec : forall f n, (n < f)%nat -> Forall (fun c => is_digit c = true) (decimal_n f n) /\ decimal_n f n <> [] /\ dec (decimal_n f n) = Z.of_nat n.
Proof.
  induction f as [|f IH]; intros n H; [lia|]. cbn [decimal_n].
  assert (n mod 10 < 10)%nat as M by (apply Nat.mod_upper_bound; lia).
  assert (forall l, dec (l ++ [N.of_nat (48 + n mod 10)]) = 10 * dec l + Z.of_nat (n mod 10)) as D.
  { intro l. unfold dec. rewrite fold_left_app. cbn [fold_left]. rewrite nat_N_Z. lia. }
  rewrite D. split; [|split; [destruct (Nat.ltb n 10); [discriminate|destruct (decimal_n f (n / 10)); discriminate]|]].
  - apply Forall_app. split; [|constructor; [apply is_digit_of_nat; exact M|constructor]]. destruct (Nat.ltb_spec n 10); [constructor|].
    apply IH. assert (n / 10 < n)%nat by (apply Nat.div_lt; lia). lia.
  - pose proof (Nat.div_mod n 10 ltac:(lia)) as DM. destruct (Nat.ltb_spec n 10) as [L|L].
    + rewrite Nat.mod_small by exact L. reflexivity.
    + destruct (IH (n / 10)%nat) as (_ & _ & ->); [assert (n / 10 < n)%nat by (apply Nat.div_lt; lia); lia|]. lia.
Qed.
Lemma decimal_spec n : Forall (fun c => is_digit c = true) (decimal n) /\ decimal n <> [] /\ dec (decimal n) = Z.of_nat n.
Proof. apply decimal_n_spec. lia. Qed.

Lemma take_digits_app : forall d r, Forall (fun c => is_digit c = true) d -> (forall c r', r = c :: r' -> is_digit c = false) -> take_digits (d ++ r) = (d, r).
Proof.
  induction d as [|c d IH]; intros r F N; simpl.
  - destruct r as [|c r]; [reflexivity|]. simpl. now rewrite (N c r eq_refl).
  - inversion F; subst. rewrite H1, IH; auto.
Qed.
Lemma digit_not_space c : is_digit c = true -> is_space c = false.
Proof.
  unfold is_digit, is_space. rewrite andb_true_iff, N.leb_le, N.leb_le. intros [A B].
  apply orb_false_iff. split; apply andb_false_iff; [right|right]; apply N.leb_gt; lia.
Qed.
Lemma skip_digits d r : Forall (fun c => is_digit c = true) d -> d <> [] -> skip_spaces (d ++ r) = d ++ r.
Proof. intros F N. destruct d as [|c d]; [congruence|]. inversion F; subst. simpl. now rewrite (digit_not_space H1). Qed.
Definition blank (w : pstr) : Prop := Forall (fun c => is_space c = true) w.
Lemma skip_blank w r : blank w -> skip_spaces (w ++ r) = skip_spaces r.
Proof. induction 1 as [|c w H B IH]; simpl; [reflexivity|]. now rewrite H. Qed.
Lemma space_not_digit c : is_space c = true -> is_digit c = false.
Proof. destruct (is_digit c) eqn:E; auto. apply digit_not_space in E. congruence. Qed.
Lemma take_digits_stop d w c r : Forall (fun c => is_digit c = true) d -> blank w -> is_digit c = false ->
  take_digits (d ++ w ++ c :: r) = (d, w ++ c :: r).
Proof.
  intros D W C. apply take_digits_app; auto. intros c' r' E. destruct W as [|x w X W]; simpl in E; injection E as <- _; auto. now apply space_not_digit.
Qed.

Lemma take_number_cons c r : take_number (c :: r) =
  if is_digit c then let '(d, r') := take_number (match r with [] => r | u :: r2 => if N.eqb u 95 && begins_digit r2 then r2 else r end) in (c :: d, r')
  else ([], c :: r).
Proof. reflexivity. Qed.
Lemma take_number_digits (d : pstr) : Forall (fun c => is_digit c = true) d -> take_number d = (d, []).
Proof.
  induction 1 as [|c d C D IH]; [reflexivity|]. rewrite take_number_cons, C.
  destruct D as [|u r2 U D']; [reflexivity|]. assert (N.eqb u 95 = false) as Eu by (destruct (N.eqb_spec u 95); [subst; discriminate U|reflexivity]).
  rewrite Eu. cbn [andb].
  rewrite IH. reflexivity.
Qed.
Lemma py_int_unsigned (c : char) (r : pstr) : is_digit c = true -> skip_spaces (c :: r) = c :: r -> take_number (c :: r) = (c :: r, []) ->
  py_int (c :: r) = Some (dec (c :: r)).
Proof.
  intros C K T. unfold py_int. rewrite K. cbv zeta. clear K. unfold is_digit in C. apply andb_true_iff in C as [C1 C2]. apply N.leb_le in C1, C2.
  assert (c = 48 \/ c = 49 \/ c = 50 \/ c = 51 \/ c = 52 \/ c = 53 \/ c = 54 \/ c = 55 \/ c = 56 \/ c = 57)%N as D by (unfold char in *; lia).
  clear C1 C2. repeat (destruct D as [-> | D]); try subst c; cbv iota; rewrite T; reflexivity.
Qed.
(** [repeater(n)] and [repeater("n")] *)
Theorem C46_number : forall (z : Z) (n : nat) old,
  repeater (RInt z) old = (z, Some z) /\ repeater (RStr (decimal n)) old = (Z.of_nat n, Some (Z.of_nat n))
  /\ repeater (RStr (45%N :: decimal n)) old = (- Z.of_nat n, Some (- Z.of_nat n)).
Proof.
  intros z n old. split; [reflexivity|]. destruct (decimal_spec n) as (D1 & D2 & D3). 
  assert (py_int (decimal n) = Some (Z.of_nat n) /\ py_int (45%N :: decimal n) = Some (- Z.of_nat n)) as [P1 P2].
  { pose proof (@skip_digits (decimal n) [] D1 D2) as SD. pose proof (@take_number_digits (decimal n) D1) as T. rewrite app_nil_r in SD. split.
    - rewrite <- D3. destruct (decimal n) as [|c r] eqn:E; [congruence|]. apply py_int_unsigned; auto. inversion D1; auto.
    - unfold py_int. change (skip_spaces (45%N :: decimal n)) with (45%N :: decimal n). cbv iota zeta. rewrite T. destruct (decimal n); [congruence|]. simpl skip_spaces. cbv iota. now rewrite D3. }
  unfold repeater. rewrite P1, P2. auto.
Qed.
(** '?', '*', '+' *)
Theorem C46_symbols : forall old, repeater (RStr (s "?")) old = (0, Some 1) /\ repeater (RStr (s "*")) old = (0, None) /\ repeater (RStr (s "+")) old = (1, None).
Proof. intros [a b]. repeat split. Qed.

(** '{a,b}', '{a,}', '{,b}', with any spaces: the ranges a..b, a.., 0..b *)
Definition braces (w1 : pstr) (a : option nat) (w2 w3 : pstr) (b : option nat) (w4 : pstr) : pstr :=
  s "{" ++ w1 ++ (match a with Some a => decimal a | None => [] end) ++ w2 ++ s "," ++ w3
        ++ (match b with Some b => decimal b | None => [] end) ++ w4 ++ s "}".
Lemma match_braces_eq w1 a w2 w3 b w4 : blank w1 -> blank w2 -> blank w3 -> blank w4 ->
  match_braces (braces w1 a w2 w3 b w4) = Some (match a with Some a => decimal a | None => [] end, match b with Some b => decimal b | None => [] end).
Proof.
  intros W1 W2 W3 W4. unfold braces. set (da := match a with Some a => decimal a | None => [] end). set (db := match b with Some b => decimal b | None => [] end).
  assert (Forall (fun c => is_digit c = true) da) as Da by (unfold da; destruct a as [a|]; [apply decimal_spec|constructor]).
  assert (Forall (fun c => is_digit c = true) db) as Db by (unfold db; destruct b as [b|]; [apply decimal_spec|constructor]).
  assert (forall w, blank w -> forall d r, Forall (fun c => is_digit c = true) d -> (d = [] -> forall c r', r = c :: r' -> is_space c = false) -> skip_spaces (w ++ d ++ r) = d ++ r) as SK.
  { intros w W d r D N. rewrite skip_blank by exact W. destruct d as [|c d]; [|apply skip_digits; [exact D|discriminate]].
    simpl. destruct r as [|c r]; [reflexivity|]. simpl. now rewrite (N eq_refl c r eq_refl). }
  change (s "{" ++ ?x) with (123%N :: x). cbn [match_braces]. change (s "," ++ ?x) with (44%N :: x). change (s "}") with [125%N].
  assert (forall d w w' c r, Forall (fun c => is_digit c = true) d -> blank w -> blank w' -> is_digit c = false -> is_space c = false ->
    take_digits (skip_spaces (w ++ d ++ w' ++ c :: r)) = (d, (match d with [] => [] | _ => w' end) ++ c :: r)) as TD.
  { intros d w w' c r D W W' C1 C2. rewrite skip_blank by exact W. destruct d as [|x d].
    - simpl app. rewrite skip_blank by exact W'. simpl. rewrite C2. simpl. now rewrite C1.
    - rewrite skip_digits by (auto; discriminate). now apply take_digits_stop. }
  change (skip_spaces (w1 ++ da ++ w2 ++ s "," ++ w3 ++ db ++ w4 ++ [125%N])) with (skip_spaces (w1 ++ da ++ w2 ++ 44%N :: w3 ++ db ++ w4 ++ [125%N])).
  rewrite TD by auto.
  assert (forall (d w : pstr) c r, blank w -> is_space c = false -> skip_spaces ((match d with [] => [] | _ => w end) ++ c :: r) = c :: r) as SB.
  { intros d w c r W C. destruct d; [simpl; now rewrite C|]. rewrite skip_blank by exact W. simpl. now rewrite C. }
  rewrite SB by auto. rewrite TD by auto. rewrite SB by auto. reflexivity.
Qed.
Lemma py_int_braces r : py_int (123%N :: r) = None.
Proof. reflexivity. Qed.
Theorem C46_braces_partial : forall w1 w2 w3 w4 a b old, blank w1 -> blank w2 -> blank w3 -> blank w4 ->
  repeater (RStr (braces w1 (Some a) w2 w3 (Some b) w4)) old = (Z.of_nat a, Some (Z.of_nat b))
  /\ repeater (RStr (braces w1 (Some a) w2 w3 None w4)) old = (Z.of_nat a, None)
  /\ repeater (RStr (braces w1 None w2 w3 (Some b) w4)) old = (0, Some (Z.of_nat b)).
Proof.
  assert (forall w1 a w2 w3 b w4 old, blank w1 -> blank w2 -> blank w3 -> blank w4 -> (a <> None \/ b <> None) ->
    repeater (RStr (braces w1 a w2 w3 b w4)) old = (match a with Some a => Z.of_nat a | None => 0 end, match b with Some b => Some (Z.of_nat b) | None => None end)) as X.
  { intros w1 a w2 w3 b w4 old W1 W2 W3 W4 N. unfold repeater. rewrite (@match_braces_eq w1 a w2 w3 b w4) by auto.
    assert (exists r, braces w1 a w2 w3 b w4 = 123%N :: r) as (r & Er) by (eexists; reflexivity). rewrite Er, py_int_braces.
    unfold str_is. change (pstr_eqb (123%N :: r) [43%N]) with false. change (pstr_eqb (123%N :: r) [42%N]) with false. change (pstr_eqb (123%N :: r) [63%N]) with false. cbv iota.
    destruct a as [a|], b as [b|]; try (destruct N; congruence);
      repeat match goal with |- context [decimal ?k] => let H := fresh in pose proof (decimal_spec k) as (_ & H & <-); destruct (decimal k); [congruence|] end; reflexivity. }
  intros. repeat split; apply X; auto; try (left; discriminate); right; discriminate.
Qed.
(** '{a}' is read as '{a,}': no upper bound *)
Theorem C46_exact_count_refuted : forall old, repeater (RStr (s "{3}")) old = (3, None).
Proof. reflexivity. Qed.
(** '{3 5}' without a comma is read as '{3,5}', and '{,}' and any unknown writing change nothing *)
Theorem C46_no_comma_refuted : forall old, repeater (RStr (s "{3 5}")) old = (3, Some 5) /\ repeater (RStr (s "{,}")) old = old /\ repeater (RStr (s "many")) old = old.
Proof. intros [a b]. repeat split. Qed.
Example C46_example : forall old, repeater (RStr (s "{2, 14}")) old = (2, Some 14) /\ repeater (RStr (s " 12")) old = (12, Some 12) /\ repeater (RInt 3) old = (3, Some 3).
Proof. intros [a b]. repeat split. Qed.

Print Assumptions C43_explicit_raw_end_refuted.
Print Assumptions C44_patterns_ordinary.
Print Assumptions C44_pieces_in_place_partial.
Print Assumptions C44_stale_text_refuted.
Print Assumptions C44_missed_refuted.
Print Assumptions C45_repetitions_partial.
Print Assumptions C45_chain_partial.
Print Assumptions C45_alternatives_refuted.
Print Assumptions C46_number.
Print Assumptions C46_symbols.
Print Assumptions C46_braces_partial.
