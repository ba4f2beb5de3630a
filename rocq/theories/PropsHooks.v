(** * C132: the processors of a pattern *)
From Verif Require Import Base BaseFacts Match Coll Loose MatchFacts Pattern PatternFacts PropsLoose PropsPattern.
Set Implicit Arguments.
Unset Strict Implicit.
Open Scope Z_scope.

(** ** Specification *)
(** what becomes of a match given to a processor: nothing more is done with it, the work goes on
    with the same match as the processor left it, or with another match *)
Inductive turn := Stop | Same (m : mtch) | Other (m : mtch).
Inductive answers (f : option processor) (m : mtch) : turn -> Prop :=
| not_given : f = None -> answers f m (Same m)
| returns_None g m' : f = Some g -> g m = (m', Keep) -> answers f m (Same m')
| returns_match g m' r : f = Some g -> g m = (m', Replace r) -> answers f m (Other r)
| returns_falsy g m' : f = Some g -> g m = (m', Drop) -> answers f m Stop.
(** a match without characters is falsy *)
Definition halts (f : option processor) (m : mtch) : Prop :=
  answers f m Stop \/ exists x, (answers f m (Same x) \/ answers f m (Other x)) /\ mlen x = 0.

(** [m] configured, with its children *)
Definition configured_as (p : popts) (i : nat) (m P : mtch) : Prop :=
  settings p i false m P /\ m_id P = m_id m /\ m_parent P = None
  /\ Forall2 (fun c c' => settings p i true c c' /\ m_id c' = m_id c /\ m_parent c' = Some (shell P) /\ m_children c' = m_children c)
       (m_children m) (m_children P).
Definition passes (p : popts) (m P : mtch) : Prop :=
  accepted p false (set_children P (m_children m)) /\ Forall (accepted p true) (m_children P).
(** [m'] is [m] whose children see the parent as it is now *)
Definition seen_again (m m' : mtch) : Prop :=
  exists cs, m' = set_children m cs /\ Forall2 (fun c c' => exists q, c' = set_parent c q) (m_children m) cs
    /\ (family m -> Forall (fun c' => m_parent c' = Some (shell m)) cs).
(** what is produced once the first processor has been asked *)
Inductive worked_on (p : popts) (i : nat) (m1 : mtch) : list mtch -> Prop :=
| refused P : configured_as p i m1 P -> ~ passes p m1 P -> worked_on p i m1 []
| stopped_after P : configured_as p i m1 P -> passes p m1 P -> halts (po_post p) P -> worked_on p i m1 []
| kept P m4 m5 : configured_as p i m1 P -> passes p m1 P -> answers (po_post p) P (Same m4) -> 0 < mlen m4 -> seen_again m4 m5 ->
    worked_on p i m1 (chosen p m5)
| exchanged P m4 : configured_as p i m1 P -> passes p m1 P -> answers (po_post p) P (Other m4) -> 0 < mlen m4 ->
    worked_on p i m1 (chosen p m4).
(** what is produced for the [i]-th occurrence [m] of a sub-pattern *)
Inductive hooked (p : popts) (i : nat) (m : mtch) : list mtch -> Prop :=
| stopped_before : halts (po_pre p) m -> hooked p i m []
| worked m1 outs : (answers (po_pre p) m (Same m1) \/ answers (po_pre p) m (Other m1)) -> 0 < mlen m1 ->
    (family m1 -> worked_on p i m1 outs) -> hooked p i m outs.

(** ** Proofs *)
Lemma apply_answers f m raw x same : apply_processor f m = (raw, x, same) ->
  match x with
  | None => answers f m Stop
  | Some y => if same then answers f m (Same y) /\ y = raw else answers f m (Other y)
  end.
Proof.
  unfold apply_processor. destruct f as [g|].
  - destruct (g m) as [m' [| |r]] eqn:E; intro H; injection H as <- <- <-.
    + split; [eapply returns_None; [reflexivity | exact E] | reflexivity].
    + eapply returns_falsy; [reflexivity | exact E].
    + eapply returns_match; [reflexivity | exact E].
  - intro H. injection H as <- <- <-. split; [apply not_given; reflexivity | reflexivity].
Qed.
Lemma mbool_cases m b : mbool m = Ok b -> (b = true /\ 0 < mlen m) \/ (b = false /\ mlen m = 0).
Proof.
  unfold mbool. destruct (Z.ltb_spec (mlen m) 0); [discriminate|]. intro H0. injection H0 as <-. destruct (Z.eqb_spec (mlen m) 0); [right | left]; (split; [reflexivity | lia]).
Qed.
Lemma configured_as_is p i m : family m -> configured_as p i m (configured p i m).
Proof.
  intros [F1 F2]. split; [|split].
  - unfold configured. destruct (configure_settings p i false m None) as [A B C D E]. constructor; [exact A|exact B|exact C|exact D|exact E].
  - unfold configured; simpl. apply configure_id.
  - split; [unfold configured; simpl; now rewrite configure_parent|].
    unfold configured, configured_children. simpl. clear. induction (m_children m) as [|c r IH]; simpl; constructor; auto.
    split; [apply configure_settings|]. simpl. rewrite configure_id, configure_children. repeat split.
Qed.
Lemma mtch_fields m : m = Mtch (m_id m) (m_start m) (m_end m) (m_lit m) (m_name m) (m_tags m) (m_marker m) (m_private m) (m_fmt m)
  (m_solver m) (m_input m) (m_rawstart m) (m_rawend m) (m_index m) (m_pattern m) (m_parent m) (m_children m).
Proof. destruct m; reflexivity. Qed.
Lemma settings_same p i child m a b : settings p i child m a -> settings p i child m b ->
  m_id a = m_id b -> m_parent a = m_parent b -> m_children a = m_children b -> a = b.
Proof.
  intros [A1 A2 A3 (v & A4 & A5 & A6) [A7 A8]] [B1 B2 B3 (w & B4 & B5 & B6) [B7 B8]] E1 E2 E3.
  destruct A1 as (a1 & a2 & a3 & a4 & a5 & a6 & a7 & _ & _ & a8 & a9), B1 as (b1 & b2 & b3 & b4 & b5 & b6 & b7 & _ & _ & b8 & b9).
  assert (m_start a = m_start b /\ m_end a = m_end b) as [S1 S2] by (unfold m_span in *; split; congruence).
  assert (m_private a = m_private b) as S3 by (apply eq_true_iff_eq; rewrite A3, B3; reflexivity).
  assert (m_lit a = m_lit b) as S4.
  { pose proof (resolves_fun A4 B4) as <-. destruct (truthy v); [rewrite A5, B5 by reflexivity; reflexivity | rewrite A6, B6 by reflexivity; reflexivity]. }
  assert (m_fmt a = m_fmt b) as S5.
  { destruct (included p child || po_format_all p)%bool eqn:Q.
    - apply subject_included in Q. exact (resolves_fun (A7 Q) (B7 Q)).
    - assert (~ subject p child (po_format_all p)) as N by (intro X; apply subject_included in X; congruence). rewrite A8, B8 by exact N. reflexivity. }
  assert (m_name a = m_name b /\ m_tags a = m_tags b /\ m_marker a = m_marker b /\ m_solver a = m_solver b /\ m_input a = m_input b
          /\ m_pattern a = m_pattern b /\ m_rawstart a = m_rawstart b /\ m_rawend a = m_rawend b /\ m_index a = m_index b) as S6 by (repeat split; congruence).
  clear - E1 E2 E3 S1 S2 S3 S4 S5 S6. destruct S6 as (S6 & S7 & S8 & S9 & S10 & S11 & S12 & S13 & S14).
  rewrite (mtch_fields a), (mtch_fields b), E1, E2, E3, S1, S2, S3, S4, S5, S6, S7, S8, S9, S10, S11, S12, S13, S14. reflexivity.
Qed.
(** there is one configured match *)
Lemma configured_as_unique p i m P Q : configured_as p i m P -> configured_as p i m Q -> P = Q.
Proof.
  intros (A1 & A2 & A3 & A4) (B1 & B2 & B3 & B4).
  assert (shell P = shell Q) as Sh.
  { assert (forall X, settings p i false m X -> settings p i false m (shell X)) as K by (intros X [k1 k2 k3 k4 k5]; constructor; [exact k1|exact k2|exact k3|exact k4|exact k5]).
    apply (settings_same (K _ A1) (K _ B1)); [rewrite !shell_id; congruence | rewrite !shell_parent; congruence | reflexivity]. }
  apply (settings_same A1 B1); [congruence | congruence|]. rewrite <- Sh in B4. clear -A4 B4. revert B4. generalize (m_children Q) as l.
  induction A4 as [|c c' r r' (H1 & H2 & H3 & H4) A IH]; intros l B4; inversion B4 as [|? d ? l' (G1 & G2 & G3 & G4) B]; subst; [reflexivity|].
  f_equal; [|apply IH, B]. apply (settings_same H1 G1); congruence.
Qed.
Lemma passes_is p i m : (process_validator p (configure p i false m) false && valid_children p (configured_children p i m))%bool = true <-> passes p m (configured p i m).
Proof.
  assert (set_children (configured p i m) (m_children m) = configure p i false m) as E0.
  { unfold configured. rewrite <- (configure_children p i false m). destruct (configure p i false m); reflexivity. }
  unfold passes. rewrite E0, andb_true_iff, validator_accepted, valid_children_accepted. reflexivity.
Qed.
Lemma seen_again_relink m : seen_again m (relink_children m).
Proof.
  exists (map (relink (m :: m_children m)) (m_children m)). split; [reflexivity|]. split.
  - generalize (m :: m_children m). induction (m_children m) as [|c r IH]; intro objs; cbn [map]; constructor; [|apply IH]. eexists. reflexivity.
  - intros [F1 F2]. apply Forall_forall. intros c Hc. apply in_map_iff in Hc as (c0 & <- & Hc0). destruct (F2 c0 Hc0) as (q & Q1 & Q2 & Q3).
    rewrite (relink_own _ Q1 Q2 Q3 F1). reflexivity.
Qed.
Lemma process_matches_hooked p i m raw outs : process_matches p (process_match p) m i = Ok (raw, outs) -> hooked p i m outs.
Proof.
  unfold process_matches. destruct (apply_processor (po_pre p) m) as [[raw1 x] same] eqn:Ea. apply apply_answers in Ea.
  unfold stop_if_falsy at 1. destruct x as [m1|]; [|intro H; injection H as _ <-; apply stopped_before; left; exact Ea].
  assert (answers (po_pre p) m (Same m1) \/ answers (po_pre p) m (Other m1)) as A by (destruct same; [left; apply Ea | right; exact Ea]).
  destruct (mbool m1) as [b|e] eqn:Eb; [|discriminate]. destruct (mbool_cases Eb) as [[-> L]|[-> L]].
  2:{ intro H. injection H as _ <-. apply stopped_before. right. exists m1. split; assumption. }
  rewrite process_match_eq. set (P := configure p i false m1). intro H. apply worked with m1; [exact A | exact L|]. intro F. pose proof F as F'. destruct F' as [F1 F2].
  pose proof (configured_as_is p i F) as CA. pose proof (passes_is p i m1) as PI. fold P in PI.
  destruct (process_validator p P false) eqn:EP; cbn [negb] in H.
  2:{ injection H as _ <-. apply refused with (configured p i m1); [exact CA|]. rewrite <- PI. cbn. discriminate. }
  assert (m_parent P = None) as HP by (unfold P; now rewrite configure_parent).
  assert (m_children P = m_children m1) as HPc by (unfold P; now rewrite configure_children).
  assert (forall c, In c (m_children P) -> exists q, m_parent c = Some q /\ m_id q = m_id P /\ m_parent q = None) as HF.
  { rewrite HPc. intros c Hc. destruct (F2 c Hc) as (q & Q1 & Q2 & Q3). exists q. unfold P. rewrite configure_id. auto. }
  pose proof (@process_children_eq p i P HP (m_children P) [] HF) as HC. cbv zeta in HC. rewrite HPc in HC, H.
  change (map (fun c : mtch => set_parent (configure p i true c) (Some (shell P))) (m_children m1)) with (configured_children p i m1) in HC.
  destruct (valid_children p (configured_children p i m1)) eqn:EC.
  2:{ destruct HC as (l & HC & _). rewrite HC in H. cbn [negb] in H. injection H as _ <-. apply refused with (configured p i m1); [exact CA|]. rewrite <- PI. cbn. discriminate. }
  rewrite HC, app_nil_l in H. cbn [negb] in H.
  assert (relink_children (set_children P (configured_children p i m1)) = configured p i m1) as HI.
  { apply relink_children_idem; [simpl; exact HP|]. simpl. intros c Hc. unfold configured_children in Hc. apply in_map_iff in Hc as (c0 & <- & _). reflexivity. }
  rewrite HI in H. assert (passes p m1 (configured p i m1)) as PA by (apply PI; reflexivity). clear PI EP HC HI EC.
  destruct (apply_processor (po_post p) (configured p i m1)) as [[m3' y] same'] eqn:Ep. apply apply_answers in Ep.
  unfold stop_if_falsy in H. destruct y as [m4|]; [|injection H as _ <-; apply stopped_after with (configured p i m1); [exact CA | exact PA | left; exact Ep]].
  assert (answers (po_post p) (configured p i m1) (Same m4) \/ answers (po_post p) (configured p i m1) (Other m4)) as A' by (destruct same'; [left; apply Ep | right; exact Ep]).
  destruct (mbool m4) as [b|e] eqn:Eb'; [|discriminate]. destruct (mbool_cases Eb') as [[-> L']|[-> L']].
  2:{ injection H as _ <-. apply stopped_after with (configured p i m1); [exact CA | exact PA|]. right. exists m4. split; assumption. }
  destruct same'.
  - injection H as _ <-. rewrite dispatch_chosen. apply kept with (configured p i m1) m4; [exact CA | exact PA | apply Ep | exact L' | apply seen_again_relink].
  - injection H as _ <-. rewrite dispatch_chosen. apply exchanged with (configured p i m1); [exact CA | exact PA | exact Ep | exact L'].
Qed.
Lemma process_all_hooked p : forall occ i raws outs, process_all p (process_match p) i occ = Ok (raws, outs) ->
  exists outss, Forall2i (hooked p) i occ outss /\ outs = concat outss.
Proof.
  induction occ as [|m r IH]; intros i raws outs H; cbn [process_all] in H.
  - injection H as <- <-. exists []. split; [constructor | reflexivity].
  - destruct (process_matches p (process_match p) m i) as [[raw out]|] eqn:E; [|discriminate].
    destruct (process_all p (process_match p) (S i) r) as [[raws' outs']|] eqn:Er; [|discriminate]. injection H as <- <-.
    destruct (IH _ _ _ Er) as (outss & E1 & E2). exists (out :: outss). split; [constructor; [eapply process_matches_hooked; exact E | exact E1] | cbn [concat]; congruence].
Qed.
Lemma process_patterns_hooked p : forall occs raws outs, process_patterns p (process_match p) occs = Ok (raws, outs) ->
  exists outss, Forall2 (fun occ os => exists oss, Forall2i (hooked p) 0 occ oss /\ os = concat oss) occs outss /\ outs = concat outss.
Proof.
  induction occs as [|o r IH]; intros raws outs H; cbn [process_patterns] in H.
  - injection H as <- <-. exists []. split; [constructor | reflexivity].
  - destruct (process_all p (process_match p) 0 o) as [[raws1 outs1]|] eqn:E1; [|discriminate].
    destruct (process_patterns p (process_match p) r) as [[raws2 outs2]|] eqn:E2; [|discriminate]. injection H as <- <-.
    destruct (IH _ _ eq_refl) as (outss & A1 & A2). apply process_all_hooked in E1 as (oss & B1 & B2).
    exists (outs1 :: outss). split; [constructor; [exists oss; split; assumption | exact A1] | cbn [concat]; congruence].
Qed.
Lemma run_pattern_hooked p {A} (subs : list A) match_ n input n' outs raws :
  (forall sub ms, In sub subs -> match_ sub input = Ok ms -> Forall (fun m => m_parent m = None) ms) ->
  run_pattern p subs match_ n input = Ok (n', (outs, raws)) ->
  exists found occs outss, Forall2 (fun sub ms => match_ sub input = Ok ms) subs found /\ Forall2 (Forall2 same_occurrence) found occs
    /\ Forall (Forall family) occs
    /\ Forall2 (fun occ os => exists oss, Forall2i (hooked p) 0 occ oss /\ os = concat oss) occs outss
    /\ outs = match po_post_processor p with Some f => f (concat outss) | None => concat outss end.
Proof.
  intros Hm H. unfold run_pattern in H.
  destruct (sequence (fun sub => match_ sub input) subs) as [found|] eqn:E; [|discriminate]. apply sequence_ok in E.
  assert (Forall (Forall (fun m => m_parent m = None)) found) as F.
  { clear H. induction E; constructor; [eapply Hm; [left; reflexivity|eassumption]|apply IHE; intros; eapply Hm; [right; eassumption|assumption]]. }
  destruct (@number_lists_spec found n F) as [F1 F2]. destruct (number_lists n found) as [k occs]. cbn [snd] in F1, F2.
  unfold finish_matches in H. destruct (process_patterns p (process_match p) occs) as [[raws1 outs1]|] eqn:E2; [|discriminate].
  injection H as <- <- <-. apply process_patterns_hooked in E2 as (outss & A1 & ->). exists found, occs, outss. auto.
Qed.

(** ** C132 *)
Theorem C132_processors : forall p src n input n' outs raws,
  pattern_matches p src n input = Ok (n', (outs, raws)) ->
  exists found occs outss,
    finds p input src found                                (* the occurrences found *)
    /\ Forall2 (Forall2 same_occurrence) found occs      (* with the identities they get *)
    /\ Forall (Forall family) occs
    /\ Forall2 (fun occ os => exists oss, Forall2i (hooked p) 0 occ oss /\ os = concat oss) occs outss
    /\ outs = match po_post_processor p with Some f => f (concat outss) | None => concat outss end.
Proof.
  intros p src n input n' outs raws H. destruct src.
  - apply run_pattern_hooked in H as (found & occs & outss & A & B); [exists found, occs, outss; split; [exact A | exact B]|].
    intros sub ms _ Q. apply string_match_raw in Q. eapply Forall_impl; [|exact Q]. simpl; tauto.
  - apply run_pattern_hooked in H as (found & occs & outss & A & B); [exists found, occs, outss; split; [exact A | exact B]|].
    intros sub ms _ Q. apply re_match_raw in Q. eapply Forall_impl; [|exact Q]. simpl; tauto.
  - apply run_pattern_hooked in H as (found & occs & outss & A & B); [exists found, occs, outss; split; [exact A | exact B]|].
    intros sub ms _ Q. apply functional_match_raw in Q. eapply Forall_impl; [|exact Q]. simpl; tauto.
Qed.

(** Each part of the description is determined: one configured match, one answer of each processor,
    so that (the matches being the parents of their children) what is produced is. *)
Lemma answers_fun f m a b : answers f m a -> answers f m b -> a = b.
Proof. intros A B. destruct A, B; congruence. Qed.
Lemma seen_again_fun m a b : family m -> seen_again m a -> seen_again m b -> a = b.
Proof.
  intros F (cs & -> & A1 & A2) (ds & -> & B1 & B2). specialize (A2 F). specialize (B2 F). f_equal. clear F. revert ds B1 B2 A2.
  induction A1 as [|c c' r r' (q & ->) A IH]; intros ds B1 B2 A2; inversion B1 as [|? d ? l' (q' & ->) B]; subst; [reflexivity|].
  inversion A2; inversion B2; subst. cbn [m_parent set_parent] in *. f_equal; [congruence | apply IH; assumption].
Qed.
Theorem C132_determined : forall p i m outs outs',
  (forall x, answers (po_pre p) m (Same x) \/ answers (po_pre p) m (Other x) -> family x) ->
  (forall P x, answers (po_post p) P (Same x) -> family P -> family x) ->
  hooked p i m outs -> hooked p i m outs' -> outs = outs'.
Proof.
  intros p i m outs outs' F1 F2 H H'.
  assert (forall f x (y : mtch), answers f x (Same y) \/ answers f x (Other y) -> 0 < mlen y -> ~ halts f x) as NH.
  { intros f x y A L [S|(z & B & E)].
    - destruct A as [A|A]; pose proof (answers_fun A S); discriminate.
    - destruct A as [A|A], B as [B|B]; pose proof (answers_fun A B) as Q; try discriminate; injection Q as ->; lia. }
  destruct H as [S|m1 outs A L W], H' as [S'|m1' outs' A' L' W'].
  - reflexivity.
  - exfalso. exact (NH _ _ _ A' L' S).
  - exfalso. exact (NH _ _ _ A L S').
  - assert (m1' = m1) as ->.
    { destruct A as [A|A], A' as [A'|A']; pose proof (answers_fun A A') as Q; try discriminate; injection Q as ->; reflexivity. }
    specialize (W (F1 _ A)). specialize (W' (F1 _ A)). pose proof (F1 _ A) as Fam. clear - F2 W W' NH Fam.
    assert (forall P, configured_as p i m1 P -> family P) as FP.
    { intros P (_ & _ & C1 & C2). split; [exact C1|]. intros c Hc. clear -C1 C2 Hc. induction C2 as [|a b r r' (_ & _ & E & _) C2 IH]; [destruct Hc|].
      destruct Hc as [<-|Hc]; [|apply IH, Hc]. exists (shell P). rewrite shell_id, shell_parent. auto. }
    destruct W as [P C N|P C N S|P m4 m5 C N A L Z|P m4 C N A L], W' as [P' C' N'|P' C' N' S'|P' m4' m5' C' N' A' L' Z'|P' m4' C' N' A' L'];
      pose proof (configured_as_unique C C') as <-; try reflexivity; try contradiction.
    + exfalso. exact (NH _ _ _ (or_introl A') L' S).
    + exfalso. exact (NH _ _ _ (or_intror A') L' S).
    + exfalso. exact (NH _ _ _ (or_introl A) L S').
    + pose proof (answers_fun A A') as Q. injection Q as <-. f_equal. exact (seen_again_fun (F2 _ _ A (FP _ C)) Z Z').
    + pose proof (answers_fun A A') as Q. discriminate.
    + exfalso. exact (NH _ _ _ (or_intror A) L S').
    + pose proof (answers_fun A A') as Q. discriminate.
    + pose proof (answers_fun A A') as Q. injection Q as <-. reflexivity.
Qed.

(** Nothing but the search raises, as long as no processor makes a match of negative length. *)
Lemma process_matches_ok p i m : (forall x y, 0 <= mlen x -> answers (po_pre p) x (Same y) \/ answers (po_pre p) x (Other y) -> 0 <= mlen y) ->
  (forall x y, 0 <= mlen x -> answers (po_post p) x (Same y) \/ answers (po_post p) x (Other y) -> 0 <= mlen y) ->
  0 <= mlen m -> exists r, process_matches p (process_match p) m i = Ok r.
Proof.
  intros H1 H2 L. unfold process_matches. destruct (apply_processor (po_pre p) m) as [[raw1 x] same] eqn:Ea. apply apply_answers in Ea.
  unfold stop_if_falsy at 1. destruct x as [m1|]; [|eauto].
  assert (0 <= mlen m1) as L1 by (apply (H1 m); [exact L | destruct same; [left; apply Ea | right; exact Ea]]).
  unfold mbool at 1. destruct (Z.ltb_spec (mlen m1) 0); [lia|]. destruct (negb (mlen m1 =? 0)); [|eauto].
  rewrite process_match_eq. destruct (negb _); [eauto|]. destruct (process_children _ _ _ _ _) as [cs ok]. destruct (negb ok); [eauto|].
  match goal with |- context [apply_processor (po_post p) ?z] => set (m3 := z) end.
  assert (0 <= mlen m3) as L3 by (unfold m3, mlen, relink_children; simpl; rewrite configure_start, configure_end; exact L1).
  destruct (apply_processor (po_post p) m3) as [[m3' y] same'] eqn:Ep. apply apply_answers in Ep.
  unfold stop_if_falsy. destruct y as [m4|]; [|eauto].
  assert (0 <= mlen m4) as L4 by (apply (H2 m3); [exact L3 | destruct same'; [left; apply Ep | right; exact Ep]]).
  unfold mbool. destruct (Z.ltb_spec (mlen m4) 0); [lia|]. destruct (negb (mlen m4 =? 0)); eauto.
Qed.
Theorem C132_no_error : forall p src n input,
  (forall x y, 0 <= mlen x -> answers (po_pre p) x (Same y) \/ answers (po_pre p) x (Other y) -> 0 <= mlen y) ->
  (forall x y, 0 <= mlen x -> answers (po_post p) x (Same y) \/ answers (po_post p) x (Other y) -> 0 <= mlen y) ->
  (exists found, finds p input src found) -> exists r, pattern_matches p src n input = Ok r.
Proof.
  intros p src n input H1 H2 (found & Hf).
  assert (forall occ i, Forall (fun m => 0 <= mlen m) occ -> exists r, process_all p (process_match p) i occ = Ok r) as PA.
  { induction occ as [|m r IH]; intros i L; [eexists; reflexivity|]. inversion L; subst. cbn [process_all].
    destruct (@process_matches_ok p i m H1 H2) as [[raw out] ->]; [assumption|]. destruct (IH (S i)) as [[raws outs] ->]; [assumption|]. eauto. }
  assert (forall occs, Forall (Forall (fun m => 0 <= mlen m)) occs -> exists r, process_patterns p (process_match p) occs = Ok r) as PP.
  { induction occs as [|o r IH]; intro L; [eexists; reflexivity|]. inversion L; subst. cbn [process_patterns].
    destruct (PA o 0%nat) as [[raws1 outs1] ->]; [assumption|]. destruct IH as [[raws2 outs2] ->]; [assumption|]. eauto. }
  assert (forall A (subs : list A) match_, (forall sub ms, match_ sub input = Ok ms -> Forall (fun m => m_parent m = None /\ mtrue m = true /\ 0 <= mlen m) ms) ->
    Forall2 (fun sub ms => match_ sub input = Ok ms) subs found -> exists r, run_pattern p subs match_ n input = Ok r) as R.
  { intros A subs match_ Hm F. unfold run_pattern. rewrite (proj2 (sequence_ok _ _ _) F).
    assert (Forall (Forall (fun m => m_parent m = None /\ mtrue m = true /\ 0 <= mlen m)) found) as G by (clear -Hm F; induction F; constructor; eauto).
    assert (Forall (Forall (fun m => m_parent m = None)) found) as G1 by (eapply Forall_impl; [|exact G]; intros l Hl; eapply Forall_impl; [|exact Hl]; simpl; tauto).
    destruct (@number_lists_spec found n G1) as [_ F2]. destruct (number_lists n found) as [k occs]. cbn [snd] in F2. unfold finish_matches.
    destruct (PP occs) as [[raws outs] ->]; [|eauto]. clear -F2 G. induction F2 as [|o o' r r' F F2 IH]; [constructor|]. inversion G as [|? ? Go Gr]; subst. constructor; [|apply IH, Gr].
    clear -F Go. induction F as [|m m' r r' S F IH]; [constructor|]. inversion Go as [|? ? Gm Gr]; subst. constructor; [|apply IH, Gr]. rewrite (proj1 (same_occurrence_len S)). apply Gm. }
  assert (forall ms, Forall (fun m => m_parent m = None /\ mtrue m = true) ms -> Forall (fun m => 0 <= mlen m) ms -> Forall (fun m => m_parent m = None /\ mtrue m = true /\ 0 <= mlen m) ms) as Both.
  { intros ms X Y. rewrite Forall_forall in *. intros m Hm. specialize (X m Hm). specialize (Y m Hm). tauto. }
  assert (forall l r, keep_truthy l = Ok r -> Forall (fun m => 0 <= mlen m) r) as KT.
  { intros l r H. apply keep_truthy_inv in H as [H ->]. rewrite Forall_forall in *. intros m Hm. apply filter_In in Hm as [Hm _]. auto. }
  destruct src.
  - apply (R _ subs (string_match lower p o)); [|exact Hf]. intros sub ms Q. apply Both.
    + apply string_match_raw in Q. eapply Forall_impl; [|exact Q]. simpl; tauto.
    + unfold string_match in Q. destruct (find_all_n _ _ _ _ _ _ _); [|discriminate]. exact (KT _ _ Q).
  - apply (R _ subs (re_match p repeated)); [|exact Hf]. intros sub ms Q. apply Both.
    + apply re_match_raw in Q. eapply Forall_impl; [|exact Q]. simpl; tauto.
    + unfold re_match in Q. destruct (sequence _ _); [|discriminate]. exact (KT _ _ Q).
  - apply (R _ subs (functional_match p)); [|exact Hf]. intros sub ms Q. apply Both.
    + apply functional_match_raw in Q. eapply Forall_impl; [|exact Q]. simpl; tauto.
    + unfold functional_match in Q. destruct (sequence _ _); [|discriminate]. exact (KT _ _ Q).
Qed.
(** *** The raw matches (matches(..., with_raw_matches=True)) *)
(** a processor cannot change the identity of the object it is given *)
Definition keeps_identity (f : option processor) : Prop := forall g m, f = Some g -> m_id (fst (g m)) = m_id m.
Definition replaces_nothing (f : option processor) : Prop := forall g m r, f = Some g -> snd (g m) <> Replace r.
Lemma apply_id f m raw x same : keeps_identity f -> apply_processor f m = (raw, x, same) -> m_id raw = m_id m /\ (same = true -> forall y, x = Some y -> y = raw).
Proof.
  intros K H. unfold apply_processor in H. destruct f as [g|].
  - specialize (K g m eq_refl). destruct (g m) as [m' [| |r]]; injection H as <- <- <-; cbn [fst] in K; (split; [exact K|]); try discriminate; intros _ y Q; congruence.
  - injection H as <- <- <-. split; [reflexivity|]. intros _ y Q. injection Q as <-. reflexivity.
Qed.
Lemma apply_same f m raw x same : replaces_nothing f -> apply_processor f m = (raw, x, same) -> same = true.
Proof.
  intros K H. unfold apply_processor in H. destruct f as [g|]; [|injection H as _ _ <-; reflexivity].
  specialize (K g m). destruct (g m) as [m' [| |r]]; injection H as _ _ <-; try reflexivity. destruct (K r eq_refl eq_refl).
Qed.
Lemma process_matches_raw p i m raw outs : process_matches p (process_match p) m i = Ok (raw, outs) ->
  (keeps_identity (po_pre p) -> keeps_identity (po_post p) -> m_id raw = m_id m)
  /\ (replaces_nothing (po_pre p) -> replaces_nothing (po_post p) -> forall x, In x outs -> x = raw \/ In x (m_children raw)).
Proof.
  unfold process_matches. destruct (apply_processor (po_pre p) m) as [[raw1 x] same] eqn:Ea.
  assert (RI : forall y, m_id (relink_children y) = m_id y) by reflexivity.
  assert (SI : forall y cs, m_id (set_children y cs) = m_id y) by reflexivity.
  assert (PRE : keeps_identity (po_pre p) -> m_id raw1 = m_id m /\ (same = true -> forall y, x = Some y -> y = raw1)) by (intro K; exact (apply_id K Ea)).
  unfold stop_if_falsy at 1. destruct x as [m1|]; [|intro H; injection H as <- <-; split; [intros K _; apply PRE, K|intros _ _ x []]].
  destruct (mbool m1) as [[]|e]; [|intro H; injection H as <- <-; split; [intros K _; apply PRE, K|intros _ _ x []]|discriminate].
  rewrite process_match_eq. set (P := configure p i false m1). assert (PI : m_id P = m_id m1) by apply configure_id.
  assert (ID : forall y, m_id y = m_id m1 -> keeps_identity (po_pre p) -> m_id (if same then y else raw1) = m_id m).
  { intros y Hy K. destruct (PRE K) as [A B]. destruct same; [|exact A]. rewrite Hy. rewrite (B eq_refl m1 eq_refl). exact A. }
  destruct (process_validator p P false); cbn [negb]; [|intro H; injection H as <- <-; split; [intros K _; apply ID; [exact PI|exact K]|intros _ _ x []]].
  destruct (process_children _ _ _ _ _) as [cs ok]. set (m3 := relink_children (set_children P cs)). assert (I3 : m_id m3 = m_id m1) by exact PI.
  destruct ok; cbn [negb]; [|intro H; injection H as <- <-; split; [intros K _; apply ID; [exact I3|exact K]|intros _ _ x []]].
  destruct (apply_processor (po_post p) m3) as [[m3' y] same'] eqn:Ep.
  assert (POST : keeps_identity (po_post p) -> m_id m3' = m_id m1 /\ (same' = true -> forall z, y = Some z -> z = m3')) by (intro K; destruct (apply_id K Ep) as [A B]; split; [congruence|exact B]).
  unfold stop_if_falsy. destruct y as [m4|].
  2:{ intro H; injection H as <- <-; split; [intros K K'; apply ID; [apply POST, K'|exact K]|intros _ _ x []]. }
  destruct (mbool m4) as [[]|e]; [|intro H; injection H as <- <-; split; [intros K K'; apply ID; [apply POST, K'|exact K]|intros _ _ x []]|discriminate].
  intro H. injection H as <- <-. split.
  - intros K K'. destruct (POST K') as [A B]. destruct same'; [|rewrite andb_false_r; apply ID; [exact A|exact K]]. rewrite andb_true_r.
    rewrite (B eq_refl m4 eq_refl). specialize (ID (relink_children m3') A K). destruct same; exact ID.
  - intros K K' z Hz. assert (same = true) as -> by exact (apply_same K Ea). assert (same' = true) as -> by exact (apply_same K' Ep). cbn [andb].
    unfold dispatch in Hz. apply in_app_iff in Hz as [Hz|Hz].
    + destruct (_ && _)%bool in Hz; [|destruct Hz]. destruct Hz as [<-|[]]. left. reflexivity.
    + destruct (_ || _)%bool in Hz; [|destruct Hz]. apply filter_In in Hz as [Hz _]. right. exact Hz.
Qed.
Lemma process_all_raw p : forall occ i raws outs, process_all p (process_match p) i occ = Ok (raws, outs) ->
  (keeps_identity (po_pre p) -> keeps_identity (po_post p) -> map m_id raws = map m_id occ)
  /\ (replaces_nothing (po_pre p) -> replaces_nothing (po_post p) -> forall x, In x outs -> exists raw, In raw raws /\ (x = raw \/ In x (m_children raw))).
Proof.
  induction occ as [|m r IH]; intros i raws outs H; cbn [process_all] in H; [injection H as <- <-; split; [reflexivity|intros _ _ x []]|].
  destruct (process_matches p (process_match p) m i) as [[raw out]|] eqn:E; [|discriminate]. apply process_matches_raw in E as [A B].
  destruct (process_all p (process_match p) (S i) r) as [[raws' outs']|] eqn:Er; [|discriminate]. injection H as <- <-. destruct (IH _ _ _ Er) as [C D]. split.
  - intros K K'. cbn [map]. rewrite A, C by assumption. reflexivity.
  - intros K K' x Hx. apply in_app_iff in Hx as [Hx|Hx]; [exists raw; split; [left; reflexivity|apply B; assumption]|]. destruct (D K K' x Hx) as (raw' & X & Y). exists raw'. split; [right; exact X|exact Y].
Qed.
Lemma process_patterns_raw p : forall occs raws outs, process_patterns p (process_match p) occs = Ok (raws, outs) ->
  (keeps_identity (po_pre p) -> keeps_identity (po_post p) -> map m_id raws = map m_id (concat occs))
  /\ (replaces_nothing (po_pre p) -> replaces_nothing (po_post p) -> forall x, In x outs -> exists raw, In raw raws /\ (x = raw \/ In x (m_children raw))).
Proof.
  induction occs as [|o r IH]; intros raws outs H; cbn [process_patterns] in H; [injection H as <- <-; split; [reflexivity|intros _ _ x []]|].
  destruct (process_all p (process_match p) 0 o) as [[raws1 outs1]|] eqn:E1; [|discriminate]. apply process_all_raw in E1 as [A B].
  destruct (process_patterns p (process_match p) r) as [[raws2 outs2]|] eqn:E2; [|discriminate]. injection H as <- <-. destruct (IH _ _ eq_refl) as [C D]. split.
  - intros K K'. cbn [concat]. rewrite !map_app, A, C by assumption. reflexivity.
  - intros K K' x Hx. apply in_app_iff in Hx as [Hx|Hx]; [destruct (B K K' x Hx) as (raw & X & Y)|destruct (D K K' x Hx) as (raw & X & Y)]; exists raw; (split; [apply in_or_app; auto|exact Y]).
Qed.
(** every occurrence found is a new object, its children being new objects too *)
Fixpoint new_objects (n : nat) (found : list mtch) : list nat :=
  match found with [] => [] | m :: r => n :: new_objects (S n + length (m_children m)) r end.
Lemma number_all_ids : forall ms n rest, map m_id (snd (number_all n ms)) ++ new_objects (fst (number_all n ms)) rest = new_objects n (ms ++ rest).
Proof.
  induction ms as [|m r IH]; intros n rest; [reflexivity|]. cbn [number_all app new_objects]. specialize (IH (S n + length (m_children m))%nat rest).
  destruct (number_all (S n + length (m_children m)) r) as [k r']. cbn [fst snd map app] in IH |- *. f_equal. exact IH.
Qed.
Lemma objects_numbered : forall l n, map m_id (concat (snd (number_lists n l))) = new_objects n (concat l).
Proof.
  induction l as [|o r IH]; intro n; [reflexivity|]. cbn [number_lists concat]. pose proof (number_all_ids o n (concat r)) as A.
  destruct (number_all n o) as [k o']. cbn [fst snd] in A. specialize (IH k). destruct (number_lists k r) as [k' r']. cbn [snd concat] in IH |- *.
  rewrite map_app, IH. exact A.
Qed.
(** The raw matches are the objects of the occurrences found, in order and each once, whatever the processors answer; when no
    processor replaces a match, what is returned is these objects, as they are, or children of them *)
Theorem C132_raw_matches : forall p src n input n' outs raws,
  pattern_matches p src n input = Ok (n', (outs, raws)) ->
  (keeps_identity (po_pre p) -> keeps_identity (po_post p) ->
     exists found occs, finds p input src found /\ Forall2 (Forall2 same_occurrence) found occs /\ map m_id raws = map m_id (concat occs) /\ map m_id raws = new_objects n (concat found))
  /\ (replaces_nothing (po_pre p) -> replaces_nothing (po_post p) -> po_post_processor p = None -> forall x, In x outs -> exists raw, In raw raws /\ (x = raw \/ In x (m_children raw))).
Proof.
  intros p src n input n' outs raws H.
  assert (G : forall {A} (subs : list A) match_ (found0 : list (list mtch) -> Prop), (forall found, Forall2 (fun sub ms => match_ sub input = Ok ms) subs found -> found0 found) ->
    (forall sub ms, In sub subs -> match_ sub input = Ok ms -> Forall (fun m => m_parent m = None) ms) ->
    run_pattern p subs match_ n input = Ok (n', (outs, raws)) ->
    (keeps_identity (po_pre p) -> keeps_identity (po_post p) -> exists found occs, found0 found /\ Forall2 (Forall2 same_occurrence) found occs /\ map m_id raws = map m_id (concat occs) /\ map m_id raws = new_objects n (concat found))
    /\ (replaces_nothing (po_pre p) -> replaces_nothing (po_post p) -> po_post_processor p = None -> forall x, In x outs -> exists raw, In raw raws /\ (x = raw \/ In x (m_children raw)))).
  { clear H. intros A subs match_ found0 F0 Hm H. unfold run_pattern in H.
    destruct (sequence (fun sub => match_ sub input) subs) as [found|] eqn:E; [|discriminate]. apply sequence_ok in E.
    assert (Forall (Forall (fun m => m_parent m = None)) found) as F.
    { clear H F0. induction E; constructor; [eapply Hm; [left; reflexivity|eassumption]|apply IHE; intros; eapply Hm; [right; eassumption|assumption]]. }
    pose proof (objects_numbered found n) as ON. destruct (@number_lists_spec found n F) as [F1 F2]. destruct (number_lists n found) as [k occs]. cbn [snd] in F1, F2, ON.
    unfold finish_matches in H. destruct (process_patterns p (process_match p) occs) as [[raws1 outs1]|] eqn:E2; [|discriminate].
    injection H as _ Ho <-. apply process_patterns_raw in E2 as [X Y]. split.
    - intros K K'. exists found, occs. split; [apply F0, E|]. split; [exact F2|]. split; [apply X; assumption|]. rewrite X by assumption. exact ON.
    - intros K K' N x Hx. apply Y; try assumption. rewrite N in Ho. congruence. }
  destruct src.
  - apply (G _ subs (string_match lower p o)) with (found0 := finds p input (SString lower o subs)) in H; [exact H|intros; assumption|]. intros sub ms _ Q. apply string_match_raw in Q. eapply Forall_impl; [|exact Q]. simpl; tauto.
  - apply (G _ subs (re_match p repeated)) with (found0 := finds p input (SRegex repeated subs)) in H; [exact H|intros; assumption|]. intros sub ms _ Q. apply re_match_raw in Q. eapply Forall_impl; [|exact Q]. simpl; tauto.
  - apply (G _ subs (functional_match p)) with (found0 := finds p input (SFunctional subs)) in H; [exact H|intros; assumption|]. intros sub ms _ Q. apply functional_match_raw in Q. eapply Forall_impl; [|exact Q]. simpl; tauto.
Qed.
(** "a" and "b" in "abab": the first "a" is renamed, the first "b" replaced by a longer match, the second "a"
    dropped, the second "b" replaced by an empty match afterwards; the list is then reversed *)
Definition hook_pre : processor := fun m =>
  if m_start m =? 0 then (set_name m (Some (s "x")), Keep)
  else if m_start m =? 1 then (m, Replace (set_id (set_end m 3) 9))
  else if m_start m =? 2 then (m, Drop) else (m, Keep).
Definition hook_post : processor := fun m => if m_start m =? 3 then (m, Replace (set_end m 3)) else (m, Keep).
Definition hook_pattern : popts :=
  new_pattern 5 no_opts DNone DNone DNone false false false false [] [] false false (Some hook_pre) (Some hook_post) (Some (@rev mtch)).
Definition hook_source : psource := SString (fun x => x) (StringOpts None None false) [s "a"; s "b"].
Example C132_case :
  match pattern_matches hook_pattern hook_source 0%nat (s "abab") with
  | Ok (_, (outs, raws)) =>
      map (fun m => (m_id m, m_span m, m_name m, m_index m)) outs = [(9%nat, (1, 3), None, 0%nat); (0%nat, (0, 1), Some (s "x"), 0%nat)]
      /\ map (fun m => (m_id m, m_span m)) raws = [(0%nat, (0, 1)); (1%nat, (2, 3)); (2%nat, (1, 2)); (3%nat, (3, 4))]
  | Err _ => False
  end.
Proof. vm_compute. split; reflexivity. Qed.
Example C132_determined_case : forall m, m_parent m = None -> m_children m = [] ->
  (forall x, answers (po_pre hook_pattern) m (Same x) \/ answers (po_pre hook_pattern) m (Other x) -> family x)
  /\ (forall P x, answers (po_post hook_pattern) P (Same x) -> family P -> family x)
  /\ (forall x y, 0 <= mlen x -> answers (po_post hook_pattern) x (Same y) -> 0 <= mlen y).
Proof.
  intros m Hp Hc. split; [|split].
  - assert (forall x, m_parent x = None -> m_children x = [] -> family x) as F by (intros x E1 E2; split; [exact E1 | rewrite E2; intros c []]).
    intros x [A|A]; inversion A as [E|g m' E G|g m' r E G|g m' E G]; subst; try discriminate; injection E as <-; unfold hook_pre in G;
      destruct (m_start m =? 0), (m_start m =? 1), (m_start m =? 2); try discriminate; injection G; intros; subst; apply F; assumption.
  - intros P x A F. inversion A as [E|g m' E G|g m' r E G|g m' E G]; subst; try discriminate. injection E as <-. unfold hook_post in G.
    destruct (m_start P =? 3); [discriminate|]. injection G as <-. exact F.
  - intros x y L A. inversion A as [E|g m' E G|g m' r E G|g m' E G]; subst; try discriminate. injection E as <-. unfold hook_post in G.
    destruct (m_start x =? 3); [discriminate|]. injection G as <-. exact L.
Qed.
Print Assumptions C132_processors.
Print Assumptions C132_determined.
Example C132_raw_case : keeps_identity (po_pre hook_pattern) /\ keeps_identity (po_post hook_pattern).
Proof.
  split; intros g m E; injection E as <-; [unfold hook_pre; destruct (m_start m =? 0), (m_start m =? 1), (m_start m =? 2)|unfold hook_post; destruct (m_start m =? 3)]; reflexivity.
Qed.
Print Assumptions C132_no_error.
Print Assumptions C132_raw_matches.
