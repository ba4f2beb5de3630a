(** * Facts about the processing of raw matches (Pattern.v) *)
From Verif Require Import Base BaseFacts Match Coll Loose MatchFacts Pattern.
Set Implicit Arguments.
Unset Strict Implicit.
Open Scope Z_scope.

Definition configure (p : popts) (i : nat) (child : bool) (m : mtch) : mtch :=
  process_formatter p (process_value p (process_private p (process_index m i) child) child) child.

Ltac dmatch :=
  repeat match goal with
         | |- context [if ?b then _ else _] => destruct b
         | |- context [match ?x with Some _ => _ | None => _ end] => destruct x
         end.

Section Configure.
  Variables (p : popts) (i : nat) (child : bool) (m : mtch).
  Ltac t := unfold configure, process_formatter, process_value, process_private, process_index; cbv zeta; simpl; dmatch; destruct m; reflexivity.
  Lemma configure_id : m_id (configure p i child m) = m_id m. Proof. t. Qed.
  Lemma configure_start : m_start (configure p i child m) = m_start m. Proof. t. Qed.
  Lemma configure_end : m_end (configure p i child m) = m_end m. Proof. t. Qed.
  Lemma configure_name : m_name (configure p i child m) = m_name m. Proof. t. Qed.
  Lemma configure_tags : m_tags (configure p i child m) = m_tags m. Proof. t. Qed.
  Lemma configure_marker : m_marker (configure p i child m) = m_marker m. Proof. t. Qed.
  Lemma configure_solver : m_solver (configure p i child m) = m_solver m. Proof. t. Qed.
  Lemma configure_input : m_input (configure p i child m) = m_input m. Proof. t. Qed.
  Lemma configure_rawstart : m_rawstart (configure p i child m) = m_rawstart m. Proof. t. Qed.
  Lemma configure_rawend : m_rawend (configure p i child m) = m_rawend m. Proof. t. Qed.
  Lemma configure_index : m_index (configure p i child m) = i. Proof. t. Qed.
  Lemma configure_pattern : m_pattern (configure p i child m) = m_pattern m. Proof. t. Qed.
  Lemma configure_parent : m_parent (configure p i child m) = m_parent m. Proof. t. Qed.
  Lemma configure_children : m_children (configure p i child m) = m_children m. Proof. t. Qed.
End Configure.

Lemma process_private_name p m child : m_name (process_private p m child) = m_name m.
Proof. unfold process_private. dmatch; reflexivity. Qed.
Lemma process_value_name p m child : m_name (process_value p m child) = m_name m.
Proof. unfold process_value. cbv zeta. dmatch; reflexivity. Qed.
Lemma config_keys_name m m' child : m_name m = m_name m' -> config_keys m child = config_keys m' child.
Proof. unfold config_keys. intros ->. reflexivity. Qed.

Lemma configure_private p i child m :
  m_private (configure p i child m) =
  ((truthy_name (m_name m) && mem (option_eqb pstr_eqb) (m_name m) (map Some (po_private_names p)))
   || (negb child && po_private_parent p) || (child && po_private_children p) || m_private m)%bool.
Proof.
  unfold configure, process_formatter, process_value, process_private, process_index. cbv zeta. simpl.
  destruct (_ || _ || _)%bool; simpl; dmatch; destruct m; reflexivity.
Qed.
Lemma configure_lit p i child m :
  m_lit (configure p i child m) =
  (let v := get_first_defined (po_values p) (config_keys m child) (po_value p) in if truthy v then v else m_lit m).
Proof.
  unfold configure. cbv zeta. set (m1 := process_private p (process_index m i) child).
  assert (config_keys m1 child = config_keys m child) as E.
  { apply config_keys_name. unfold m1. rewrite process_private_name. destruct m; reflexivity. }
  assert (m_lit m1 = m_lit m) as E2.
  { unfold m1, process_private, process_index. dmatch; destruct m; reflexivity. }
  unfold process_formatter, process_value. cbv zeta. rewrite E. rewrite <- E2.
  destruct (truthy _); dmatch; destruct m1; reflexivity.
Qed.
Lemma configure_fmt p i child m :
  m_fmt (configure p i child m) =
  if included p child || po_format_all p then get_first_defined (po_formatters p) (config_keys m child) (po_formatter p) else m_fmt m.
Proof.
  unfold configure. set (m2 := process_value p _ child).
  assert (m_name m2 = m_name m) as E.
  { unfold m2. rewrite process_value_name, process_private_name. destruct m; reflexivity. }
  assert (m_fmt m2 = m_fmt m) as E2.
  { unfold m2, process_value, process_private, process_index. cbv zeta. dmatch; destruct m; reflexivity. }
  unfold process_formatter. rewrite (@config_keys_name m2 m child E). rewrite <- E2.
  destruct (_ || _)%bool; destruct m2; reflexivity.
Qed.

Lemma configure_set_parent p i child m q : configure p i child (set_parent m q) = set_parent (configure p i child m) q.
Proof.
  destruct m. unfold configure, process_private, process_index. simpl.
  destruct (_ || _ || _)%bool; unfold process_value, config_keys; simpl; destruct (truthy _); unfold process_formatter, config_keys; simpl;
    destruct (_ || _)%bool; reflexivity.
Qed.
Lemma configure_set_children p i child m q : configure p i child (set_children m q) = set_children (configure p i child m) q.
Proof.
  destruct m. unfold configure, process_private, process_index. simpl.
  destruct (_ || _ || _)%bool; unfold process_value, config_keys; simpl; destruct (truthy _); unfold process_formatter, config_keys; simpl;
    destruct (_ || _)%bool; reflexivity.
Qed.

Lemma process_match_eq p m i child : process_match p m i child = (configure p i child m, process_validator p (configure p i child m) child).
Proof. reflexivity. Qed.

(** ** Families: a parent without parent, whose children refer to it *)
Definition family (m : mtch) : Prop :=
  m_parent m = None /\ forall c, In c (m_children m) -> exists q, m_parent c = Some q /\ m_id q = m_id m /\ m_parent q = None.

Lemma refresh_own (m q : mtch) objs k : m_id q = m_id m -> m_parent m = None -> refresh k (m :: objs) q = shell m.
Proof.
  intros H1 H3. destruct k; cbn [refresh]; unfold current; simpl; rewrite H1, Nat.eqb_refl, H3; destruct m; simpl in *; subst; reflexivity.
Qed.
Lemma relink_own (m c q : mtch) objs : m_parent c = Some q -> m_id q = m_id m -> m_parent q = None -> m_parent m = None ->
  relink (m :: objs) c = set_parent c (Some (shell m)).
Proof. intros H H1 H2 H3. unfold relink. rewrite H. f_equal. f_equal. apply refresh_own; auto. Qed.

Lemma shell_id m : m_id (shell m) = m_id m. Proof. destruct m; reflexivity. Qed.
Lemma shell_parent m : m_parent (shell m) = m_parent m. Proof. destruct m; reflexivity. Qed.
Lemma shell_set_children m cs : shell (set_children m cs) = shell m. Proof. destruct m; reflexivity. Qed.
Lemma set_parent_twice m a b : set_parent (set_parent m a) b = set_parent m b. Proof. destruct m; reflexivity. Qed.

Definition valid_children (p : popts) (cs : list mtch) : bool := forallb (fun c => process_validator p c true) cs.

Lemma valid_children_cons p c cs : valid_children p (c :: cs) = (process_validator p c true && valid_children p cs)%bool.
Proof. reflexivity. Qed.

(** the configured children *)
Definition configured_children (p : popts) (i : nat) (m : mtch) : list mtch :=
  map (fun c => set_parent (configure p i true c) (Some (shell (configure p i false m)))) (m_children m).

Lemma process_children_eq p i parent : m_parent parent = None -> forall todo done,
  (forall c, In c todo -> exists q, m_parent c = Some q /\ m_id q = m_id parent /\ m_parent q = None) ->
  let cs := map (fun c => set_parent (configure p i true c) (Some (shell parent))) todo in
  if valid_children p cs then process_children (process_match p) parent i done todo = (done ++ cs, true)
  else exists l, process_children (process_match p) parent i done todo = (done ++ l, false) /\ map m_span l = map m_span todo.
Proof.
  intros Hp. induction todo as [|c r IH]; intros done H; cbv zeta; cbn [process_children map].
  - simpl. now rewrite app_nil_r.
  - destruct (H c (or_introl eq_refl)) as (q & Q1 & Q2 & Q3).
    rewrite process_match_eq. rewrite (relink_own done Q1 Q2 Q3 Hp), configure_set_parent.
    rewrite valid_children_cons.
    destruct (process_validator p _ true) eqn:E; cbn [andb].
    + specialize (IH (done ++ [set_parent (configure p i true c) (Some (shell parent))]) (fun c' h => H c' (or_intror h))).
      cbv zeta in IH. destruct (valid_children p (map _ r)).
      * rewrite IH, <- app_assoc. reflexivity.
      * destruct IH as (l & IH & L). rewrite IH, <- app_assoc. simpl. eexists; split; [reflexivity|]. simpl. rewrite L. f_equal. unfold m_span; simpl. now rewrite configure_start, configure_end.
    + eexists; split; [reflexivity|]. simpl. f_equal. unfold m_span; simpl. now rewrite configure_start, configure_end.
Qed.

Lemma relink_children_idem (m : mtch) : m_parent m = None ->
  (forall c, In c (m_children m) -> m_parent c = Some (shell m)) -> relink_children m = m.
Proof.
  intros H Hc. unfold relink_children.
  rewrite (@map_ext_in _ _ (relink (m :: m_children m)) (fun c => c)).
  - rewrite map_id. destruct m; reflexivity.
  - intros c Hin. rewrite (@relink_own m c (shell m) (m_children m) (Hc c Hin)); [|apply shell_id|now rewrite shell_parent|assumption].
    specialize (Hc c Hin). destruct c; simpl in *. now subst.
Qed.

Definition configured (p : popts) (i : nat) (m : mtch) : mtch := set_children (configure p i false m) (configured_children p i m).

Lemma family_configured p i m : family m -> family (configured p i m).
Proof.
  intros [H1 H2]. unfold configured, family. split.
  - simpl. now rewrite configure_parent.
  - simpl. intros c Hc. unfold configured_children in Hc. apply in_map_iff in Hc as (c0 & <- & Hc0). simpl.
    eexists; split; [reflexivity|]. rewrite shell_id, shell_parent, configure_parent, configure_id. auto.
Qed.

Lemma stop_eq A m (stop : A) go : stop_if_falsy (Some m) stop go =
  match mbool m with Err e => Err e | Ok false => Ok stop | Ok true => go m end.
Proof. reflexivity. Qed.

(** what [process_matches] does to a family when there is no pre/post processor *)
Lemma process_matches_family p i m : po_pre p = None -> po_post p = None -> family m ->
  match mbool m with
  | Err e => process_matches p (process_match p) m i = Err e
  | Ok b => exists raw, process_matches p (process_match p) m i =
      Ok (raw, if b && process_validator p (configure p i false m) false && valid_children p (configured_children p i m)
               then dispatch p (configured p i m) else [])
      /\ (b = true -> m_index raw = i) /\ m_span raw = m_span m /\ m_parent raw = m_parent m
      /\ m_rawstart raw = m_rawstart m /\ m_rawend raw = m_rawend m /\ m_input raw = m_input m
      /\ (b = true -> process_validator p (configure p i false m) false = true -> valid_children p (configured_children p i m) = true ->
          raw = configured p i m)
      /\ map m_span (m_children raw) = map m_span (m_children m)
  end.
Proof.
  intros Hpre Hpost [F1 F2]. unfold process_matches. rewrite Hpre. change (apply_processor None m) with (m, Some m, true). cbv beta iota. rewrite stop_eq.
  destruct (mbool m) as [[|]|e] eqn:Eb; cbv beta iota; [|eexists; repeat split; try reflexivity; discriminate|reflexivity].
  rewrite process_match_eq.
  set (P := configure p i false m).
  assert (m_parent P = None) as HP by (unfold P; now rewrite configure_parent).
  assert (m_children P = m_children m) as HPc by (unfold P; now rewrite configure_children).
  assert (relink_children P = set_children P (map (fun c => set_parent c (Some (shell P))) (m_children m))) as HR.
  { unfold relink_children. rewrite HPc. f_equal. apply map_ext_in. intros c Hc. destruct (F2 c Hc) as (q & Q1 & Q2 & Q3).
    apply (relink_own _ Q1); auto. unfold P. now rewrite configure_id. }
  destruct (process_validator p P false) eqn:EP; cbn [negb andb].
  2:{ eexists; split; [reflexivity|]. rewrite HR. unfold P; simpl. rewrite configure_index, configure_rawstart, configure_rawend, configure_input.
      unfold m_span. simpl. rewrite configure_start, configure_end, configure_parent. repeat split; auto; try discriminate.
      rewrite map_map. apply map_ext. intro c; destruct c; reflexivity. }
  pose proof (@process_children_eq p i P HP (m_children P) []) as HC.
  assert (forall c, In c (m_children P) -> exists q, m_parent c = Some q /\ m_id q = m_id P /\ m_parent q = None) as HF.
  { rewrite HPc. intros c Hc. destruct (F2 c Hc) as (q & Q1 & Q2 & Q3). exists q. unfold P. rewrite configure_id. auto. }
  specialize (HC HF). cbv zeta in HC. rewrite HPc in HC.
  change (map (fun c : mtch => set_parent (configure p i true c) (Some (shell P))) (m_children m)) with (configured_children p i m) in HC.
  destruct (valid_children p (configured_children p i m)) eqn:EC.
  - rewrite HPc in *. rewrite HC. rewrite app_nil_l. cbv beta iota. cbn [negb].
    assert (relink_children (set_children P (configured_children p i m)) = configured p i m) as HI.
    { apply relink_children_idem; [simpl; exact HP|]. simpl. intros c Hc. unfold configured_children in Hc. apply in_map_iff in Hc as (c0 & <- & _).
      reflexivity. }
    rewrite HI, Hpost. change (apply_processor None (configured p i m)) with (configured p i m, Some (configured p i m), true). cbv beta iota. rewrite stop_eq.
    assert (mbool (configured p i m) = Ok true) as ->.
    { unfold mbool, mlen in *. simpl. unfold P in *. rewrite configure_start, configure_end. exact Eb. }
    assert (relink_children (configured p i m) = configured p i m) as HI2.
    { apply relink_children_idem; [simpl; exact HP|]. simpl. intros c Hc. unfold configured_children in Hc. apply in_map_iff in Hc as (c0 & <- & _).
      unfold configured. reflexivity. }
    rewrite HI2. simpl. eexists; split; [reflexivity|]. simpl. unfold P, configured. simpl. unfold m_span; simpl.
    rewrite configure_index, configure_start, configure_end, configure_parent, configure_rawstart, configure_rawend, configure_input. repeat split; auto.
    unfold configured_children. rewrite map_map. apply map_ext. intro c. unfold m_span. simpl. now rewrite configure_start, configure_end.
  - rewrite HPc in *. destruct HC as (l & HC & HL). rewrite HC. simpl. eexists; split; [reflexivity|]. unfold relink_children; simpl. unfold P; simpl.
    unfold m_span; simpl. rewrite configure_index, configure_start, configure_end, configure_parent, configure_rawstart, configure_rawend, configure_input. repeat split; auto; try discriminate.
    rewrite map_map. transitivity (map m_span l); [apply map_ext; intro c; destruct c; reflexivity|]. etransitivity; [exact HL|]. reflexivity.
Qed.

(** ** Lists processed with an index *)
Inductive Forall2i {A B} (R : nat -> A -> B -> Prop) : nat -> list A -> list B -> Prop :=
| F2i_nil i : Forall2i R i [] []
| F2i_cons i a b l r : R i a b -> Forall2i R (S i) l r -> Forall2i R i (a :: l) (b :: r).

Lemma Forall2i_impl {A B} (R S : nat -> A -> B -> Prop) : (forall i a b, R i a b -> S i a b) ->
  forall i l r, Forall2i R i l r -> Forall2i S i l r.
Proof. intros H i l r F. induction F; constructor; auto. Qed.

Lemma Forall2i_impl_in {A B} (R S : nat -> A -> B -> Prop) : forall i l r, (forall i a b, In a l -> In b r -> R i a b -> S i a b) ->
  Forall2i R i l r -> Forall2i S i l r.
Proof.
  intros i l r H F. induction F; constructor; auto.
  - apply H; simpl; auto.
  - apply IHF. intros. apply H; simpl; auto.
Qed.

Lemma Forall2i_in_r {A B} (R : nat -> A -> B -> Prop) i l r : Forall2i R i l r -> forall b, In b r -> exists a j, In a l /\ R j a b.
Proof.
  induction 1; intros b' [].
  - subst. exists a, i. split; simpl; auto.
  - destruct (IHForall2i b' H1) as (a' & j & ? & ?). exists a', j. split; simpl; auto.
Qed.
Lemma Forall2i_in_l {A B} (R : nat -> A -> B -> Prop) i l r : Forall2i R i l r -> forall a, In a l -> exists b j, In b r /\ R j a b.
Proof.
  induction 1; intros b' [].
  - subst. exists b, i. split; simpl; auto.
  - destruct (IHForall2i b' H1) as (a' & j & ? & ?). exists a', j. split; simpl; auto.
Qed.

(** the outcome of one occurrence *)
Definition outcome (p : popts) (i : nat) (m : mtch) (outs : list mtch) : Prop :=
  outs = if mtrue m && process_validator p (configure p i false m) false && valid_children p (configured_children p i m)
         then dispatch p (configured p i m) else [].

Lemma mbool_true m b : mbool m = Ok b -> b = mtrue m.
Proof. unfold mbool, mtrue. destruct (_ <? _); congruence. Qed.

(** a raw match against its occurrence *)
Definition same_raw (i : nat) (m raw : mtch) : Prop :=
  m_span raw = m_span m /\ m_parent raw = m_parent m /\ (mtrue m = true -> m_index raw = i)
  /\ m_rawstart raw = m_rawstart m /\ m_rawend raw = m_rawend m /\ m_input raw = m_input m.

Lemma process_all_spec p : po_pre p = None -> po_post p = None -> forall occ i raws outs,
  Forall family occ -> process_all p (process_match p) i occ = Ok (raws, outs) ->
  (exists outss, Forall2i (outcome p) i occ outss /\ outs = concat outss) /\ Forall2i same_raw i occ raws.
Proof.
  intros H1 H2. induction occ as [|m r IH]; intros i raws outs F H; simpl in H.
  - injection H as <- <-. split; [exists []; split; [constructor|reflexivity]|constructor].
  - inversion F as [|m0 r0 Fm Fr]; subst m0 r0. pose proof (@process_matches_family p i m H1 H2 Fm) as P.
    destruct (mbool m) as [b|e] eqn:Eb.
    + destruct P as (raw & P & R1 & R2 & R3 & R4 & R5 & R6 & _). rewrite P in H. 
      destruct (process_all p (process_match p) (S i) r) as [[raws' outs']|e] eqn:Er; [|discriminate]. injection H as <- <-.
      apply IH in Er as [(outss & E1 & E2) E3]; auto. split.
      * eexists (_ :: outss). split; [constructor; [|exact E1]|simpl; rewrite E2; reflexivity].
        unfold outcome. rewrite <- (mbool_true Eb). reflexivity.
      * constructor; [|exact E3]. unfold same_raw. rewrite <- (mbool_true Eb). repeat split; auto.
    + rewrite P in H. discriminate.
Qed.

Lemma process_all_ok p : po_pre p = None -> po_post p = None -> forall occ i,
  Forall family occ -> Forall (fun m => 0 <= mlen m) occ -> exists r, process_all p (process_match p) i occ = Ok r.
Proof.
  intros H1 H2. induction occ as [|m r IH]; intros i F L; simpl.
  - eauto.
  - inversion F; inversion L; subst. pose proof (@process_matches_family p i m H1 H2 H3) as P.
    unfold mbool in P. destruct (Z.ltb_spec (mlen m) 0); [lia|].
    destruct P as (raw & -> & _). destruct (IH (S i) H4 H8) as [[raws outs] ->]. eauto.
Qed.

Definition outcomes (p : popts) (occ : list mtch) (outs : list mtch) : Prop :=
  exists outss, Forall2i (outcome p) 0 occ outss /\ outs = concat outss.

Lemma process_patterns_spec p : po_pre p = None -> po_post p = None -> forall occs raws outs,
  Forall (Forall family) occs -> process_patterns p (process_match p) occs = Ok (raws, outs) ->
  (exists outss, Forall2 (outcomes p) occs outss /\ outs = concat outss)
  /\ exists rawss, Forall2 (Forall2i same_raw 0) occs rawss /\ raws = concat rawss.
Proof.
  intros H1 H2. induction occs as [|o r IH]; intros raws outs F H; simpl in H.
  - injection H as <- <-. split; exists []; split; auto.
  - inversion F; subst. destruct (process_all p (process_match p) 0 o) as [[raws1 outs1]|e] eqn:E1; [|discriminate].
    destruct (process_patterns p (process_match p) r) as [[raws2 outs2]|e] eqn:E2; [|discriminate]. injection H as <- <-.
    destruct (IH _ _ H5 eq_refl) as [(outss & A1 & A2) (rawss & B1 & B2)].
    apply process_all_spec in E1 as [E1 E3]; auto. split.
    + exists (outs1 :: outss). split; [constructor; auto|simpl; now rewrite A2].
    + exists (raws1 :: rawss). split; [constructor; auto|simpl; now rewrite B2].
Qed.

Lemma process_patterns_ok p : po_pre p = None -> po_post p = None -> forall occs,
  Forall (Forall family) occs -> Forall (Forall (fun m => 0 <= mlen m)) occs -> exists r, process_patterns p (process_match p) occs = Ok r.
Proof.
  intros H1 H2. induction occs as [|o r IH]; intros F L; simpl; [eauto|].
  inversion F; inversion L; subst. destruct (@process_all_ok p H1 H2 o 0%nat H3 H7) as [[raws outs] ->].
  destruct (IH H4 H8) as [[raws' outs'] ->]. eauto.
Qed.

(** ** Numbering *)
(** the same match up to the identities *)
Definition same_child (c c' : mtch) : Prop := exists n q, c' = set_parent (set_id c n) (Some q).
Definition same_occurrence (m m' : mtch) : Prop :=
  exists n, m' = set_children (set_id m n) (m_children m') /\ Forall2 same_child (m_children m) (m_children m').

Lemma number_children_spec p : forall cs n, Forall2 same_child cs (number_children p n cs)
  /\ Forall (fun c => m_parent c = Some (shell p)) (number_children p n cs).
Proof.
  induction cs as [|c r IH]; intro n; simpl; split; constructor; try apply IH.
  - exists n, (shell p). reflexivity.
  - reflexivity.
Qed.
Lemma number_one_family n m : m_parent m = None -> family (number_one n m) /\ same_occurrence m (number_one n m).
Proof.
  intro H. unfold number_one, family, same_occurrence. simpl. split; [split|].
  - destruct m; simpl in *; auto.
  - intros c Hc. pose proof (proj2 (number_children_spec (set_id m n) (m_children m) (S n))) as F. rewrite Forall_forall in F.
    rewrite (F c Hc). eexists; split; [reflexivity|]. rewrite shell_id, shell_parent. destruct m; simpl in *. auto.
  - exists n. split; [reflexivity|]. apply number_children_spec.
Qed.
Lemma number_all_spec : forall ms n, Forall (fun m => m_parent m = None) ms ->
  Forall family (snd (number_all n ms)) /\ Forall2 same_occurrence ms (snd (number_all n ms)).
Proof.
  induction ms as [|m r IH]; intros n F; cbn [number_all].
  - simpl; split; constructor.
  - inversion F; subst. specialize (IH (S n + length (m_children m))%nat H2). destruct (number_all _ r) as [k r'].
    simpl in *. destruct (number_one_family n H1). split; constructor; tauto.
Qed.
Lemma number_lists_spec : forall l n, Forall (Forall (fun m => m_parent m = None)) l ->
  Forall (Forall family) (snd (number_lists n l)) /\ Forall2 (Forall2 same_occurrence) l (snd (number_lists n l)).
Proof.
  induction l as [|o r IH]; intros n F; simpl; [split; constructor|].
  inversion F; subst. destruct (@number_all_spec o n H1) as [A B]. destruct (number_all n o) as [k o'] eqn:E.
  specialize (IH k H2). destruct (number_lists k r) as [k' r'] eqn:E2. simpl in *. split; constructor; tauto.
Qed.

Lemma same_occurrence_len m m' : same_occurrence m m' -> mlen m' = mlen m /\ m_span m' = m_span m /\ m_name m' = m_name m /\ m_tags m' = m_tags m
  /\ m_marker m' = m_marker m /\ m_private m' = m_private m /\ m_lit m' = m_lit m /\ m_fmt m' = m_fmt m /\ m_solver m' = m_solver m
  /\ m_input m' = m_input m /\ m_rawstart m' = m_rawstart m /\ m_rawend m' = m_rawend m /\ m_pattern m' = m_pattern m /\ m_parent m' = m_parent m.
Proof. intros (n & -> & _). unfold mlen, m_span. simpl. repeat split. Qed.

(** ** sequence, keep_truthy *)
Lemma sequence_ok {A B} (f : A -> res B) : forall l r, sequence f l = Ok r <-> Forall2 (fun x y => f x = Ok y) l r.
Proof.
  induction l as [|x l IH]; intros r; simpl; split; intro H.
  - injection H as <-. constructor.
  - inversion H. reflexivity.
  - destruct (f x) eqn:E; [|discriminate]. destruct (sequence f l) eqn:E2; [|discriminate]. injection H as <-. constructor; auto. now apply IH.
  - inversion H; subst. rewrite H2. apply IH in H4. now rewrite H4.
Qed.
Lemma keep_truthy_ok : forall ms, Forall (fun m => 0 <= mlen m) ms -> keep_truthy ms = Ok (filter mtrue ms).
Proof.
  induction ms as [|m r IH]; intro F; simpl; [reflexivity|]. inversion F; subst. rewrite (IH H2). unfold mbool, mtrue.
  destruct (Z.ltb_spec (mlen m) 0); [lia|]. destruct (mlen m =? 0); reflexivity.
Qed.
Lemma keep_truthy_inv : forall ms r, keep_truthy ms = Ok r -> Forall (fun m => 0 <= mlen m) ms /\ r = filter mtrue ms.
Proof.
  induction ms as [|m l IH]; intros r H; simpl in H; [injection H as <-; auto|].
  unfold mbool in H. destruct (Z.ltb_spec (mlen m) 0); [discriminate|]. destruct (keep_truthy l) as [l'|]; [|discriminate].
  destruct (IH l' eq_refl) as [A ->]. split; [constructor; [lia|auto]|]. cbn [filter]. fold (mtrue m) in H.
  destruct (mtrue m); congruence.
Qed.

(** ** [matches()] of a pattern without processors *)
Lemma run_pattern_spec p {A} (subs : list A) match_ n input n' outs raws :
  po_pre p = None -> po_post p = None -> po_post_processor p = None ->
  (forall sub ms, In sub subs -> match_ sub input = Ok ms -> Forall (fun m => m_parent m = None) ms) ->
  run_pattern p subs match_ n input = Ok (n', (outs, raws)) ->
  exists found occs, Forall2 (fun sub ms => match_ sub input = Ok ms) subs found /\ Forall2 (Forall2 same_occurrence) found occs
    /\ Forall (Forall family) occs
    /\ (exists outss, Forall2 (outcomes p) occs outss /\ outs = concat outss)
    /\ exists rawss, Forall2 (Forall2i same_raw 0) occs rawss /\ raws = concat rawss.
Proof.
  intros H1 H2 H3 Hm H. unfold run_pattern in H.
  destruct (sequence (fun sub => match_ sub input) subs) as [found|] eqn:E; [|discriminate]. apply sequence_ok in E.
  assert (Forall (Forall (fun m => m_parent m = None)) found) as F.
  { clear H. induction E; constructor; [eapply Hm; [left; reflexivity|eassumption]|apply IHE; intros; eapply Hm; [right; eassumption|assumption]]. }
  destruct (@number_lists_spec found n F) as [F1 F2]. destruct (number_lists n found) as [k occs]. simpl in F1, F2.
  unfold finish_matches in H. destruct (process_patterns p (process_match p) occs) as [[raws1 outs1]|] eqn:E2; [|discriminate].
  rewrite H3 in H. injection H as <- <- <-. apply process_patterns_spec in E2 as [A1 A2]; auto.
  exists found, occs. auto.
Qed.
