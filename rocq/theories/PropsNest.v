(** * Chains within chains: C118 *)
From Coq Require Import ZifyBool.
From Coq Require String. Export Coq.Strings.String.StringSyntax.
From Verif Require Import Base BaseFacts Match Coll Loose MatchFacts RulesFacts Pattern PatternFacts PropsLoose PropsPattern Chain SpecChain ChainFacts ChainSem PropsChain SpecNest.
Set Implicit Arguments.
Unset Strict Implicit.
Open Scope string_scope.
Open Scope list_scope.
Open Scope Z_scope.

(** [m] and everything below it was found in [t]; no child starts before its parent *)
Inductive settled (t : pstr) (m : mtch) : Prop :=
| Settled : advances t m -> (forall c, In c (m_children m) -> m_start m <= m_start c) ->
    (forall c, In c (m_children m) -> settled t c) -> settled t m.

Lemma settled_same t m m' : m_input m' = m_input m -> m_rawend m' = m_rawend m -> m_start m' = m_start m -> m_end m' = m_end m ->
  m_children m' = m_children m -> settled t m -> settled t m'.
Proof.
  intros A B C D E [F G H]. constructor.
  - unfold advances in *. rewrite A, B, C, D. exact F.
  - rewrite E, C. exact G.
  - rewrite E. exact H.
Qed.
Lemma settled_parent t m q : settled t m -> settled t (set_parent m q).
Proof. apply settled_same; reflexivity. Qed.
Lemma settled_relink t objs m : settled t m -> settled t (relink objs m).
Proof. apply settled_parent. Qed.
(** children replaced by others starting at or after them *)
Lemma settled_children t m cs : settled t m -> (forall c, In c cs -> m_start m <= m_start c /\ settled t c) -> settled t (set_children m cs).
Proof.
  intros [A B C] H. constructor; [exact A| |]; cbn [m_children set_children m_start]; intros c Hc; apply (H c Hc).
Qed.
Lemma settled_relink_children t m : settled t m -> settled t (relink_children m).
Proof.
  intro S. unfold relink_children. apply settled_children; [exact S|]. intros c Hc. apply in_map_iff in Hc as (c0 & <- & Hc).
  destruct S as [_ B C]. split; [unfold relink; cbn [m_start set_parent]; auto|apply settled_relink; auto].
Qed.

Lemma and_comm_l (A B : Prop) : A /\ B -> B /\ A. Proof. tauto. Qed.
(** ** Processing *)
Definition keeps (t : pstr) (pm : mtch -> nat -> bool -> mtch * bool) : Prop := forall m i child m' ok,
  settled t m -> pm m i child = (m', ok) -> settled t m' /\ m_start m' = m_start m.

Lemma process_children_settled t pm parent i : keeps t pm -> forall todo done cs ok,
  (forall c, In c todo -> settled t c /\ m_start parent <= m_start c) -> (forall c, In c done -> settled t c /\ m_start parent <= m_start c) ->
  process_children pm parent i done todo = (cs, ok) -> forall c, In c cs -> settled t c /\ m_start parent <= m_start c.
Proof.
  intros K. induction todo as [|c0 r IH]; intros done cs ok T D H; cbn [process_children] in H.
  - injection H as <- _. exact D.
  - destruct (pm (relink (parent :: done) c0) i true) as [c' ok'] eqn:E.
    destruct (T c0 (or_introl eq_refl)) as [T1 T2]. destruct (K _ _ _ _ _ (@settled_relink t (parent :: done) c0 T1) E) as [K1 K2].
    assert (settled t c' /\ m_start parent <= m_start c') as C'. { split; [exact K1|]. rewrite K2. exact T2. }
    destruct ok'.
    + refine (IH _ _ _ _ _ H); intros c Hc; [apply T; now right|]. apply in_app_iff in Hc as [Hc|[<-|[]]]; auto.
    + injection H as <- _. intros c Hc. apply in_app_iff in Hc as [Hc|[<-|Hc]]; auto. apply T. now right.
Qed.

Lemma process_matches_settled t p pm m i raw outs : keeps t pm -> po_pre p = None -> po_post p = None -> settled t m ->
  process_matches p pm m i = Ok (raw, outs) -> settled t raw /\ Forall (settled t) outs.
Proof.
  intros K N1 N2 S H. unfold process_matches in H. rewrite N1, N2 in H. cbn [apply_processor] in H. unfold stop_if_falsy at 1 in H.
  destruct (mbool m) as [[|]|]; [|injection H as <- <-; split; [exact S|constructor]|discriminate].
  destruct (pm m i false) as [m2 ok] eqn:E. destruct (K _ _ _ _ _ S E) as [K1 K2].
  destruct (negb ok). { injection H as <- <-. split; [now apply settled_relink_children|constructor]. }
  destruct (process_children pm m2 i [] (m_children m2)) as [cs ok'] eqn:E1.
  assert (settled t (relink_children (set_children m2 cs))) as S3.
  { apply settled_relink_children. apply settled_children; [exact K1|]. intros c Hc.
    refine (and_comm_l (@process_children_settled t pm m2 i K _ _ _ _ _ _ E1 c Hc)); [|intros ? []].
    intros c0 Hc0. destruct K1 as [_ B C]. auto. }
  cbv zeta in H. destruct (negb ok'). { injection H as <- <-. split; [exact S3|constructor]. }
  unfold stop_if_falsy in H. set (M := relink_children (set_children m2 cs)) in *. 
  destruct (mbool M) as [[|]|]; [|injection H as <- <-; split; [exact S3|constructor]|discriminate].
  injection H as <- <-. split; [now apply settled_relink_children|].
  apply Forall_forall. intros x Hx. unfold dispatch in Hx. apply in_app_iff in Hx as [Hx|Hx].
  - destruct (_ && _)%bool; [|contradiction]. destruct Hx as [<-|[]]. now apply settled_relink_children.
  - destruct (_ || _)%bool; [|contradiction]. apply filter_In in Hx as [Hx _].
    destruct (@settled_relink_children t M S3) as [_ _ C]. auto.
Qed.
Lemma finish_settled t p pm occ outs raws : keeps t pm -> no_processor p -> Forall (Forall (settled t)) occ ->
  finish_matches p pm occ = Ok (outs, raws) -> Forall (settled t) outs /\ Forall (settled t) raws.
Proof.
  intros K (N1 & N2 & N3) SO H. unfold finish_matches in H. rewrite N3 in H.
  destruct (process_patterns p pm occ) as [[rs os]|] eqn:E; [|discriminate]. injection H as <- <-.
  assert (forall l i rs os, Forall (settled t) l -> process_all p pm i l = Ok (rs, os) -> Forall (settled t) os /\ Forall (settled t) rs) as A.
  { induction l as [|m l IH]; intros i rs1 os1 F Q; cbn [process_all] in Q. { injection Q as <- <-. split; constructor. }
    inversion F as [|? ? F1 F2]; subst.
    destruct (process_matches p pm m i) as [[raw out]|] eqn:E1; [|discriminate]. destruct (process_all p pm (S i) l) as [[rs2 os2]|] eqn:E2; [|discriminate].
    injection Q as <- <-. destruct (process_matches_settled K N1 N2 F1 E1) as [G1 G2]. destruct (IH _ _ _ F2 E2) as [G3 G4].
    split; [apply Forall_app; auto|constructor; auto]. }
  revert rs os E. induction SO as [|o occ F SO IH]; intros rs os E; cbn [process_patterns] in E. { injection E as <- <-. split; constructor. }
  destruct (process_all p pm 0 o) as [[rs1 os1]|] eqn:E1; [|discriminate]. destruct (process_patterns p pm occ) as [[rs2 os2]|] eqn:E2; [|discriminate].
  injection E as <- <-. destruct (A _ _ _ _ F E1). destruct (IH _ _ eq_refl). split; apply Forall_app; auto.
Qed.

Lemma configure_keeps t p i child m : settled t m -> settled t (configure p i child m).
Proof.
  intro S. unfold configure.
  assert (forall m, settled t m -> settled t (process_formatter p m child)) as A. { intros x Hx. unfold process_formatter. destruct (_ || _)%bool; auto. revert Hx. now apply settled_same. }
  apply A. assert (forall m, settled t m -> settled t (process_value p m child)) as B. { intros x Hx. unfold process_value. destruct (truthy _); auto. revert Hx. now apply settled_same. }
  apply B. assert (forall m, settled t m -> settled t (process_private p m child)) as C. { intros x Hx. unfold process_private. destruct (_ || _)%bool; auto. revert Hx. now apply settled_same. }
  apply C. revert S. now apply settled_same.
Qed.
Lemma configure_start p i child m : m_start (configure p i child m) = m_start m /\ m_end (configure p i child m) = m_end m /\ m_children (configure p i child m) = m_children m.
Proof.
  unfold configure.
  unfold process_formatter, process_value, process_private.
  repeat match goal with |- context [if ?b then _ else _] => destruct b end; repeat split; reflexivity.
Qed.
Lemma pattern_keeps t p : keeps t (process_match p).
Proof.
  intros m i child m' ok S H. rewrite process_match_eq in H. injection H as <- _. split; [now apply configure_keeps|apply configure_start].
Qed.

(** ** Giving up repetitions *)
Lemma remove_first_sub {A} (f : A -> bool) l l' x : remove_first f l = Some l' -> In x l' -> In x l.
Proof.
  revert l'. induction l as [|y l IH]; intros l' H Hx; simpl in H; [discriminate|]. destruct (f y).
  - injection H as <-. now right.
  - destruct (remove_first f l) as [l1|]; [|discriminate]. injection H as <-. destruct Hx as [->|Hx]; [now left|right; eauto].
Qed.
Lemma removed_sub g : forall (cs : list mtch) x, In x (fold_left (fun cs x => match remove_first (meq x) cs with Some cs' => cs' | None => cs end) g cs) -> In x cs.
Proof.
  induction g as [|y g IH]; intros cs x H; cbn [fold_left] in H; [exact H|]. apply IH in H.
  destruct (remove_first (meq y) cs) as [cs'|] eqn:E; [eapply remove_first_sub; eauto|exact H].
Qed.
(** like [settled], but the match itself may be empty *)
Definition nearly (t : pstr) (m : mtch) : Prop :=
  (settled t m \/ m_start m = m_end m) /\ 0 <= m_start m /\ m_input m = Some t /\ m_rawend m = None
  /\ forall c, In c (m_children m) -> m_start m <= m_start c /\ settled t c.

Lemma settled_nearly t m : settled t m -> nearly t m.
Proof. intros S. pose proof S as [(A & B & C) D E]. split; [auto|]. split; [lia|]. split; [exact A|]. split; [exact B|]. intros c Hc. auto. Qed.

Lemma shrink_settled t p i child : (forall m, m_start m = m_end m -> ~ accepted p child m) -> forall groups m m',
  nearly t m -> shrink p i child groups m = Some m' -> settled t m' /\ m_start m' = m_start m.
Proof.
  intros V. induction groups as [|g r IH]; intros m m' N H; cbn [shrink] in H; [discriminate|].
  set (cs := fold_left _ g (m_children m)) in H.
  set (m1 := set_end (set_children m cs) (match rev cs with x :: _ => m_end x | [] => m_start m end)) in H.
  assert (forall c, In c cs -> In c (m_children m)) as SUB by (intros c; apply removed_sub). clearbody cs.
  destruct N as (_ & N2 & N3 & N4 & N5).
  assert (m_start m1 = m_start m /\ m_children m1 = cs /\ m_input m1 = Some t /\ m_rawend m1 = None) as (B1 & B2 & B3 & B4).
  { repeat split; assumption. }
  assert (forall c, In c (m_children m1) -> m_start m1 <= m_start c /\ settled t c) as B5.
  { rewrite B1, B2. intros c Hc. apply N5. auto. }
  assert (settled t m1 \/ m_start m1 = m_end m1) as B6.
  { assert (m_end m1 = match rev cs with x :: _ => m_end x | [] => m_start m end) as EN by reflexivity. destruct (rev cs) as [|x r'] eqn:R; [right; congruence|]. left.
    assert (In x cs) as Hx by (apply in_rev; rewrite R; now left). destruct (N5 x (SUB x Hx)) as [X1 [(_ & _ & X2) _ _]].
    constructor.
    - split; [exact B3|]. split; [exact B4|]. rewrite B1. rewrite EN. lia.
    - intros c Hc. apply (B5 c Hc).
    - intros c Hc. apply (B5 c Hc). }
  clearbody m1. rewrite process_match_eq in H. destruct (configure_start p i child m1) as (C1 & C2 & C3).
  destruct (process_validator p (configure p i child m1) child) eqn:EV.
  - injection H as <-. split; [|congruence]. destruct B6 as [B6|B6]; [now apply configure_keeps|].
    exfalso. apply (V (configure p i child m1)); [congruence|]. now apply validator_accepted.
  - apply IH in H as [H1 H2]; [split; [exact H1|congruence]|].
    assert (m_input (configure p i child m1) = Some t /\ m_rawend (configure p i child m1) = None) as [D1 D2].
    { unfold configure.
      unfold process_formatter, process_value, process_private.
      repeat match goal with |- context [if ?b then _ else _] => destruct b end; split; assumption. }
    split. { destruct B6 as [B6|B6]; [left; now apply configure_keeps|right; congruence]. }
    split; [lia|]. split; [exact D1|]. split; [exact D2|]. rewrite C1, C3. exact B5.
Qed.
Lemma chain_keeps t p : refuses_empty p -> keeps t (chain_process_match p).
Proof.
  intros V m i child m' ok S H. unfold chain_process_match in H. rewrite process_match_eq in H.
  pose proof (@configure_keeps t p i child m S) as S1. destruct (configure_start p i child m) as (C1 & _ & _).
  destruct (process_validator p (configure p i child m) child) eqn:EV. { injection H as <- _. auto. }
  destruct (rev (m_children (configure p i child m))) as [|l r]. { injection H as <- _. auto. }
  destruct (shrink _ _ _ _ _) as [m2|] eqn:ES; [|injection H as <- _; auto]. injection H as <- _.
  destruct (V child) as [V1|V1].
  - exfalso. specialize (V1 (configure p i child m)). apply validator_accepted in V1. congruence.
  - apply shrink_settled with (t := t) in ES; auto; [|now apply settled_nearly]. rewrite <- C1. exact ES.
Qed.

(** ** Assembling the chain matches *)
Lemma shift_fields input off m : m_children (shift input off m) = map (shift input off) (m_children m)
  /\ m_input (shift input off m) = Some input /\ m_rawend (shift input off m) = m_rawend m
  /\ m_start (shift input off m) = (if option_eqb pstr_eqb (m_input m) (Some input) then m_start m else m_start m + off)
  /\ m_end (shift input off m) = (if option_eqb pstr_eqb (m_input m) (Some input) then m_end m else m_end m + off).
Proof. destruct m. repeat split. Qed.
Lemma shift_settled t input off m : 0 <= off -> settled t m -> settled input (shift input off m).
Proof.
  intros O S. induction S as [m A B C IH]. destruct (shift_fields input off m) as (F1 & F2 & F3 & F4 & F5).
  destruct A as (A1 & A2 & A3). rewrite A1 in F4, F5.
  constructor.
  - split; [exact F2|]. split; [congruence|]. rewrite F4, F5. destruct (option_eqb _ _ _); lia.
  - rewrite F1. intros c' Hc. apply in_map_iff in Hc as (c & <- & Hc). destruct (shift_fields input off c) as (_ & _ & _ & G4 & _).
    destruct (C c Hc) as [(D1 & _) _ _]. rewrite D1 in G4. rewrite F4, G4. specialize (B c Hc). destruct (option_eqb _ _ _); lia.
  - rewrite F1. intros c' Hc. apply in_map_iff in Hc as (c & <- & Hc). auto.
Qed.

Definition sound (cp : cpart) : Prop :=
  (forall n t n' ms raws, cp_match cp n t = Ok (n', (ms, raws)) -> Forall (settled t) ms /\ Forall (settled t) raws) /\ convergent cp.
Lemma sound_proper cp : sound cp -> proper cp /\ convergent cp.
Proof.
  intros [A B]. split; [|exact B]. intros n t n' ms raws H. destruct (A _ _ _ _ _ H) as [C D].
  split; eapply Forall_impl; [|exact C| |exact D]; intros m [X _ _]; exact X.
Qed.

Section Loop.
  Variable breaker : option (list mtch -> bool).
  Variable input : pstr.
  Definition good (st : cstate) : Prop := 0 <= cs_offset st /\ Forall (settled input) (cs_current st).

  Lemma settled_raw_end t m : settled t m -> 0 <= raw_end m.
  Proof. intros [(_ & A & B) _ _]. unfold raw_end. rewrite A. lia. Qed.
  Lemma next_groups_good hidden visible : (forall i g, dfind visible i = Some g -> Forall (settled input) g) -> forall groups st st',
    (forall i g, In (i, g) groups -> Forall (settled input) g) -> good st ->
    next_groups breaker hidden input visible groups st = Ok st' -> good st'.
  Proof.
    intros V. induction groups as [|[i g] r IH]; intros st st' G [A B] H; cbn [next_groups] in H.
    - injection H as <-. split; auto.
    - assert (0 <= match rev g with x :: _ => raw_end x | [] => cs_offset st end) as O.
      { destruct (rev g) as [|x l] eqn:R; [exact A|]. assert (In x g) as Hx by (apply in_rev; rewrite R; now left).
        specialize (G i g (or_introl eq_refl)). rewrite Forall_forall in G. eapply settled_raw_end; eauto. }
      assert (forall i g, In (i, g) r -> Forall (settled input) g) as G' by (intros; eapply G; right; eauto).
      destruct hidden; [eapply IH in H; eauto; split; auto|].
      destruct (breaker_allows breaker _) as [b|]; [|discriminate]. eapply IH in H; eauto. split; [exact O|]. cbn [cs_current].
      destruct b; [|exact B]. apply Forall_app. split; [exact B|]. destruct (dfind visible i) eqn:E; [eauto|constructor].
  Qed.
  Lemma group_settled (ms : list mtch) : Forall (settled input) ms -> forall i g, In (i, g) (group_by_index ms) -> Forall (settled input) g.
  Proof.
    intros F i g H. apply group_by_index_In in H as [_ H]. rewrite Forall_forall in *. intros x Hx. apply F. now apply H.
  Qed.
  Lemma run_parts_good : forall parts first st st' valid, Forall sound parts -> good st ->
    run_parts breaker input first parts st = Ok (st', valid) -> good st'.
  Proof.
    induction parts as [|cp r IH]; intros first st st' valid P G H; cbn [run_parts] in H. { injection H as <- _. exact G. }
    inversion P as [|? ? [P1 _] P2]; subst.
    destruct (part_matches first cp (cs_next st) (cs_text st)) as [[n' [ms raws]]|e] eqn:E.
    - apply part_matches_ok in E as (ms0 & raws0 & E & -> & -> & _). destruct (P1 _ _ _ _ _ E) as [Q1 Q2].
      destruct (to_next_part _ _ _ _ _ _) as [st1|] eqn:E1; [|discriminate]. eapply IH in H; eauto.
      unfold to_next_part in E1.
      assert (forall l, Forall (settled (cs_text st)) l ->
        Forall (settled input) (map (shift input (cs_offset st)) (truncate_repeater first (cp_end cp) l (cs_text st)))) as SH.
      { intros l F. apply Forall_forall. intros x Hx. apply in_map_iff in Hx as (y & <- & Hy). apply truncate_In in Hy. rewrite Forall_forall in F.
        eapply shift_settled; [apply G|auto]. }
      eapply next_groups_good in E1; [exact E1| | |].
      + intros i g D. apply dfind_In in D. eapply group_settled; [|exact D]. apply SH. exact Q1.
      + intros i g D. eapply group_settled; [|exact D]. apply SH. exact Q2.
      + destruct G. split; auto.
    - assert (good (match cs_current st with m :: _ => CState (cs_next st) (cs_found st) (cs_text st) (raw_end m) (cs_current st) | [] => st end)) as G1.
      { destruct G as [G1 G2]. destruct (cs_current st) as [|m l] eqn:C; [split; [auto|rewrite C; constructor]|].
        split; cbn [cs_offset cs_current]; [|exact G2]. inversion G2; subst. eapply settled_raw_end; eauto. }
      destruct e; try discriminate. injection H as <- _. exact G1.
  Qed.

  Lemma append_all_in : forall add cs cs', append_all cs add = Ok cs' -> forall x, In x cs' -> In x cs \/ In x add.
  Proof.
    induction add as [|c r IH]; intros cs cs' H x Hx; cbn [append_all] in H. { injection H as <-. now left. }
    unfold append_child in H. destruct (m_marker c); [discriminate|]. destruct (IH _ _ H x Hx) as [H1|H1]; [|right; now right].
    apply in_app_iff in H1 as [H1|[->|[]]]; [now left|right; now left].
  Qed.
  Lemma chain_children_settled main lo : forall cur cs cs',
    (forall m, In m cur -> settled input m /\ lo <= m_start m) -> (forall c, In c cs -> settled input c /\ lo <= m_start c) ->
    chain_children main cur cs = Ok cs' -> forall c, In c cs' -> settled input c /\ lo <= m_start c.
  Proof.
    induction cur as [|m r IH]; intros cs cs' C D H; cbn [chain_children] in H. { injection H as <-. exact D. }
    destruct (append_all cs (m_children m)) as [cs1|] eqn:E; [|discriminate].
    destruct (C m (or_introl eq_refl)) as [C1 C2].
    assert (forall c, In c cs1 -> settled input c /\ lo <= m_start c) as D1.
    { intros c Hc. destruct (append_all_in E Hc) as [Hc'|Hc']; [auto|]. destruct C1 as [_ X Y]. specialize (X c Hc'). split; [auto|lia]. }
    assert (forall m, In m r -> settled input m /\ lo <= m_start m) as C' by (intros; apply C; now right).
    destruct (mem meq m cs1); [exact (IH _ _ C' D1 H)|]. unfold append_child in H. destruct (m_marker _); [discriminate|].
    refine (IH _ _ C' _ H). intros c Hc. apply in_app_iff in Hc as [Hc|[<-|[]]]; [auto|]. split; [now apply settled_parent|exact C2].
  Qed.
  Lemma fold_min : forall (r : list mtch) z, fold_left (fun a x => Z.min a (m_start x)) r z <= z
    /\ (forall x, In x r -> fold_left (fun a x => Z.min a (m_start x)) r z <= m_start x)
    /\ (0 <= z -> (forall x, In x r -> 0 <= m_start x) -> 0 <= fold_left (fun a x => Z.min a (m_start x)) r z).
  Proof.
    induction r as [|y r IH]; intro z; cbn [fold_left]. { split; [lia|]. split; [intros ? []|auto]. }
    destruct (IH (Z.min z (m_start y))) as (A & B & C). split; [lia|]. split.
    - intros x [<-|Hx]; [lia|auto].
    - intros Hz Hr. apply C; [pose proof (Hr y (or_introl eq_refl)); lia|]. intros; apply Hr; now right.
  Qed.
  Lemma fold_max : forall (r : list mtch) z, z <= fold_left (fun a x => Z.max a (m_end x)) r z.
  Proof. induction r as [|y r IH]; intro z; cbn [fold_left]; [lia|]. specialize (IH (Z.max z (m_end y))). lia. Qed.
  Lemma build_settled p id cur m : Forall (settled input) cur -> build_chain_match p id cur input = Ok m -> settled input m.
  Proof.
    intros F H. unfold build_chain_match in H. destruct cur as [|x r]; [discriminate|]. cbv zeta in H.
    set (st := fold_left _ r (m_start x)) in H. set (en := fold_left _ r (m_end x)) in H.
    set (main := new_match id st en _ _ input) in H. rewrite Forall_forall in F.
    destruct (@fold_min r (m_start x)) as (A & B & C). fold st in A, B, C. pose proof (@fold_max r (m_end x)) as D. fold en in D.
    assert (forall y, In y (x :: r) -> 0 <= m_start y < m_end y) as P. { intros y Hy. destruct (F y Hy) as [(_ & _ & X) _ _]. exact X. }
    destruct (chain_children main (x :: r) []) as [cs|] eqn:E; [|discriminate]. injection H as <-. apply settled_relink_children.
    pose proof (P x (or_introl eq_refl)) as Px.
    apply settled_children.
    - constructor; [|intros ? []|intros ? []]. split; [reflexivity|]. split; [reflexivity|]. cbn [main m_start m_end new_match].
      assert (0 <= st) by (apply C; [lia|intros y Hy; pose proof (P y (or_intror Hy)); lia]). lia.
    - intros c Hc. destruct (@chain_children_settled main st (x :: r) [] cs) with (c := c) as [E1 E2]; auto.
      + intros y Hy. split; [auto|]. destruct Hy as [<-|Hy]; auto.
      + intros ? [].
  Qed.
  Lemma chain_loop_settled p parts : Forall sound parts -> forall fuel n text offset acc n' ms, 0 <= offset -> Forall (settled input) acc ->
    chain_loop fuel p breaker parts input n text offset acc = Ok (n', ms) -> Forall (settled input) ms.
  Proof.
    intros P. induction fuel as [|f IH]; intros n text offset acc n' ms O A H; cbn [chain_loop] in H.
    - destruct (offset <? zlen input); [discriminate|]. injection H as _ <-. exact A.
    - destruct (offset <? zlen input); [|injection H as _ <-; exact A].
      destruct (run_parts _ _ _ _ _) as [[st valid]|] eqn:E; [|discriminate].
      apply run_parts_good in E as [G1 G2]; auto; [|split; [exact O|constructor]].
      destruct (negb (cs_found st)); [injection H as _ <-; exact A|].
      destruct (cs_current st) as [|m r] eqn:C; [exact (IH _ _ _ _ _ _ G1 A H)|]. destruct valid; [|exact (IH _ _ _ _ _ _ G1 A H)].
      destruct (build_chain_match _ _ _ _) as [M|] eqn:B; [|discriminate]. refine (IH _ _ _ _ _ _ G1 _ H). apply Forall_app. split; [exact A|]. constructor; [|constructor].
      eapply build_settled; eauto.
  Qed.
End Loop.

(** ** A chain is itself a sound part *)
Lemma chain_sound p breaker parts a b hidden : no_processor p -> refuses_empty p -> Forall sound parts ->
  sound (CPart (fun n t => chain_matches (S (length t)) p breaker parts n t) a b hidden).
Proof.
  intros N V P.
  assert (Forall proper parts /\ Forall convergent parts) as [P1 P2].
  { split; eapply Forall_impl; try exact P; intros cp H; now apply sound_proper. }
  split; cbn [cp_match].
  - intros n t n' ms raws H. unfold chain_matches in H.
    destruct (chain_match (S (length t)) p breaker parts n t) as [[k l]|] eqn:E; [|discriminate].
    destruct (finish_matches p (chain_process_match p) [l]) as [[os rs]|] eqn:F; [|discriminate]. injection H as _ <- <-.
    eapply finish_settled in F; [exact F|now apply chain_keeps|exact N|]. constructor; [|constructor].
    unfold chain_match in E. refine (chain_loop_settled P _ _ E); [lia|constructor].
  - intros n t. destruct (@C43_chain_matches_terminates_partial p breaker parts n t P1 P2) as (r & R1 & R2).
    cbn [cp_match]. rewrite R2 by lia. exact R1.
Qed.

(** ** A pattern is a sound part *)
Lemma found_settled p src t found : sound_source src -> captures_inside src -> finds p t src found -> Forall (Forall (settled t)) found.
Proof.
  intros S I F. pose proof (found_advances S F) as A. rewrite Forall_forall in A.
  apply Forall_forall. intros ms Hms. apply Forall_forall. intros m Hm.
  assert (In m (concat found)) as Hm' by (apply in_concat; eauto). destruct (A m Hm') as (A1 & _ & A3). rewrite Forall_forall in A3.
  assert ((forall c, In c (m_children m) -> m_start m <= m_start c /\ m_children c = [])) as B.
  { destruct src as [lower o subs|rep rxs|fs]; cbn [finds captures_inside] in *.
    - assert (exists sub, string_match lower p o sub t = Ok ms) as (sub & E).
      { clear - F Hms. induction F; [contradiction|]. destruct Hms as [->|Hms]; [exists x; auto|auto]. }
      apply string_match_raw in E. rewrite Forall_forall in E. destruct (E m Hm) as (_ & -> & _). intros c [].
    - assert (exists rx, In rx rxs /\ re_match p rep rx t = Ok ms) as (rx & Hr & E).
      { clear - F Hms. induction F; [contradiction|]. destruct Hms as [->|Hms]; [exists x; split; [left; auto|auto]|].
        destruct (IHF Hms) as (sub & ? & ?). exists sub. split; [right; auto|auto]. }
      unfold re_match in E. destruct (sequence _ _) as [l|] eqn:Q; [|discriminate].
      apply keep_truthy_inv in E as [_ ->]. apply filter_In in Hm as [Hm _]. apply sequence_ok in Q.
      assert (exists oc, In oc (rx_finditer rx t) /\ re_one p rep (rx_groups rx) t oc = Ok m) as (oc & Hoc & Q1).
      { clear - Q Hm. induction Q; [contradiction|]. destruct Hm as [->|Hm]; [exists x; split; [left; auto|auto]|].
        destruct (IHQ Hm) as (oc & ? & ?). exists oc. split; [right; auto|auto]. }
      unfold re_one in Q1. pose proof (append_children_parent Q1) as (_ & B2 & _ & B4 & _). unfold m_span in B2.
      cbn [m_start m_end new_match] in B2. injection B2 as B2 _. intros c Hc. rewrite B4 in Hc. cbn [m_children new_match app] in Hc.
      apply filter_In in Hc as [Hc _]. apply in_flat_map in Hc as ([nm caps] & Hg & Hc).
      unfold re_child in Hc. apply in_map_iff in Hc as (sp & <- & Hsp). cbn [snd fst] in Hsp. apply in_combine_r in Hg.
      assert (In sp caps) as Hsp'.
      { unfold group_spans in Hsp. destruct rep; auto. destruct (rev caps) as [|y r] eqn:Er; [contradiction|]. destruct (_ && _)%bool; [|contradiction].
        destruct Hsp as [<-|[]]. apply in_rev. rewrite Er. now left. }
      split; [|reflexivity]. rewrite B2. cbn [m_start set_parent set_name new_match]. eapply I; eauto.
    - assert (exists f, functional_match p f t = Ok ms) as (f & E).
      { clear - F Hms. induction F; [contradiction|]. destruct Hms as [->|Hms]; [exists x; auto|auto]. }
      apply functional_match_raw in E. rewrite Forall_forall in E. destruct (E m Hm) as (_ & -> & _). intros c []. }
  constructor; [exact A1|apply B|]. intros c Hc. constructor; [now apply A3| |]; rewrite (proj2 (B c Hc)); intros ? [].
Qed.
Lemma number_settled t : forall l n, Forall (Forall (settled t)) l -> Forall (Forall (settled t)) (snd (number_lists n l)).
Proof.
  assert (forall n m, settled t m -> settled t (number_one n m)) as A.
  { intros n m S. unfold number_one. apply settled_children; [revert S; now apply settled_same|]. destruct S as [_ X Y].
    assert (forall q cs k c, In c (number_children q k cs) -> exists c0, In c0 cs /\ m_start c = m_start c0 /\ (settled t c0 -> settled t c)) as B.
    { intro q. induction cs as [|c0 r IH]; intros k c Hc; cbn [number_children] in Hc; [contradiction|]. destruct Hc as [<-|Hc].
      - exists c0. split; [now left|]. split; [reflexivity|]. now apply settled_same.
      - destruct (IH _ _ Hc) as (c1 & ? & ?). exists c1. split; [now right|auto]. }
    intros c Hc. destruct (B _ _ _ _ Hc) as (c0 & B1 & B2 & B3). cbn [m_start set_id]. rewrite B2. split; auto. }
  assert (forall ms n, Forall (settled t) ms -> Forall (settled t) (snd (number_all n ms))) as B.
  { induction ms as [|m r IH]; intros n F; cbn [number_all]; [constructor|]. inversion F; subst.
    specialize (IH (S n + length (m_children m))%nat H2). destruct (number_all _ r) as [k r']. constructor; auto. }
  induction l as [|o r IH]; intros n F; cbn [number_lists]; [constructor|]. inversion F; subst.
  specialize (B o n H1). destruct (number_all n o) as [k o']. specialize (IH k H2). destruct (number_lists k r) as [k' r']. constructor; auto.
Qed.
Lemma pattern_sound p src a b hidden : no_processor p -> sound_source src -> captures_inside src ->
  sound (CPart (pattern_matches p src) a b hidden).
Proof.
  intros N S I. split; [|exact (proj2 (@C43_patterns_qualify p src a b hidden N S))].
  cbn [cp_match]. intros n t n' ms raws H.
  assert (exists found, finds p t src found /\ finish_matches p (process_match p) (snd (number_lists n found)) = Ok (ms, raws)) as (found & F & H').
  { assert (forall A (subs : list A) mt, run_pattern p subs mt n t = Ok (n', (ms, raws)) -> exists found, Forall2 (fun sub ms => mt sub t = Ok ms) subs found
      /\ finish_matches p (process_match p) (snd (number_lists n found)) = Ok (ms, raws)) as R.
    { intros A subs mt X. unfold run_pattern in X. destruct (sequence _ _) as [occ|] eqn:E; [|discriminate]. apply sequence_ok in E.
      exists occ. split; [exact E|]. destruct (number_lists n occ) as [k occ']. cbn [snd].
      destruct (finish_matches _ _ _) as [[o r]|]; [|discriminate]. now injection X as _ -> ->. }
    destruct src; cbn [pattern_matches finds] in *; now apply R in H. }
  eapply finish_settled; [now apply pattern_keeps|exact N| |exact H']. apply number_settled. eapply found_settled; eauto.
Qed.
Lemma tree_sound : forall c, well_made c -> forall a b hidden, sound (CPart (tree_matches c) a b hidden).
Proof.
  intros c W. induction W as [p src N S I|p breaker parts N V W IH]; intros a b hidden.
  - now apply pattern_sound.
  - change (tree_matches (CChain p breaker parts)) with (fun n t => chain_matches (S (length t)) p breaker (map tree_part parts) n t).
    apply chain_sound; auto. apply Forall_forall. intros cp H. apply in_map_iff in H as ([c [[a' b'] h']] & <- & H).
    exact (IH _ H a' b' h').
Qed.

(** ** C118 *)
(** The search of chains nested to any depth ends, with at most one attempt per character at each level
    (a larger bound on the attempts gives the same answer), and what is found is inside the text's positions,
    not empty, and no part of a match starts before it. *)
Inductive below (m : mtch) : mtch -> Prop :=
| below_self : below m m
| below_child c d : In c (m_children m) -> below c d -> below m d.
Theorem C118_nested_chains_terminate : forall p breaker parts n input, well_made (CChain p breaker parts) ->
  exists r, r <> Err Diverges /\ forall fuel, (length input < fuel)%nat -> chain_matches fuel p breaker (map tree_part parts) n input = r.
Proof.
  intros p breaker parts n input W. inversion W as [|? ? ? N V W']; subst.
  assert (Forall sound (map tree_part parts)) as S.
  { apply Forall_forall. intros cp H. apply in_map_iff in H as ([c [[a b] h]] & <- & H). exact (tree_sound (W' _ H) a b h). }
  apply C43_chain_matches_terminates_partial; eapply Forall_impl; try exact S; intros cp H; now apply sound_proper.
Qed.
Theorem C118_nested_matches_located : forall c n input n' ms raws, well_made c -> tree_matches c n input = Ok (n', (ms, raws)) ->
  forall m d, In m (ms ++ raws) -> below m d -> m_input d = Some input /\ 0 <= m_start m <= m_start d /\ m_start d < m_end d.
Proof.
  intros c n input n' ms raws W H m d Hm B.
  destruct (proj1 (@tree_sound c W 1 None false) n input n' ms raws H) as [S1 S2].
  assert (settled input m) as S. { rewrite Forall_forall in *. apply in_app_iff in Hm as [Hm|Hm]; auto. }
  clear - S B. assert (settled input d /\ m_start m <= m_start d) as [Sd L].
  { induction B as [m|m c d Hc B IH]; [split; [exact S|lia]|]. destruct S as [_ X Y]. destruct (IH (Y c Hc)). split; [auto|]. specialize (X c Hc). lia. }
  destruct S as [(_ & _ & A) _ _]. destruct Sd as [(D1 & _ & D2) _ _]. split; [exact D1|]. lia.
Qed.

(** Without the condition on validators the search may not end: the inner chain finds "abc", its validator
    (at most two characters) refuses it, accepts it without its only part, and the outer chain goes nowhere. *)
Definition plain (id : nat) : popts := new_pattern id no_opts DNone DNone DNone false false false false [] [] false false None None None.
Definition short (id : nat) : popts :=
  new_pattern id no_opts DNone DNone (DSingle (Some (fun m => mlen m <=? 2))) false false false false [] [] false false None None None.
Definition abc : ctree := CPattern (plain 3) (SString (fun x => x) (StringOpts None None false) [s "abc"]).
Definition inner : ctree := CChain (short 2) None [(abc, (1, Some 1, false))].
Definition found_abc (n : nat) : mtch :=
  Mtch n 0 3 VNone None [] false false (Some default_formatter) None (Some (s "abc")) None None 0 (Some 3%nat) None [].
Definition chain_abc (n id : nat) : mtch :=
  let main := Mtch id 0 3 VNone None [] false false None None (Some (s "abc")) None None 0 (Some 2%nat) None [] in
  relink_children (set_children main [set_parent (found_abc n) (Some (shell main))]).
Lemma inner_parts n : exists k, run_parts None (s "abc") true [tree_part (abc, (1, Some 1, false))] (CState n false (s "abc") 0 [])
  = Ok (CState k true [] 3 [found_abc n], true).
Proof. eexists. vm_compute. reflexivity. Qed.
Lemma inner_found n : exists k id, chain_match 4 (short 2) None [tree_part (abc, (1, Some 1, false))] n (s "abc") = Ok (k, [chain_abc n id]).
Proof.
  destruct (inner_parts n) as (k & E). unfold chain_match. change 4%nat with (S 3). 
  assert (forall f, chain_loop (S f) (short 2) None [tree_part (abc, (1, Some 1, false))] (s "abc") n (s "abc") 0 [] =
    chain_loop f (short 2) None [tree_part (abc, (1, Some 1, false))] (s "abc") (S k) [] 3 [chain_abc n k]) as L.
  { intro f. cbn [chain_loop]. rewrite E. reflexivity. }
  rewrite L. exists (S k), k. reflexivity.
Qed.
Definition nothing (id : nat) : mtch :=
  Mtch id 0 0 VNone None [] false false (Some default_formatter) None (Some (s "abc")) None None 0 (Some 2%nat) None [].
Lemma given_up_all id c : m_pattern c = Some 3%nat ->
  chain_process_match (short 2) (Mtch id 0 3 VNone None [] false false None None (Some (s "abc")) None None 0 (Some 2%nat) None [c]) 0 false
  = (nothing id, true).
Proof.
  intro P. unfold chain_process_match. rewrite process_match_eq.
  change (process_validator (short 2) _ false) with false. cbv iota beta.
  change (m_children (configure _ _ _ _)) with [c]. cbn [rev app filter]. rewrite P. change (option_eqb Nat.eqb (Some 3%nat) (Some 3%nat)) with true. cbv iota.
  change (group_by_index [c]) with [(m_index c, [c])]. cbn [map snd rev app shrink fold_left].
  change (m_children (configure _ _ _ _)) with [c]. cbn [remove_first]. rewrite meq_refl. rewrite process_match_eq. reflexivity.
Qed.
Lemma inner_gives_up n id : process_matches (short 2) (chain_process_match (short 2)) (chain_abc n id) 0 = Ok (nothing id, []).
Proof.
  assert (exists c, m_pattern c = Some 3%nat
    /\ chain_abc n id = Mtch id 0 3 VNone None [] false false None None (Some (s "abc")) None None 0 (Some 2%nat) None [c]) as (c & P & ->).
  { eexists. split; [|reflexivity]. reflexivity. }
  pose proof (given_up_all id P) as G. set (x := Mtch id 0 3 _ _ _ _ _ _ _ _ _ _ _ _ _ [c]) in *.
  assert (mbool x = Ok true) as B by reflexivity. clearbody x.
  unfold process_matches. change (po_pre (short 2)) with (@None processor). cbn [apply_processor]. unfold stop_if_falsy at 1. rewrite B.
  rewrite G. reflexivity.
Qed.
Lemma inner_answer n : exists k id, tree_matches inner n (s "abc") = Ok (k, ([], [nothing id])).
Proof.
  destruct (inner_found n) as (k & id & E). exists k, id.
  change (tree_matches inner n (s "abc")) with (chain_matches 4 (short 2) None [tree_part (abc, (1, Some 1, false))] n (s "abc")).
  unfold chain_matches. rewrite E. unfold finish_matches. cbn [process_patterns process_all]. rewrite inner_gives_up. reflexivity.
Qed.
Lemma goes_nowhere n : exists k, run_parts None (s "abc") true [tree_part (inner, (1, Some 1, false))] (CState n false (s "abc") 0 [])
  = Ok (CState k true (s "abc") 0 [], true).
Proof.
  destruct (inner_answer n) as (k & id & E). exists k. cbn [run_parts]. unfold part_matches. 
  change (cp_match (tree_part (inner, (1, Some 1, false)))) with (tree_matches inner). cbn [cs_next cs_text]. rewrite E. reflexivity.
Qed.
Theorem C118_short_validator_diverges :
  (forall n input, tree_matches inner n input <> Err Diverges)
  /\ forall fuel n, chain_matches fuel (plain 1) None [tree_part (inner, (1, Some 1, false))] n (s "abc") = Err Diverges.
Proof.
  split.
  - intros n input.
    assert (sound (tree_part (abc, (1, Some 1, false)))) as [S1 S2].
    { apply pattern_sound; [repeat split| |exact I]. split; [reflexivity|]. repeat constructor. discriminate. }
    destruct (@C43_chain_matches_terminates_partial (short 2) None [tree_part (abc, (1, Some 1, false))] n input) as (r & R1 & R2).
    + constructor; [|constructor]. apply sound_proper. split; assumption.
    + constructor; [|constructor]. exact S2.
    + change (tree_matches inner n input) with (chain_matches (S (length input)) (short 2) None [tree_part (abc, (1, Some 1, false))] n input).
      rewrite R2 by lia. exact R1.
  - intros fuel n.
    assert (forall n acc, chain_loop fuel (plain 1) None [tree_part (inner, (1, Some 1, false))] (s "abc") n (s "abc") 0 acc = Err Diverges) as D.
    { induction fuel as [|f IH]; intros m acc; [reflexivity|]. destruct (goes_nowhere m) as (k & E). cbn [chain_loop]. rewrite E.
      cbn [cs_found cs_current negb cs_next cs_text cs_offset]. apply IH. }
    unfold chain_matches, chain_match. rewrite D. reflexivity.
Qed.

(** A case: an inner chain with a validator, inside a chain *)
Definition long (id : nat) : popts :=
  new_pattern id no_opts DNone DNone (DSingle (Some (fun m => 3 <? mlen m))) false false false false [] [] false false None None None.
Definition ab : ctree := CPattern (plain 3) (SString (fun x => x) (StringOpts None None false) [s "ab"]).
Definition cd : ctree := CPattern (plain 4) (SString (fun x => x) (StringOpts None None false) [s "cd"]).
Definition nested : ctree := CChain (plain 1) None [(cd, (0, Some 1, false)); (CChain (long 2) None [(ab, (1, None, false))], (1, Some 1, false))].
Example C118_example : well_made nested /\
  match tree_matches nested 0%nat (s "ab cdabab") with
  | Ok (_, (ms, _)) => map (fun m => (m_span m, map m_span (m_children m))) ms
  | Err _ => []
  end = [((3, 9), [(3, 5); (5, 7); (7, 9); (5, 9)])].
Proof.
  split; [|vm_compute; reflexivity].
  assert (forall id w, w <> [] -> well_made (CPattern (plain id) (SString (fun x => x) (StringOpts None None false) [w]))) as L.
  { intros id w W. constructor; [repeat split| |exact I]. split; [reflexivity|]. repeat constructor. exact W. }
  assert (forall id child m, accepted (plain id) child m) as AC. { intros id child m. apply validator_accepted. destruct child; [reflexivity|].
    unfold process_validator. cbn. unfold config_keys. destruct (m_name m) as [[|ch r]|]; reflexivity. }
  constructor; [repeat split|intro child; left; intro m; apply AC|].
  intros x [<-|[<-|[]]]; cbn [fst]; [apply L; discriminate|].
  constructor; [repeat split| |intros y [<-|[]]; apply L; discriminate].
  intros [|]; [left; intro m; apply validator_accepted; reflexivity|]. right. intros m E A. apply validator_accepted in A.
  unfold process_validator in A. cbn in A. unfold config_keys in A. destruct (m_name m) as [[|ch r]|]; cbn in A; unfold mlen in A; lia.
Qed.
