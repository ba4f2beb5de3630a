(** * Lemmas for C121 *)
From Coq Require Import ZifyBool Sorting.Sorted.
From Verif Require Import Base BaseFacts Match Coll Loose MatchFacts RulesFacts Pattern PatternFacts PropsLoose PropsPattern Chain SpecChain ChainFacts ChainSem
  PropsChain PropsChain2 SpecNest PropsNest SpecInside.
Set Implicit Arguments.
Unset Strict Implicit.
Open Scope list_scope.
Open Scope Z_scope.

(** [m] and all below it are in [t].  Level 1: no child starts before its parent; level 2: nor ends after it, and nothing is empty *)
Definition fits (lvl : nat) (m c : mtch) : Prop := ((1 <= lvl)%nat -> m_start m <= m_start c) /\ ((2 <= lvl)%nat -> m_end c <= m_end m).
Definition located (lvl : nat) (t : pstr) (m : mtch) : Prop :=
  lies_in t m /\ m_rawend m = None /\ ((2 <= lvl)%nat -> m_start m < m_end m).
Inductive enclosed (lvl : nat) (t : pstr) (m : mtch) : Prop :=
| Enclosed : located lvl t m -> (forall c, In c (m_children m) -> fits lvl m c) -> (forall c, In c (m_children m) -> enclosed lvl t c) -> enclosed lvl t m.

Lemma enclosed_less l1 l2 t m : (l2 <= l1)%nat -> enclosed l1 t m -> enclosed l2 t m.
Proof.
  intros L E. induction E as [m (A1 & A2 & A3) B C IH]. constructor; [|intros c Hc; destruct (B c Hc) as [X Y]; split; intro; [apply X|apply Y]; lia|exact IH].
  split; [exact A1|]. split; [exact A2|]. intro; apply A3; lia.
Qed.
Lemma enclosed_same lvl t m m' : m_input m' = m_input m -> m_rawend m' = m_rawend m -> m_start m' = m_start m -> m_end m' = m_end m ->
  m_children m' = m_children m -> enclosed lvl t m -> enclosed lvl t m'.
Proof.
  intros A B C D E [F G H]. constructor.
  - unfold located, lies_in in *. rewrite A, B, C, D. exact F.
  - rewrite E. unfold fits in *. rewrite C, D. exact G.
  - rewrite E. exact H.
Qed.
Lemma enclosed_parent lvl t m q : enclosed lvl t m -> enclosed lvl t (set_parent m q).
Proof. apply enclosed_same; reflexivity. Qed.
Lemma enclosed_relink lvl t objs m : enclosed lvl t m -> enclosed lvl t (relink objs m).
Proof. apply enclosed_parent. Qed.
Lemma enclosed_children lvl t m cs : enclosed lvl t m -> (forall c, In c cs -> fits lvl m c /\ enclosed lvl t c) -> enclosed lvl t (set_children m cs).
Proof. intros [A B C] H. constructor; [exact A| |]; cbn [m_children set_children]; intros c Hc; apply (H c Hc). Qed.
Lemma enclosed_relink_children lvl t m : enclosed lvl t m -> enclosed lvl t (relink_children m).
Proof.
  intro S. unfold relink_children. apply enclosed_children; [exact S|]. intros c Hc. apply in_map_iff in Hc as (c0 & <- & Hc).
  destruct S as [_ B C]. split; [exact (B c0 Hc)|apply enclosed_relink; auto].
Qed.

(** ** Processing *)
Definition keeps_in (lvl : nat) (t : pstr) (pm : mtch -> nat -> bool -> mtch * bool) : Prop := forall m i child m' ok,
  enclosed lvl t m -> pm m i child = (m', ok) ->
  enclosed lvl t m' /\ ((1 <= lvl)%nat -> m_start m' = m_start m) /\ ((2 <= lvl)%nat -> m_end m' = m_end m).

Lemma process_children_in lvl t pm parent i : keeps_in lvl t pm -> forall todo done cs ok,
  (forall c, In c todo -> fits lvl parent c /\ enclosed lvl t c) -> (forall c, In c done -> fits lvl parent c /\ enclosed lvl t c) ->
  process_children pm parent i done todo = (cs, ok) -> forall c, In c cs -> fits lvl parent c /\ enclosed lvl t c.
Proof.
  intros K. induction todo as [|c0 r IH]; intros done cs ok T D H; cbn [process_children] in H.
  - injection H as <- _. exact D.
  - destruct (pm (relink (parent :: done) c0) i true) as [c' ok'] eqn:E.
    destruct (T c0 (or_introl eq_refl)) as [T1 T2]. destruct (K _ _ _ _ _ (@enclosed_relink lvl t (parent :: done) c0 T2) E) as (K1 & K2 & K3).
    assert (fits lvl parent c' /\ enclosed lvl t c') as C'.
    { split; [|exact K1]. destruct T1 as [X Y]. split; intro L; [rewrite (K2 L)|rewrite (K3 L)]; unfold relink; cbn [m_start m_end set_parent]; auto. }
    destruct ok'.
    + refine (IH _ _ _ _ _ H); intros c Hc; [apply T; now right|]. apply in_app_iff in Hc as [Hc|[<-|[]]]; auto.
    + injection H as <- _. intros c Hc. apply in_app_iff in Hc as [Hc|[<-|Hc]]; auto. apply T. now right.
Qed.
Lemma process_matches_in lvl t p pm m i raw outs : keeps_in lvl t pm -> po_pre p = None -> po_post p = None -> enclosed lvl t m ->
  process_matches p pm m i = Ok (raw, outs) -> enclosed lvl t raw /\ Forall (enclosed lvl t) outs.
Proof.
  intros K N1 N2 S H. unfold process_matches in H. rewrite N1, N2 in H. cbn [apply_processor] in H. unfold stop_if_falsy at 1 in H.
  destruct (mbool m) as [[|]|]; [|injection H as <- <-; split; [exact S|constructor]|discriminate].
  destruct (pm m i false) as [m2 ok] eqn:E. destruct (K _ _ _ _ _ S E) as (K1 & _).
  destruct (negb ok). { injection H as <- <-. split; [now apply enclosed_relink_children|constructor]. }
  destruct (process_children pm m2 i [] (m_children m2)) as [cs ok'] eqn:E1.
  assert (enclosed lvl t (relink_children (set_children m2 cs))) as S3.
  { apply enclosed_relink_children. apply enclosed_children; [exact K1|]. intros c Hc.
    refine (@process_children_in lvl t pm m2 i K _ _ _ _ _ _ E1 c Hc); [|intros ? []].
    intros c0 Hc0. destruct K1 as [_ B C]. auto. }
  cbv zeta in H. destruct (negb ok'). { injection H as <- <-. split; [exact S3|constructor]. }
  unfold stop_if_falsy in H. set (M := relink_children (set_children m2 cs)) in *.
  destruct (mbool M) as [[|]|]; [|injection H as <- <-; split; [exact S3|constructor]|discriminate].
  injection H as <- <-. split; [now apply enclosed_relink_children|].
  apply Forall_forall. intros x Hx. unfold dispatch in Hx. apply in_app_iff in Hx as [Hx|Hx].
  - destruct (_ && _)%bool; [|contradiction]. destruct Hx as [<-|[]]. now apply enclosed_relink_children.
  - destruct (_ || _)%bool; [|contradiction]. apply filter_In in Hx as [Hx _].
    destruct (@enclosed_relink_children lvl t M S3) as [_ _ C]. auto.
Qed.
Lemma finish_in lvl t p pm occ outs raws : keeps_in lvl t pm -> no_processor p -> Forall (Forall (enclosed lvl t)) occ ->
  finish_matches p pm occ = Ok (outs, raws) -> Forall (enclosed lvl t) outs /\ Forall (enclosed lvl t) raws.
Proof.
  intros K (N1 & N2 & N3) SO H. unfold finish_matches in H. rewrite N3 in H.
  destruct (process_patterns p pm occ) as [[rs os]|] eqn:E; [|discriminate]. injection H as <- <-.
  assert (forall l i rs os, Forall (enclosed lvl t) l -> process_all p pm i l = Ok (rs, os) -> Forall (enclosed lvl t) os /\ Forall (enclosed lvl t) rs) as A.
  { induction l as [|m l IH]; intros i rs1 os1 F Q; cbn [process_all] in Q. { injection Q as <- <-. split; constructor. }
    inversion F as [|? ? F1 F2]; subst.
    destruct (process_matches p pm m i) as [[raw out]|] eqn:E1; [|discriminate]. destruct (process_all p pm (S i) l) as [[rs2 os2]|] eqn:E2; [|discriminate].
    injection Q as <- <-. destruct (process_matches_in K N1 N2 F1 E1) as [G1 G2]. destruct (IH _ _ _ F2 E2) as [G3 G4].
    split; [apply Forall_app; auto|constructor; auto]. }
  revert rs os E. induction SO as [|o occ F SO IH]; intros rs os E; cbn [process_patterns] in E. { injection E as <- <-. split; constructor. }
  destruct (process_all p pm 0 o) as [[rs1 os1]|] eqn:E1; [|discriminate]. destruct (process_patterns p pm occ) as [[rs2 os2]|] eqn:E2; [|discriminate].
  injection E as <- <-. destruct (A _ _ _ _ F E1). destruct (IH _ _ eq_refl). split; apply Forall_app; auto.
Qed.
Lemma configure_in lvl t p i child m : enclosed lvl t m -> enclosed lvl t (configure p i child m).
Proof.
  apply enclosed_same; unfold configure, process_formatter, process_value, process_private;
    repeat match goal with |- context [if ?b then _ else _] => destruct b end; reflexivity.
Qed.
(** a processing that sets what is configured and keeps spans and children *)
Definition plain_pm (p : popts) (pm : mtch -> nat -> bool -> mtch * bool) : Prop := forall m i child, fst (pm m i child) = configure p i child m.
Lemma plain_keeps_in lvl t p pm : plain_pm p pm -> keeps_in lvl t pm.
Proof.
  intros P m i child m' ok S H. pose proof (P m i child) as E. rewrite H in E. cbn [fst] in E. subst m'. split; [now apply configure_in|].
  destruct (configure_start p i child m) as (A & B & _). auto.
Qed.
Lemma process_match_plain p : plain_pm p (process_match p).
Proof. intros m i child. now rewrite process_match_eq. Qed.
Lemma chain_plain p : (forall child m, accepted p child m) -> plain_pm p (chain_process_match p).
Proof.
  intros A m i child. unfold chain_process_match. rewrite process_match_eq.
  specialize (A child (configure p i child m)). apply validator_accepted in A. rewrite A. reflexivity.
Qed.
Lemma configure_index p i child m : m_index (configure p i child m) = i.
Proof.
  unfold configure, process_formatter, process_value, process_private;
    repeat match goal with |- context [if ?b then _ else _] => destruct b end; reflexivity.
Qed.

(** ** Giving up repetitions *)
Lemma shrink_in t p i child : forall groups m m', enclosed 1 t m -> shrink p i child groups m = Some m' -> enclosed 1 t m' /\ m_start m' = m_start m.
Proof.
  induction groups as [|g r IH]; intros m m' N H; cbn [shrink] in H; [discriminate|].
  set (cs := fold_left _ g (m_children m)) in H.
  set (m1 := set_end (set_children m cs) (match rev cs with x :: _ => m_end x | [] => m_start m end)) in H.
  assert (forall c, In c cs -> In c (m_children m)) as SUB by (intros c; apply removed_sub). clearbody cs.
  assert (enclosed 1 t m1 /\ m_start m1 = m_start m) as [B1 B2].
  { split; [|reflexivity]. destruct N as [((I1 & I2 & I3) & R & _) B C].
    constructor; cbn [m1 m_children set_end set_children]; [|intros c Hc; split; [intro; exact (proj1 (B c (SUB c Hc)) ltac:(lia))|lia]|intros c Hc; apply C, SUB, Hc].
    split; [|split; [exact R|lia]]. split; [exact I1|]. unfold m1. cbn [m_start m_end set_end set_children].
    destruct (rev cs) as [|x r'] eqn:Er; [lia|]. assert (In x cs) as Hx by (apply in_rev; rewrite Er; now left).
    destruct (C x (SUB x Hx)) as [((_ & X2 & X3) & _) _ _]. pose proof (proj1 (B x (SUB x Hx)) ltac:(lia)). lia. }
  clearbody m1. rewrite process_match_eq in H. destruct (configure_start p i child m1) as (C1 & _).
  destruct (process_validator p (configure p i child m1) child).
  - injection H as <-. split; [now apply configure_in|congruence].
  - apply IH in H as [H1 H2]; [split; [exact H1|congruence]|now apply configure_in].
Qed.
Lemma chain_keeps_in t p : keeps_in 1 t (chain_process_match p).
Proof.
  intros m i child m' ok S H. unfold chain_process_match in H. rewrite process_match_eq in H.
  pose proof (@configure_in 1 t p i child m S) as S1. destruct (configure_start p i child m) as (C1 & _ & _).
  assert (enclosed 1 t m' /\ m_start m' = m_start m) as [A B]; [|split; [exact A|split; [auto|lia]]].
  destruct (process_validator p (configure p i child m) child) eqn:EV. { injection H as <- _. auto. }
  destruct (rev (m_children (configure p i child m))) as [|l r]. { injection H as <- _. auto. }
  destruct (shrink _ _ _ _ _) as [m2|] eqn:ES; [|injection H as <- _; auto]. injection H as <- _.
  apply shrink_in with (t := t) in ES; auto. rewrite <- C1. exact ES.
Qed.

(** ** The occurrences of one part, with their indexes *)
Lemma process_children_index p pm parent i : plain_pm p pm -> forall todo done cs, Forall (fun c => m_index c = i) done ->
  process_children pm parent i done todo = (cs, true) -> Forall (fun c => m_index c = i) cs.
Proof.
  intro P. induction todo as [|c0 r IH]; intros done cs D H; cbn [process_children] in H; [now injection H as <-|].
  destruct (pm (relink (parent :: done) c0) i true) as [c' ok'] eqn:E. destruct ok'; [|discriminate]. refine (IH _ _ _ H). apply Forall_app. split; [exact D|].
  constructor; [|constructor]. pose proof (P (relink (parent :: done) c0) i true) as Q. rewrite E in Q. cbn [fst] in Q. subst c'. apply configure_index.
Qed.
Lemma process_matches_placed t p pm m i raw outs : plain_pm p pm -> po_pre p = None -> po_post p = None -> enclosed 2 t m ->
  process_matches p pm m i = Ok (raw, outs) -> m_index raw = i /\ m_start raw = m_start m /\ m_end raw = m_end m
  /\ Forall (fun o => m_index o = i /\ m_start m <= m_start o /\ m_end o <= m_end m) outs.
Proof.
  intros P N1 N2 S H. pose proof (@plain_keeps_in 2 t p pm P) as K. unfold process_matches in H. rewrite N1, N2 in H. cbn [apply_processor] in H. unfold stop_if_falsy at 1 in H.
  assert (mbool m = Ok true) as T. { destruct S as [(_ & _ & S) _ _]. specialize (S ltac:(lia)). unfold mbool, mlen. destruct (m_end m - m_start m <? 0) eqn:E1; [lia|]. destruct (m_end m - m_start m =? 0) eqn:E2; [lia|reflexivity]. }
  rewrite T in H. clear T.
  destruct (pm m i false) as [m2 ok] eqn:E. destruct (K _ _ _ _ _ S E) as (K1 & K2 & K3). specialize (K2 ltac:(lia)). specialize (K3 ltac:(lia)).
  assert (m_index m2 = i) as I. { pose proof (P m i false) as Q. rewrite E in Q. cbn [fst] in Q. subst m2. apply configure_index. }
  destruct (negb ok). { injection H as <- <-. repeat split; auto. }
  destruct (process_children pm m2 i [] (m_children m2)) as [cs ok'] eqn:E1.
  assert (forall c, In c cs -> fits 2 m2 c /\ enclosed 2 t c) as CH.
  { refine (@process_children_in 2 t pm m2 i K _ _ _ _ _ _ E1); [|intros ? []]. intros c0 Hc0. destruct K1 as [_ B C]. auto. }
  cbv zeta in H. destruct (negb ok') eqn:Eo. { injection H as <- <-. repeat split; auto. }
  destruct ok'; [|discriminate]. apply (process_children_index P) in E1; [|constructor].
  unfold stop_if_falsy in H. set (M := relink_children (set_children m2 cs)) in *.
  assert (m_index M = i /\ m_start M = m_start m /\ m_end M = m_end m) as (M1 & M2 & M3) by (repeat split; assumption).
  destruct (mbool M) as [[|]|]; [|injection H as <- <-; repeat split; auto|discriminate].
  injection H as <- <-. split; [exact M1|]. split; [exact M2|]. split; [exact M3|].
  apply Forall_forall. intros x Hx. unfold dispatch in Hx. apply in_app_iff in Hx as [Hx|Hx].
  - destruct (_ && _)%bool; [|contradiction]. destruct Hx as [<-|[]]. cbn [relink_children m_index m_start m_end set_children]. rewrite M1, M2, M3. lia.
  - destruct (_ || _)%bool; [|contradiction]. apply filter_In in Hx as [Hx _]. unfold relink_children at 1 in Hx. cbn [m_children set_children] in Hx.
    apply in_map_iff in Hx as (y & <- & Hy). unfold M, relink_children in Hy. cbn [m_children set_children] in Hy. apply in_map_iff in Hy as (z & <- & Hz).
    unfold relink. cbn [m_index m_start m_end set_parent]. rewrite Forall_forall in E1. destruct (CH z Hz) as [[F1 F2] _]. specialize (F1 ltac:(lia)). specialize (F2 ltac:(lia)).
    split; [auto|]. rewrite <- K2, <- K3. auto.
Qed.
(** raw matches numbered and from left to right; what is returned is within the raw match with its number *)
Definition placed (ms raws : list mtch) : Prop :=
  StronglySorted (fun a b => (m_index a < m_index b)%nat /\ m_end a <= m_start b) raws
  /\ Forall (fun m => exists r, In r raws /\ m_index m = m_index r /\ m_start r <= m_start m /\ m_end m <= m_end r) ms.
Lemma process_all_placed t p pm : plain_pm p pm -> po_pre p = None -> po_post p = None -> forall l i raws outs, Forall (enclosed 2 t) l ->
  StronglySorted (fun a b => m_end a <= m_start b) l -> process_all p pm i l = Ok (raws, outs) ->
  placed outs raws /\ Forall (fun r => (i <= m_index r)%nat /\ exists m, In m l /\ m_start m = m_start r) raws.
Proof.
  intros P N1 N2. induction l as [|m l IH]; intros i raws outs F S H; cbn [process_all] in H. { injection H as <- <-. repeat split; constructor. }
  inversion F as [|? ? F1 F2]; subst. inversion S as [|? ? S1 S2]; subst.
  destruct (process_matches p pm m i) as [[raw out]|] eqn:E1; [|discriminate]. destruct (process_all p pm (Datatypes.S i) l) as [[rs2 os2]|] eqn:E2; [|discriminate].
  injection H as <- <-. destruct (process_matches_placed P N1 N2 F1 E1) as (A1 & A2 & A3 & A4). destruct (IH _ _ _ F2 S1 E2) as ((B1 & B2) & B3).
  split; [split|].
  - constructor; [exact B1|]. rewrite Forall_forall in *. intros r Hr. destruct (B3 r Hr) as (C1 & m0 & C2 & C3). split; [lia|]. rewrite A3, <- C3. auto.
  - apply Forall_app. split.
    + eapply Forall_impl; [|exact A4]. intros o (O1 & O2 & O3). exists raw. split; [now left|]. rewrite A1, A2, A3. auto.
    + eapply Forall_impl; [|exact B2]. intros o (r & R1 & R2). exists r. split; [now right|exact R2].
  - constructor; [split; [lia|exists m; split; [now left|congruence]]|]. eapply Forall_impl; [|exact B3]. cbv beta. intros r (R1 & m0 & R2 & R3). split; [lia|]. exists m0. split; [now right|exact R3].
Qed.

(** what such a part answers *)
Definition bounded (f : matcher) : Prop := forall n t n' ms raws, f n t = Ok (n', (ms, raws)) ->
  Forall (enclosed 2 t) ms /\ Forall (enclosed 2 t) raws
  /\ (forall r r', In r raws -> In r' raws -> (m_index r <= m_index r')%nat -> m_end r <= m_end r')
  /\ (forall m r, In m ms -> In r raws -> m_index m = m_index r -> m_end m <= m_end r).
Lemma sorted_index (l : list mtch) : StronglySorted (fun a b => (m_index a < m_index b)%nat /\ m_end a <= m_start b) l ->
  Forall (fun m => m_start m <= m_end m) l ->
  forall r r', In r l -> In r' l -> (m_index r <= m_index r')%nat -> m_end r <= m_end r'.
Proof.
  intros S F. induction S as [|m l S IH S2]; intros r r' H H' L; [contradiction|]. inversion F as [|? ? F1 F2]; subst. specialize (IH F2). rewrite Forall_forall in S2, F2.
  destruct H as [->|H], H' as [->|H']; [lia| | |auto].
  - destruct (S2 r' H'). specialize (F2 r' H'). lia.
  - destruct (S2 r H). lia.
Qed.
Lemma finish_bounded t p pm found ms raws : plain_pm p pm -> no_processor p -> Forall (enclosed 2 t) found ->
  StronglySorted (fun a b => m_end a <= m_start b) found -> finish_matches p pm [found] = Ok (ms, raws) ->
  Forall (enclosed 2 t) ms /\ Forall (enclosed 2 t) raws
  /\ (forall r r', In r raws -> In r' raws -> (m_index r <= m_index r')%nat -> m_end r <= m_end r')
  /\ (forall m r, In m ms -> In r raws -> m_index m = m_index r -> m_end m <= m_end r).
Proof.
  intros P N F S H. pose proof N as (N1 & N2 & N3).
  pose proof (finish_in (@plain_keeps_in 2 t p pm P) N (occ := [found]) (Forall_cons _ F (Forall_nil _)) H) as [A B].
  split; [exact A|]. split; [exact B|]. unfold finish_matches in H. cbn [process_patterns] in H. destruct (process_all p pm 0 found) as [[rs os]|] eqn:E; [|discriminate].
  rewrite N3 in H. rewrite !app_nil_r in H. injection H as <- <-. destruct (process_all_placed P N1 N2 F S E) as ((C1 & C2) & _).
  assert (forall r r', In r rs -> In r' rs -> (m_index r <= m_index r')%nat -> m_end r <= m_end r') as D.
  { apply sorted_index; [exact C1|]. eapply Forall_impl; [|exact B]. intros m [((_ & X & _) & _) _ _]. lia. }
  split; [exact D|]. intros m r Hm Hr I. rewrite Forall_forall in C2. destruct (C2 m Hm) as (r0 & R1 & R2 & R3 & R4). specialize (D r0 r R1 Hr). lia.
Qed.

(** ** Assembling the chain matches *)
Lemma shift_enclosed lvl t input off m : 0 <= off -> zlen t + off <= zlen input -> enclosed lvl t m -> enclosed lvl input (shift input off m).
Proof.
  intros O Z S. induction S as [m A B C IH]. destruct (shift_fields input off m) as (F1 & F2 & F3 & F4 & F5).
  destruct A as ((A1 & A2 & A3) & A4 & A5). rewrite A1 in F4, F5.
  assert (option_eqb pstr_eqb (Some t) (Some input) = true -> off = 0) as Z0.
  { cbn [option_eqb]. intro E. apply pstr_eqb_eq in E. subst t. lia. }
  constructor.
  - split; [split; [exact F2|]|split; [congruence|]]; rewrite F4, F5; destruct (option_eqb _ _ _); try specialize (Z0 eq_refl); [lia|lia| |]; intro L; specialize (A5 L); lia.
  - rewrite F1. intros c' Hc. apply in_map_iff in Hc as (c & <- & Hc). destruct (shift_fields input off c) as (_ & _ & _ & G4 & G5).
    destruct (C c Hc) as [((D1 & _) & _) _ _]. rewrite D1 in G4, G5. destruct (B c Hc) as [B1 B2]. unfold fits. rewrite F4, F5, G4, G5. destruct (option_eqb _ _ _); split; intro L; [exact (B1 L)|exact (B2 L)| |]; [specialize (B1 L)|specialize (B2 L)]; lia.
  - rewrite F1. intros c' Hc. apply in_map_iff in Hc as (c & <- & Hc). auto.
Qed.
(** shifted positions start where the text starts *)
Lemma shift_place lvl t input off m : 0 <= off -> zlen t + off <= zlen input -> enclosed lvl t m ->
  m_start (shift input off m) = m_start m + off /\ m_end (shift input off m) = m_end m + off.
Proof.
  intros O Z [((A1 & A2 & A3) & A4 & A5) _ _]. destruct (shift_fields input off m) as (_ & _ & _ & F4 & F5). rewrite A1 in F4, F5. rewrite F4, F5.
  match goal with |- context [if ?b then _ else _] => destruct b eqn:E end; [|auto]. cbn [option_eqb] in E. apply pstr_eqb_eq in E. subst t. clear - O Z. split; lia.
Qed.

Lemma keys_sorted (l : list (nat * list mtch)) : StronglySorted Nat.lt (map fst l) -> StronglySorted (fun a b => (fst a < fst b)%nat) l.
Proof.
  induction l as [|[i g] l IHl]; intro H; [constructor|]. cbn [map fst] in H. inversion H as [|? ? A B]; subst. constructor; [auto|].
  rewrite Forall_forall in *. intros [j h] Hj. cbn [fst]. apply B. apply in_map_iff. exists (j, h). auto.
Qed.

Section Loop.
  Variable breaker : option (list mtch -> bool).
  Variable input : pstr.
  Variable off0 : Z.
  Hypothesis off0_pos : 0 <= off0.
  (** an element of the chain being assembled *)
  Definition held (off : Z) (m : mtch) : Prop := enclosed 2 input m /\ off0 <= m_start m /\ m_end m <= off.
  Definition good (st : cstate) : Prop :=
    off0 <= cs_offset st /\ zlen (cs_text st) + cs_offset st <= zlen input /\ Forall (held (cs_offset st)) (cs_current st).

  Lemma next_groups_in hidden visible : forall groups st st', StronglySorted (fun a b => (fst a < fst b)%nat) groups ->
    (forall i g, In (i, g) groups -> g <> [] /\ Forall (fun x => enclosed 2 input x /\ cs_offset st <= m_end x) g) ->
    (forall i g j h x y, In (i, g) groups -> In (j, h) groups -> (i <= j)%nat -> In x g -> In y h -> m_end x <= m_end y) ->
    (forall i g v x y, In (i, g) groups -> dfind visible i = Some v -> In x g -> In y v -> enclosed 2 input y /\ off0 <= m_start y /\ m_end y <= m_end x) ->
    good st -> next_groups breaker hidden input visible groups st = Ok st' -> good st'.
  Proof.
    induction groups as [|[i g] r IH]; intros st st' SO G O V GS H; cbn [next_groups] in H; [injection H as <-; exact GS|].
    destruct (G i g (or_introl eq_refl)) as [NE GG]. inversion SO as [|? ? SO1 SO2]; subst. destruct GS as (S1 & S2 & S3).
    destruct (rev g) as [|x l] eqn:R. { destruct NE. apply (f_equal (@rev mtch)) in R. rewrite rev_involutive in R. exact R. }
    assert (In x g) as Hx by (apply in_rev; rewrite R; now left). rewrite Forall_forall in GG. destruct (GG x Hx) as [X1 X2].
    assert (raw_end x = m_end x) as RE. { destruct X1 as [(_ & X1 & _) _ _]. unfold raw_end. now rewrite X1. }
    rewrite RE in H.
    assert (0 <= m_end x <= zlen input) as XB. { destruct X1 as [((_ & ? & ?) & _) _ _]. lia. }
    assert (zlen (py_slice input (Some (m_end x)) None) + m_end x <= zlen input) as TB.
    { pose proof (@from_len input (m_end x) ltac:(lia)) as Q. unfold from in Q. rewrite Q. lia. }
    assert (forall c, cs_offset st <= m_end x -> Forall (held (m_end x)) c -> forall st', next_groups breaker hidden input visible r
        (CState (cs_next st) true (py_slice input (Some (m_end x)) None) (m_end x) c) = Ok st' -> good st') as NEXT.
    { intros c L F st2 E. refine (IH _ _ SO1 _ _ _ _ E).
      - cbn [cs_offset]. intros j h Hj. destruct (G j h (or_intror Hj)) as [G1 G2]. split; [exact G1|]. rewrite Forall_forall in *. intros y Hy. split; [apply G2, Hy|].
        apply (O i g j h x y); auto; [now left|now right|]. specialize (SO2 (j, h) Hj). cbn [fst] in SO2. lia.
      - intros j g' k h' y z Hj Hk Ljk Hy Hz. exact (O j g' k h' y z (or_intror Hj) (or_intror Hk) Ljk Hy Hz).
      - intros j g' v y z Hj Dj Hy Hz. exact (V j g' v y z (or_intror Hj) Dj Hy Hz).
      - split; [cbn [cs_offset]; lia|]. split; [exact TB|exact F]. }
    assert (Forall (held (m_end x)) (cs_current st)) as C.
    { eapply Forall_impl; [|exact S3]. intros m (M1 & M2 & M3). split; [exact M1|]. split; [exact M2|lia]. }
    destruct hidden; [exact (NEXT _ X2 C _ H)|].
    destruct (breaker_allows breaker _) as [b|]; [|discriminate]. refine (NEXT _ X2 _ _ H). destruct b; [|exact C]. apply Forall_app. split; [exact C|].
    destruct (dfind visible i) as [v|] eqn:D; [|constructor]. apply Forall_forall. intros y Hy. exact (V i g v x y (or_introl eq_refl) D Hx Hy).
  Qed.
  Lemma run_parts_in : forall parts first st st' valid, Forall (fun cp => bounded (cp_match cp)) parts -> good st ->
    run_parts breaker input first parts st = Ok (st', valid) ->
    off0 <= cs_offset st' /\ zlen (cs_text st') + cs_offset st' <= zlen input /\ (valid = true -> Forall (held (cs_offset st')) (cs_current st')).
  Proof.
    induction parts as [|cp r IH]; intros first st st' valid P G H; cbn [run_parts] in H. { injection H as <- _. destruct G as (A & B & C). auto. }
    inversion P as [|? ? P1 P2]; subst.
    destruct (part_matches first cp (cs_next st) (cs_text st)) as [[n' [ms raws]]|e] eqn:E.
    - apply part_matches_ok in E as (ms0 & raws0 & E & -> & -> & _). destruct (P1 _ _ _ _ _ E) as (Q1 & Q2 & Q3 & Q4).
      destruct (to_next_part _ _ _ _ _ _) as [st1|] eqn:E1; [|discriminate]. refine (IH _ _ _ _ P2 _ H).
      unfold to_next_part in E1. cbn [cs_offset] in E1. pose proof G as (G1 & G2 & G3).
      set (sh := shift input (cs_offset st)) in E1. set (tr := fun l => truncate_repeater first (cp_end cp) l (cs_text st)) in E1.
      assert (forall l x, Forall (enclosed 2 (cs_text st)) l -> In x (map sh (tr l)) ->
        exists y, x = sh y /\ In y l /\ enclosed 2 input x /\ m_index x = m_index y /\ m_start x = m_start y + cs_offset st /\ m_end x = m_end y + cs_offset st /\ 0 <= m_start y < m_end y) as SH.
      { intros l x F Hx. apply in_map_iff in Hx as (y & <- & Hy). apply truncate_In in Hy. rewrite Forall_forall in F. specialize (F y Hy). exists y.
        split; [reflexivity|]. split; [exact Hy|]. split; [apply (@shift_enclosed 2 (cs_text st)); [lia|exact G2|exact F]|]. split; [unfold sh; destruct y; reflexivity|].
        destruct (@shift_place 2 (cs_text st) input (cs_offset st) y ltac:(lia) G2 F). split; [assumption|]. split; [assumption|]. destruct F as [((_ & F1 & _) & _ & F2) _ _]. specialize (F2 ltac:(lia)). lia. }
      destruct (groups_spec (map sh (tr raws0))) as (GS1 & _ & _).
      refine (@next_groups_in _ _ _ _ _ _ _ _ _ _ E1).
      + apply keys_sorted. exact GS1.
      + cbn [cs_offset]. intros i g Hg. apply group_by_index_In in Hg as [NE Hg]. split; [exact NE|]. apply Forall_forall. intros x Hx. destruct (Hg x Hx) as [Hx' _].
        destruct (SH raws0 x Q2 Hx') as (y & _ & _ & Y1 & _ & _ & Y2 & Y3). split; [exact Y1|lia].
      + intros i g j h x y Hg Hh L Hx Hy. apply group_by_index_In in Hg as [_ Hg]. apply group_by_index_In in Hh as [_ Hh]. destruct (Hg x Hx) as [Hx' Ix]. destruct (Hh y Hy) as [Hy' Iy].
        destruct (SH raws0 x Q2 Hx') as (x0 & _ & X1 & _ & X2 & _ & X3 & _). destruct (SH raws0 y Q2 Hy') as (y0 & _ & Y1 & _ & Y2 & _ & Y3 & _).
        pose proof (Q3 x0 y0 X1 Y1 ltac:(lia)). lia.
      + intros i g v x y Hg D Hx Hy. apply group_by_index_In in Hg as [_ Hg]. destruct (Hg x Hx) as [Hx' Ix]. destruct (visible_In D Hy) as [Hy' Iy].
        destruct (SH raws0 x Q2 Hx') as (x0 & _ & X1 & _ & X2 & _ & X3 & _). destruct (SH ms0 y Q1 Hy') as (y0 & _ & Y1 & Y5 & Y2 & Y6 & Y3 & Y4).
        pose proof (Q4 y0 x0 Y1 X1 ltac:(lia)). split; [exact Y5|]. lia.
      + split; [exact G1|]. split; [exact G2|exact G3].
    - destruct e; try discriminate. injection H as <- <-. pose proof G as (G1 & G2 & G3).
      destruct (cs_current st) as [|m l] eqn:C; [split; [exact G1|]; split; [exact G2|discriminate]|]. inversion G3 as [|? ? (M1 & M2 & M3) G4]; subst.
      destruct M1 as [((_ & M4 & _) & M5 & _) _ _]. unfold raw_end. rewrite M5. cbn [cs_offset cs_text]. split; [lia|]. split; [lia|discriminate].
  Qed.

  Lemma chain_children_in main st en : forall cur cs cs',
    (forall m, In m cur -> enclosed 2 input m /\ st <= m_start m /\ m_end m <= en) -> (forall c, In c cs -> enclosed 2 input c /\ st <= m_start c /\ m_end c <= en) ->
    chain_children main cur cs = Ok cs' -> forall c, In c cs' -> enclosed 2 input c /\ st <= m_start c /\ m_end c <= en.
  Proof.
    induction cur as [|m r IH]; intros cs cs' C D H; cbn [chain_children] in H. { injection H as <-. exact D. }
    destruct (append_all cs (m_children m)) as [cs1|] eqn:E; [|discriminate].
    destruct (C m (or_introl eq_refl)) as (C1 & C2 & C3).
    assert (forall c, In c cs1 -> enclosed 2 input c /\ st <= m_start c /\ m_end c <= en) as D1.
    { intros c Hc. destruct (append_all_in E Hc) as [Hc'|Hc']; [auto|]. destruct C1 as [_ X Y]. destruct (X c Hc') as [X1 X2]. specialize (X1 ltac:(lia)). specialize (X2 ltac:(lia)). split; [auto|lia]. }
    assert (forall m, In m r -> enclosed 2 input m /\ st <= m_start m /\ m_end m <= en) as C' by (intros; apply C; now right).
    destruct (mem meq m cs1); [exact (IH _ _ C' D1 H)|]. unfold append_child in H. destruct (m_marker _); [discriminate|].
    refine (IH _ _ C' _ H). intros c Hc. apply in_app_iff in Hc as [Hc|[<-|[]]]; [auto|]. split; [now apply enclosed_parent|]. cbn [m_start m_end set_parent]. auto.
  Qed.
  Lemma fold_max_all : forall (r : list mtch) z, (forall x, In x r -> m_end x <= fold_left (fun a x => Z.max a (m_end x)) r z)
    /\ forall b, z <= b -> (forall x, In x r -> m_end x <= b) -> fold_left (fun a x => Z.max a (m_end x)) r z <= b.
  Proof.
    induction r as [|y r IH]; intro z; cbn [fold_left]. { split; [intros ? []|auto]. }
    destruct (IH (Z.max z (m_end y))) as (A & B). split.
    - intros x [<-|Hx]; [|auto]. pose proof (@fold_max r (Z.max z (m_end y))). lia.
    - intros b Hz Hr. apply B; [pose proof (Hr y (or_introl eq_refl)); lia|]. intros; apply Hr; now right.
  Qed.
  Lemma fold_min_low : forall (r : list mtch) z b, b <= z -> (forall x, In x r -> b <= m_start x) -> b <= fold_left (fun a x => Z.min a (m_start x)) r z.
  Proof.
    induction r as [|y r IH]; intros z b Hz Hr; cbn [fold_left]; [exact Hz|]. apply IH; [pose proof (Hr y (or_introl eq_refl)); lia|]. intros; apply Hr; now right.
  Qed.
  Lemma build_in p id cur off m : Forall (held off) cur -> build_chain_match p id cur input = Ok m -> held off m.
  Proof.
    intros F H. unfold build_chain_match in H. destruct cur as [|x r]; [discriminate|]. cbv zeta in H.
    set (st := fold_left _ r (m_start x)) in H. set (en := fold_left _ r (m_end x)) in H.
    set (main := new_match id st en _ _ input) in H. rewrite Forall_forall in F.
    destruct (@fold_min r (m_start x)) as (A & B & _). fold st in A, B. pose proof (@fold_max r (m_end x)) as D. fold en in D.
    destruct (@fold_max_all r (m_end x)) as (D2 & D3). fold en in D2, D3.
    assert (forall y, In y (x :: r) -> 0 <= m_start y < m_end y /\ m_end y <= zlen input) as P.
    { intros y Hy. destruct (F y Hy) as ([((_ & X & Y) & _ & Z) _ _] & _). specialize (Z ltac:(lia)). lia. }
    destruct (chain_children main (x :: r) []) as [cs|] eqn:E; [|discriminate]. injection H as <-.
    pose proof (P x (or_introl eq_refl)) as Px. pose proof (F x (or_introl eq_refl)) as (_ & Fx1 & Fx2).
    assert (off0 <= st) as L1. { apply fold_min_low; [exact Fx1|]. intros y Hy. apply (F y (or_intror Hy)). }
    assert (en <= off) as L2. { apply D3; [exact Fx2|]. intros y Hy. apply (F y (or_intror Hy)). }
    assert (en <= zlen input) as L3. { apply D3; [lia|]. intros y Hy. apply (P y (or_intror Hy)). }
    split; [|split; [exact L1|exact L2]]. apply enclosed_relink_children. apply enclosed_children.
    - constructor; [|intros ? []|intros ? []]. split; [|split; [reflexivity|]]; [split; [reflexivity|]|]; cbn [main m_start m_end new_match]; lia.
    - intros c Hc. destruct (@chain_children_in main st en (x :: r) [] cs) with (c := c) as (E1 & E2 & E3); auto.
      + intros y Hy. split; [apply F, Hy|]. destruct Hy as [<-|Hy]; [lia|]. split; [apply B, Hy|apply D2, Hy].
      + intros ? [].
      + split; [|exact E1]. split; intros _; [exact E2|exact E3].
  Qed.
End Loop.

Lemma chain_loop_in p breaker parts input : Forall (fun cp => bounded (cp_match cp)) parts -> forall fuel n text offset acc n' ms,
  0 <= offset -> zlen text + offset <= zlen input -> Forall (enclosed 2 input) acc -> StronglySorted (fun a b => m_end a <= m_start b) acc ->
  Forall (fun m => m_end m <= offset) acc ->
  chain_loop fuel p breaker parts input n text offset acc = Ok (n', ms) -> Forall (enclosed 2 input) ms /\ StronglySorted (fun a b => m_end a <= m_start b) ms.
Proof.
  intros P. induction fuel as [|f IH]; intros n text offset acc n' ms O T A S L H; cbn [chain_loop] in H.
  - destruct (offset <? zlen input); [discriminate|]. injection H as _ <-. auto.
  - destruct (offset <? zlen input); [|injection H as _ <-; auto].
    destruct (run_parts _ _ _ _ _) as [[st valid]|] eqn:E; [|discriminate].
    apply (@run_parts_in breaker input offset O) in E as (G1 & G2 & G3); auto; [|split; [cbn [cs_offset]; lia|]; split; [exact T|constructor]].
    destruct (negb (cs_found st)); [injection H as _ <-; auto|].
    assert (Forall (fun m => m_end m <= cs_offset st) acc) as L'. { eapply Forall_impl; [|exact L]. cbv beta. lia. }
    assert (0 <= cs_offset st) as O' by lia.
    destruct (cs_current st) as [|m r] eqn:C; [exact (IH _ _ _ _ _ _ O' G2 A S L' H)|]. destruct valid; [|exact (IH _ _ _ _ _ _ O' G2 A S L' H)].
    destruct (build_chain_match _ _ _ _) as [M|] eqn:B; [|discriminate]. apply (@build_in input offset O) with (off := cs_offset st) in B as (B1 & B2 & B3); [|exact (G3 eq_refl)].
    refine (IH _ _ _ _ _ _ O' G2 _ _ _ H).
    + apply Forall_app. auto.
    + clear - S L B2. induction S as [|a acc S1 IHS S2]; cbn [app]; [repeat constructor|]. inversion L as [|? ? La L1]; subst. constructor; [auto|]. apply Forall_app. split; [exact S2|].
      constructor; [lia|constructor].
    + apply Forall_app. auto.
Qed.
Lemma chain_found_in fuel p breaker parts n input n' found : Forall (fun cp => bounded (cp_match cp)) parts -> chain_match fuel p breaker parts n input = Ok (n', found) ->
  Forall (enclosed 2 input) found /\ StronglySorted (fun a b => m_end a <= m_start b) found.
Proof. intros P H. unfold chain_match in H. refine (chain_loop_in P _ _ _ _ _ H); [lia|lia|constructor|constructor|constructor]. Qed.

(** ** Trees *)
Lemma found_in lvl p src t found : sound_source src -> reports_inside src -> ((1 <= lvl)%nat -> captures_within src) -> finds p t src found ->
  Forall (Forall (enclosed lvl t)) found.
Proof.
  intros S RI I F. pose proof (found_advances S F) as A. rewrite Forall_forall in A.
  apply Forall_forall. intros ms Hms. apply Forall_forall. intros m Hm.
  assert (In m (concat found)) as Hm' by (apply in_concat; eauto). destruct (A m Hm') as ((A1 & A2 & A3) & _ & A4). rewrite Forall_forall in A4.
  assert (m_end m <= zlen t /\ (forall c, In c (m_children m) -> fits lvl m c /\ m_end c <= zlen t /\ m_children c = [])) as [B0 B].
  { destruct src as [lower o subs|rep rxs|fs]; cbn [finds captures_within reports_inside sound_source] in *.
    - assert (exists sub, In sub subs /\ string_match lower p o sub t = Ok ms) as (sub & Hs & E).
      { clear - F Hms. induction F; [contradiction|]. destruct Hms as [->|Hms]; [exists x; split; [now left|auto]|]. destruct (IHF Hms) as (sub & ? & ?). exists sub. split; [now right|auto]. }
      destruct S as [S1 S2]. rewrite Forall_forall in S2. destruct (@string_match_found lower p o sub t S1 (S2 sub Hs)) as (l & ms' & (G1 & G2 & _) & E' & D). rewrite E in E'. injection E' as <-.
      rewrite D in Hm. apply in_map_iff in Hm as (i & <- & Hi). split; [|intros c []]. rewrite Forall_forall in G1. destruct (G1 i Hi) as [Oc _]. apply occurs_bounds in Oc. cbn [m_end new_match]. lia.
    - assert (exists rx, In rx rxs /\ re_match p rep rx t = Ok ms) as (rx & Hr & E).
      { clear - F Hms. induction F; [contradiction|]. destruct Hms as [->|Hms]; [exists x; split; [left; auto|auto]|].
        destruct (IHF Hms) as (sub & ? & ?). exists sub. split; [right; auto|auto]. }
      unfold re_match in E. destruct (sequence _ _) as [l|] eqn:Q; [|discriminate].
      apply keep_truthy_inv in E as [_ ->]. apply filter_In in Hm as [Hm _]. apply sequence_ok in Q.
      assert (exists oc, In oc (rx_finditer rx t) /\ re_one p rep (rx_groups rx) t oc = Ok m) as (oc & Hoc & Q1).
      { clear - Q Hm. induction Q; [contradiction|]. destruct Hm as [->|Hm]; [exists x; split; [left; auto|auto]|].
        destruct (IHQ Hm) as (oc & ? & ?). exists oc. split; [right; auto|auto]. }
      pose proof (S rx t Hr) as EO. unfold engine_ok in EO. rewrite Forall_forall in EO. destruct (EO oc Hoc) as ((_ & O2) & _ & O3). rewrite Forall_forall in O3.
      unfold re_one in Q1. pose proof (append_children_parent Q1) as (_ & B2 & _ & B4 & _). unfold m_span in B2.
      cbn [m_start m_end new_match] in B2. injection B2 as B2 B3. split; [lia|]. intros c Hc. rewrite B4 in Hc. cbn [m_children new_match app] in Hc.
      apply filter_In in Hc as [Hc _]. apply in_flat_map in Hc as ([nm caps] & Hg & Hc).
      unfold re_child in Hc. apply in_map_iff in Hc as (sp & <- & Hsp). cbn [snd fst] in Hsp. apply in_combine_r in Hg.
      assert (In sp caps) as Hsp'.
      { unfold group_spans in Hsp. destruct rep; auto. destruct (rev caps) as [|y r] eqn:Er; [contradiction|]. destruct (_ && _)%bool; [|contradiction].
        destruct Hsp as [<-|[]]. apply in_rev. rewrite Er. now left. }
      cbn [m_start m_end m_children set_parent set_name new_match]. split; [|split; [|reflexivity]].
      + unfold fits. rewrite B2, B3. cbn [m_start m_end set_parent set_name new_match]. split; intro L; destruct (I ltac:(lia) rx t oc caps sp Hr Hoc Hg Hsp'); lia.
      + specialize (O3 caps Hg). rewrite Forall_forall in O3. apply (O3 sp Hsp').
    - assert (exists f, In f fs /\ functional_match p f t = Ok ms) as (f & Hf & E).
      { clear - F Hms. induction F; [contradiction|]. destruct Hms as [->|Hms]; [exists x; split; [now left|auto]|]. destruct (IHF Hms) as (sub & ? & ?). exists sub. split; [now right|auto]. }
      pose proof (functional_match_raw E) as E'. rewrite Forall_forall in E'. destruct (E' m Hm) as (_ & -> & _). split; [|intros c []].
      unfold functional_match in E. destruct (sequence _ _) as [l|] eqn:Q; [|discriminate]. apply keep_truthy_inv in E as [_ ->]. apply filter_In in Hm as [Hm _]. apply sequence_ok in Q.
      assert (exists x, In x (results (f t)) /\ functional_one p t x = Ok m) as (x & Hx & Q1).
      { unfold results. clear - Q Hm. induction Q; [contradiction|]. destruct Hm as [->|Hm]; [exists x; split; [left; auto|auto]|].
        destruct (IHQ Hm) as (oc & ? & ?). exists oc. split; [right; auto|auto]. }
      pose proof (RI f t x Hf Hx) as R. destruct (S f t x Hf Hx) as [OV _]. destruct (functional_one_describes p t OV) as (m' & D1 & D2). rewrite Q1 in D1. injection D1 as <-.
      pose proof (ds_span D2) as SP. rewrite <- SP in R. exact R. }
  constructor; [|apply B|].
  - split; [split; [exact A1|]; lia|]. split; [exact A2|lia].
  - intros c Hc. destruct (B c Hc) as (_ & B1 & B2). destruct (A4 c Hc) as (C1 & C2 & C3). constructor; [|rewrite B2; intros ? []|rewrite B2; intros ? []].
    split; [split; [exact C1|]; lia|]. split; [exact C2|lia].
Qed.
Lemma number_in lvl t : forall l n, Forall (Forall (enclosed lvl t)) l -> Forall (Forall (enclosed lvl t)) (snd (number_lists n l)).
Proof.
  assert (forall n m, enclosed lvl t m -> enclosed lvl t (number_one n m)) as A.
  { intros n m S. unfold number_one. apply enclosed_children; [revert S; now apply enclosed_same|]. destruct S as [_ X Y].
    assert (forall q cs k c, In c (number_children q k cs) -> exists c0, In c0 cs /\ m_start c = m_start c0 /\ m_end c = m_end c0 /\ (enclosed lvl t c0 -> enclosed lvl t c)) as B.
    { intro q. induction cs as [|c0 r IH]; intros k c Hc; cbn [number_children] in Hc; [contradiction|]. destruct Hc as [<-|Hc].
      - exists c0. split; [now left|]. split; [reflexivity|]. split; [reflexivity|]. now apply enclosed_same.
      - destruct (IH _ _ Hc) as (c1 & ? & ?). exists c1. split; [now right|auto]. }
    intros c Hc. destruct (B _ _ _ _ Hc) as (c0 & B1 & B2 & B3 & B4). split; [|auto]. specialize (X c0 B1). unfold fits in *. cbn [m_start m_end set_id]. rewrite B2, B3. exact X. }
  assert (forall ms n, Forall (enclosed lvl t) ms -> Forall (enclosed lvl t) (snd (number_all n ms))) as B.
  { induction ms as [|m r IH]; intros n F; cbn [number_all]; [constructor|]. inversion F; subst.
    specialize (IH (S n + length (m_children m))%nat H2). destruct (number_all _ r) as [k r']. constructor; auto. }
  induction l as [|o r IH]; intros n F; cbn [number_lists]; [constructor|]. inversion F; subst.
  specialize (B o n H1). destruct (number_all n o) as [k o']. specialize (IH k H2). destruct (number_lists k r) as [k' r']. constructor; auto.
Qed.
Lemma number_spans : forall l n, map (map m_span) (snd (number_lists n l)) = map (map m_span) l.
Proof.
  assert (forall ms n, map m_span (snd (number_all n ms)) = map m_span ms) as B.
  { induction ms as [|m r IH]; intros n; cbn [number_all]; [reflexivity|]. specialize (IH (S n + length (m_children m))%nat). destruct (number_all _ r) as [k r']. cbn [snd map] in *. now rewrite IH. }
  induction l as [|o r IH]; intros n; cbn [number_lists]; [reflexivity|].
  specialize (B o n). destruct (number_all n o) as [k o']. specialize (IH k). destruct (number_lists k r) as [k' r']. cbn [snd map] in *. now rewrite B, IH.
Qed.
Lemma pattern_run p src n t n' ms raws : pattern_matches p src n t = Ok (n', (ms, raws)) ->
  exists found, finds p t src found /\ finish_matches p (process_match p) (snd (number_lists n found)) = Ok (ms, raws).
Proof.
  intro H. assert (forall A (subs : list A) mt, run_pattern p subs mt n t = Ok (n', (ms, raws)) -> exists found, Forall2 (fun sub ms => mt sub t = Ok ms) subs found
    /\ finish_matches p (process_match p) (snd (number_lists n found)) = Ok (ms, raws)) as R.
  { intros A subs mt X. unfold run_pattern in X. destruct (sequence _ _) as [occ|] eqn:E; [|discriminate]. apply sequence_ok in E.
    exists occ. split; [exact E|]. destruct (number_lists n occ) as [k occ']. cbn [snd].
    destruct (finish_matches _ _ _) as [[o r]|]; [|discriminate]. now injection X as _ -> ->. }
  destruct src; cbn [pattern_matches finds] in *; now apply R in H.
Qed.
Lemma in_order_bounded : forall c, in_order c -> bounded (tree_matches c).
Proof.
  fix IH 2. intros c O. destruct O as [p src N S W|p breaker parts N V O].
  - intros n t n' ms raws H. cbn [tree_matches] in H. apply pattern_run in H as (found & F & H).
    destruct (orderly_found S F) as (fs & -> & A1 & A2).
    assert (reports_inside src) as RI. { destruct src as [|? ?|fs']; [exact I|exact I|]. cbn [orderly_source reports_inside] in *. destruct fs' as [|f [|? ?]]; try contradiction.
      intros f0 t0 x [<-|[]] Hx. destruct (S t0) as [_ Q]. rewrite Forall_forall in Q. apply (Q x Hx). }
    pose proof (@found_in 2 p src t [fs] (orderly_sound S) RI (fun _ => W) F) as E. pose proof (@number_in 2 t [fs] n E) as E'.
    pose proof (@number_spans [fs] n) as SP. destruct (snd (number_lists n [fs])) as [|fs' [|? ?]]; try discriminate. cbn [map] in SP. injection SP as SP.
    inversion E' as [|? ? E1 _]; subst. eapply finish_bounded; [apply process_match_plain|exact N|exact E1| |exact H].
    apply sorted_spans. rewrite SP. now apply sorted_spans.
  - assert (Forall (fun cp => bounded (cp_match cp)) (map tree_part parts)) as P.
    { apply Forall_forall. intros cp Hc. apply in_map_iff in Hc as ([c [[a e] h]] & <- & Hc). cbn [tree_part cp_match]. exact (IH _ (O _ Hc)). }
    intros n t n' ms raws H. change (chain_matches (S (length t)) p breaker (map tree_part parts) n t = Ok (n', (ms, raws))) in H.
    unfold chain_matches in H. destruct (chain_match _ p breaker _ n t) as [[k found]|] eqn:E; [|discriminate].
    destruct (finish_matches p (chain_process_match p) [found]) as [[os rs]|] eqn:E1; [|discriminate]. injection H as _ <- <-.
    destruct (chain_found_in P E) as [A B]. eapply finish_bounded; [now apply chain_plain|exact N|exact A|exact B|exact E1].
Qed.
Lemma confined_in c n t n' ms raws : confined c -> tree_matches c n t = Ok (n', (ms, raws)) -> Forall (enclosed 0 t) ms /\ Forall (enclosed 0 t) raws.
Proof.
  intros C H. destruct C as [p src N S R|p breaker parts N O].
  - cbn [tree_matches] in H. apply pattern_run in H as (found & F & H).
    refine (finish_in (@plain_keeps_in 0 t p _ (@process_match_plain p)) N _ H). apply number_in. apply (@found_in 0 p src); auto. lia.
  - assert (Forall (fun cp => bounded (cp_match cp)) (map tree_part parts)) as P.
    { apply Forall_forall. intros cp Hc. apply in_map_iff in Hc as ([c [[a e] h]] & <- & Hc). cbn [tree_part cp_match]. exact (in_order_bounded (O _ Hc)). }
    change (chain_matches (S (length t)) p breaker (map tree_part parts) n t = Ok (n', (ms, raws))) in H.
    unfold chain_matches in H. destruct (chain_match _ p breaker _ n t) as [[k found]|] eqn:E; [|discriminate].
    destruct (finish_matches p (chain_process_match p) [found]) as [[os rs]|] eqn:E1; [|discriminate]. injection H as _ <- <-.
    destruct (chain_found_in P E) as [A _]. apply (finish_in (@chain_keeps_in t p) N) in E1 as [F1 F2].
    + split; eapply Forall_impl; [|exact F1| |exact F2]; intro m; apply enclosed_less; lia.
    + constructor; [|constructor]. eapply Forall_impl; [|exact A]. intro m. apply enclosed_less. lia.
Qed.
Lemma enclosed_below lvl t m d : enclosed lvl t m -> below m d -> lies_in t d.
Proof. intros E B. induction B as [m|m c d Hc B IH]; [destruct E as [(A & _) _ _]; exact A|]. apply IH. destruct E as [_ _ C]. auto. Qed.
