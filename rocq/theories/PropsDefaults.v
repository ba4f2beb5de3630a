(** * C117: [set_defaults], with option dictionaries and "clear" at both levels *)
From Verif Require Import Base BaseFacts Loose Builder BuilderFacts PropsBuilder.
From Coq Require String.
Export Coq.Strings.String.StringSyntax.
Open Scope string_scope.
Open Scope list_scope.
Set Implicit Arguments.
Unset Strict Implicit.

(** ** Specification *)
(** two lists are concatenated, the default first; else what is there remains *)
Definition join (default own : pyval) : pyval := match default, own with VList l, VList l' => VList (l ++ l') | _, _ => own end.
(** what an option dictionary gives for the name [n] after the defaults [d] were put into it *)
Definition filled (d own : cell) (n : option pstr) : option pyval :=
  let cleared := match dfind d (Some k_clear) with Some v => truthy v | None => false end in
  let mine := if cleared then None else dfind own n in
  let default := if eqb n (Some k_clear) then None else dfind d n in
  match default, mine with
  | Some v, Some w => Some (join v w)
  | Some v, None => Some v
  | None, _ => mine
  end.
(** the keyword arguments left by "clear" *)
Definition remaining (h : heap) (defaults kw : opts) : opts :=
  match dfind defaults k_clear with Some v => if btruthy h v then [] else kw | None => kw end.
Definition joined (default own : bval) : bval :=
  match default, own with BVal v, BVal w => BVal (join v w) | _, _ => own end.

(** ** Proofs *)
Lemma win_join v w : win_value v w = join w v.
Proof. destruct v, w; reflexivity. Qed.
Lemma h_set_same h a c : h_cell (hset h a c) a = c. Proof. simpl. now rewrite Nat.eqb_refl. Qed.
Lemma h_set_other h a c x : x <> a -> h_cell (hset h a c) x = h_cell h x.
Proof. intro N. simpl. destruct (Nat.eqb_spec x a); [contradiction|reflexivity]. Qed.

Lemma set_defaults_cell_filled h a b : a <> b -> proper_heap h ->
  (forall n, dfind (h_cell (set_defaults_cell h a b) b) n = filled (h_cell h a) (h_cell h b) n)
  /\ (forall n, dfind (h_cell (set_defaults_cell h a b) a) n = if eqb n (Some k_clear) then None else dfind (h_cell h a) n).
Proof.
  intros N PH. unfold set_defaults_cell, filled. destruct (dfind (h_cell h a) (Some k_clear)) as [v|] eqn:E.
  - set (h0 := hset h a (dpop (h_cell h a) (Some k_clear))).
    assert (h_cell h0 a = dpop (h_cell h a) (Some k_clear)) as A0 by apply h_set_same.
    assert (h_cell h0 b = h_cell h b) as B0 by (apply h_set_other; auto).
    set (h1 := if truthy v then hset h0 b [] else h0).
    assert (h_cell h1 a = dpop (h_cell h a) (Some k_clear)) as A1 by (unfold h1; destruct (truthy v); [rewrite h_set_other by exact N|]; exact A0).
    assert (h_cell h1 b = if truthy v then [] else h_cell h b) as B1 by (unfold h1; destruct (truthy v); [apply h_set_same|exact B0]).
    split; intro n.
    + rewrite h_set_same, A1, B1. rewrite merge_cell_find by (apply NoDup_dkeys_dpop, PH). rewrite dfind_dpop by apply PH.
      destruct (truthy v); cbn [dfind]; destruct (eqb n (Some k_clear)); destruct (dfind (h_cell h a) n); try reflexivity;
        destruct (dfind (h_cell h b) n); rewrite ?win_join; reflexivity.
    + rewrite h_set_other by exact N. rewrite A1. apply dfind_dpop, PH.
  - assert (forall n, (if eqb n (Some k_clear) then None else dfind (h_cell h a) n) = dfind (h_cell h a) n) as X.
    { intro n. destruct (eqb n (Some k_clear)) eqn:En; [apply eqb_eq in En; subst; now rewrite E|reflexivity]. }
    split; intro n; rewrite X.
    + rewrite h_set_same. rewrite merge_cell_find by apply PH. destruct (dfind (h_cell h b) n), (dfind (h_cell h a) n); rewrite ?win_join; reflexivity.
    + now rewrite h_set_other by exact N.
Qed.
Lemma set_defaults_cell_proper h a b : proper_heap h -> proper_heap (set_defaults_cell h a b).
Proof.
  intros PH x. unfold set_defaults_cell.
  assert (forall h a c, proper_heap h -> NoDup (dkeys c) -> proper_heap (hset h a c)) as S.
  { intros h1 y c P Hc z. simpl. destruct (Nat.eqb z y); auto. }
  set (h1 := match dfind (h_cell h a) (Some k_clear) with None => h | Some v => _ end).
  assert (proper_heap h1) as P1.
  { unfold h1. assert (NoDup (dkeys (dpop (h_cell h a) (Some k_clear)))) by (apply NoDup_dkeys_dpop, PH).
    destruct (dfind (h_cell h a) (Some k_clear)) as [v|]; [|exact PH].
    destruct (truthy v); repeat apply S; auto. constructor. }
  apply S; [exact P1|]. apply merge_cell_NoDup, P1.
Qed.
Lemma set_default_proper ov h kw kv h1 kw1 : proper_heap h -> set_default ov (h, kw) kv = (h1, kw1) -> proper_heap h1.
Proof.
  intros PH E. unfold set_default in E.
  match type of E with (let '(_, _) := ?x in _) = _ => destruct x as [h2 kw2] eqn:X; assert (proper_heap h2) as P2 end.
  { destruct (dfind kw (fst kv)) as [own|]; [|injection X as <- _; exact PH].
    destruct (snd kv) as [v|a].
    - destruct v; destruct own as [[]|]; injection X as <- _; exact PH.
    - destruct own as [v|b]; [injection X as <- _; exact PH|]. injection X as <- _. now apply set_defaults_cell_proper. }
  destruct (negb (dmem kw2 (fst kv)) || ov); injection E as <- _; exact P2.
Qed.

(** the steps for the other options leave the dictionary [x] of the option [k] alone *)
Lemma loop_others ov k x : forall (D : opts) h kw h' kw', fold_left (set_default ov) D (h, kw) = (h', kw') -> ~ In k (dkeys D) ->
  (forall k0, ~ In (k0, BDict x) D) -> (forall k0, k0 <> k -> dfind kw k0 <> Some (BDict x)) ->
  h_cell h' x = h_cell h x /\ (forall k0, k0 <> k -> dfind kw' k0 <> Some (BDict x)) /\ dfind kw' k = dfind kw k.
Proof.
  induction D as [|[k0 v0] D IH]; intros h kw h' kw' E Nk Nd Hk; cbn [fold_left] in E; [injection E as <- <-; auto|].
  destruct (set_default ov (h, kw) (k0, v0)) as [h1 kw1] eqn:E1. destruct (set_default_pick E1) as [P _]. destruct (set_default_frame E1) as [F1 _].
  assert (k0 <> k) as N0 by (intros ->; apply Nk; left; reflexivity).
  assert (v0 <> BDict x) as V0 by (intros ->; apply (Nd k0); left; reflexivity).
  destruct (IH h1 kw1 h' kw' E) as (I1 & I2 & I3).
  - intro H. apply Nk. right. exact H.
  - intros k1 H. apply (Nd k1). right. exact H.
  - intros k1 N1 X. rewrite P in X. destruct (eqb k1 k0) eqn:Ek; [|exact (Hk k1 N1 X)]. destruct ov; [congruence|]. 
    specialize (Hk k0 N0). destruct (dfind kw k0) as [[w|y]|]; cbn [pick] in X; try congruence. destruct v0; discriminate.
  - split; [|split; [exact I2|]].
    + rewrite I1. apply F1; auto.
    + rewrite I3, P. assert (eqb k k0 = false) as -> by (apply eqb_neq; congruence). reflexivity.
Qed.
Lemma loop_proper ov : forall (D : opts) h kw h' kw', fold_left (set_default ov) D (h, kw) = (h', kw') -> proper_heap h -> proper_heap h'.
Proof.
  induction D as [|kv D IH]; intros h kw h' kw' E PH; cbn [fold_left] in E; [injection E as <- <-; exact PH|].
  destruct (set_default ov (h, kw) kv) as [h1 kw1] eqn:E1. eapply IH; [exact E|]. eapply set_default_proper; eauto.
Qed.

Lemma dsplit (D : opts) k v : NoDup (dkeys D) -> dfind D k = Some v -> exists D1 D2, D = D1 ++ (k, v) :: D2 /\ ~ In k (dkeys D1) /\ ~ In k (dkeys D2).
Proof.
  induction D as [|[k0 v0] D IH]; intros N H; [discriminate|]. cbn [dfind] in H. inversion N as [|? ? N1 N2]; subst. destruct (eqb k k0) eqn:E.
  - apply eqb_eq in E. subst k0. injection H as ->. exists [], D. split; [reflexivity|]. split; [intros []|exact N1].
  - destruct (IH N2 H) as (D1 & D2 & -> & H1 & H2). exists ((k0, v0) :: D1), D2. split; [reflexivity|]. split; [|exact H2].
    intros [X|X]; [|auto]. apply eqb_neq in E. apply E. symmetry. exact X.
Qed.
Lemma dfind_of_In (D : opts) k v : NoDup (dkeys D) -> In (k, v) D -> dfind D k = Some v.
Proof.
  induction D as [|[k0 v0] D IH]; intros N H; [destruct H|]. inversion N as [|? ? N1 N2]; subst. cbn [dfind]. destruct H as [H|H].
  - injection H as -> ->. rewrite (proj2 (eqb_eq k k) eq_refl). reflexivity.
  - destruct (eqb k k0) eqn:E; [|auto]. apply eqb_eq in E. subst k0. destruct N1. apply (in_map fst) in H. exact H.
Qed.

Lemma loop_filled ov (D : opts) h kw h' kw' k a b : NoDup (dkeys D) -> proper_heap h -> separate [D; kw] ->
  fold_left (set_default ov) D (h, kw) = (h', kw') -> dfind D k = Some (BDict a) -> dfind kw k = Some (BDict b) ->
  (forall n, dfind (h_cell h' b) n = filled (h_cell h a) (h_cell h b) n)
  /\ (forall n, dfind (h_cell h' a) n = if eqb n (Some k_clear) then None else dfind (h_cell h a) n).
Proof.
  intros ND PH SP E Ha Hb. destruct (dsplit ND Ha) as (D1 & D2 & -> & K1 & K2).
  rewrite fold_left_app in E. destruct (fold_left (set_default ov) D1 (h, kw)) as [h1 kw1] eqn:E1. cbn [fold_left] in E.
  destruct (set_default ov (h1, kw1) (k, BDict a)) as [h2 kw2] eqn:E2.
  assert (forall k0 v, In (k0, v) (D1 ++ (k, BDict a) :: D2) -> dfind (D1 ++ (k, BDict a) :: D2) k0 = Some v) as FD by (intros k0 v; now apply dfind_of_In).
  assert (a <> b) as N. { intros ->. destruct (SP 0%nat 1%nat _ _ k k b eq_refl eq_refl Ha Hb). discriminate. }
  assert (forall k0, ~ In (k0, BDict a) D1) as A1.
  { intros k0 H. destruct (SP 0%nat 0%nat _ _ k0 k a eq_refl eq_refl (FD k0 _ (in_or_app _ _ _ (or_introl H))) Ha) as [_ ->]. apply K1. apply (in_map fst) in H. exact H. }
  assert (forall k0, ~ In (k0, BDict b) D1) as B1.
  { intros k0 H. destruct (SP 0%nat 1%nat _ _ k0 k b eq_refl eq_refl (FD k0 _ (in_or_app _ _ _ (or_introl H))) Hb). discriminate. }
  assert (forall k0, ~ In (k0, BDict a) D2) as A2.
  { intros k0 H. destruct (SP 0%nat 0%nat _ _ k0 k a eq_refl eq_refl (FD k0 _ (in_or_app D1 ((k, BDict a) :: D2) _ (or_intror (or_intror H)))) Ha) as [_ ->]. apply K2. apply (in_map fst) in H. exact H. }
  assert (forall k0, ~ In (k0, BDict b) D2) as B2.
  { intros k0 H. destruct (SP 0%nat 1%nat _ _ k0 k b eq_refl eq_refl (FD k0 _ (in_or_app D1 ((k, BDict a) :: D2) _ (or_intror (or_intror H)))) Hb). discriminate. }
  destruct (@loop_others ov k a D1 h kw h1 kw1 E1 K1 A1) as (C1 & C2 & C3).
  { intros k0 _ H. destruct (SP 0%nat 1%nat _ _ k k0 a eq_refl eq_refl Ha H). discriminate. }
  destruct (@loop_others ov k b D1 h kw h1 kw1 E1 K1 B1) as (C4 & C5 & _).
  { intros k0 N0 H. destruct (SP 1%nat 1%nat _ _ k0 k b eq_refl eq_refl H Hb). contradiction. }
  pose proof (loop_proper E1 PH) as P1.
  assert (h2 = set_defaults_cell h1 a b) as Eh2.
  { unfold set_default in E2. cbn [fst snd] in E2. rewrite C3, Hb in E2. destruct (negb (dmem kw1 k) || ov); injection E2 as <- _; reflexivity. }
  destruct (@set_defaults_cell_filled h1 a b N P1) as [M1 M2]. rewrite <- Eh2 in M1, M2. rewrite C1, C4 in M1. rewrite C1 in M2.
  destruct (set_default_pick E2) as [Pk _].
  destruct (@loop_others ov k a D2 h2 kw2 h' kw' E K2 A2) as (C6 & _).
  { intros k0 N0 H. rewrite Pk in H. assert (eqb k0 k = false) as X by (apply eqb_neq; exact N0). rewrite X in H. exact (C2 k0 N0 H). }
  destruct (@loop_others ov k b D2 h2 kw2 h' kw' E K2 B2) as (C7 & _).
  { intros k0 N0 H. rewrite Pk in H. assert (eqb k0 k = false) as X by (apply eqb_neq; exact N0). rewrite X in H. exact (C5 k0 N0 H). }
  rewrite C6, C7. auto.
Qed.
Lemma loop_untouched ov : forall (D : opts) h kw h' kw' x, NoDup (dkeys D) -> fold_left (set_default ov) D (h, kw) = (h', kw') ->
  (forall k a b, dfind D k = Some (BDict a) -> dfind kw k = Some (BDict b) -> x <> a /\ x <> b) -> h_cell h' x = h_cell h x.
Proof.
  induction D as [|[k0 v0] D IH]; intros h kw h' kw' x ND E H; cbn [fold_left] in E; [injection E as <- <-; reflexivity|].
  inversion ND as [|? ? N1 N2]; subst. destruct (set_default ov (h, kw) (k0, v0)) as [h1 kw1] eqn:E1. destruct (set_default_pick E1) as [P _].
  assert (h_cell h1 x = h_cell h x) as X1.
  { unfold set_default in E1. cbn [fst snd] in E1.
    assert (h1 = h \/ exists a b, v0 = BDict a /\ dfind kw k0 = Some (BDict b) /\ h1 = set_defaults_cell h a b) as [->|(a & b & Ev & Eb & ->)]; [|reflexivity|].
    - destruct (dfind kw k0) as [own|].
      + destruct v0 as [v|a].
        * left. destruct v; destruct own as [[]|]; destruct (negb (dmem _ k0) || ov); injection E1 as <- _; reflexivity.
        * destruct own as [v|b]; [left; destruct (negb (dmem _ k0) || ov); injection E1 as <- _; reflexivity|].
          right. exists a, b. split; [reflexivity|]. split; [reflexivity|]. destruct (negb (dmem _ k0) || ov); injection E1 as <- _; reflexivity.
      + left. destruct (negb (dmem _ k0) || ov); injection E1 as <- _; reflexivity.
    - subst v0. destruct (H k0 a b) as [Xa Xb]; auto. cbn [dfind]. rewrite (proj2 (eqb_eq k0 k0) eq_refl). reflexivity.
      apply set_defaults_cell_frame; auto. }
  rewrite <- X1. eapply IH; [exact N2|exact E|]. intros k a b Ha Hb.
  assert (eqb k k0 = false) as Nk. { apply eqb_neq. intros ->. apply (proj2 (dfind_None D k0)) in N1. congruence. }
  rewrite P, Nk in Hb. apply (H k a b); auto. cbn [dfind]. rewrite Nk. exact Ha.
Qed.
Lemma pick_joined (w d : option bval) : pick w d = match d, w with Some v, Some o => Some (joined v o) | Some v, None => Some v | None, _ => w end.
Proof. destruct w as [[w|b]|], d as [[v|a]|]; cbn [pick joined]; rewrite ?win_join; reflexivity. Qed.

(** the dictionaries of the two sides being different objects: "clear" among the defaults empties the
    keyword arguments; every default is then given where it is missing, or everywhere with [override]; two lists are
    joined, two dictionaries are merged the same way, in place *)
Theorem C117_set_defaults : forall ov h defaults kw h' defaults' kw',
  NoDup (dkeys defaults) -> proper_heap h -> separate [defaults; kw] ->
  set_defaults ov h defaults kw = (h', defaults', kw') ->
  let own := remaining h defaults kw in
  (forall k, dfind defaults' k = if eqb k k_clear then None else dfind defaults k)
  /\ (forall k, dfind kw' k = if eqb k k_clear then dfind own k else
        match dfind defaults k, dfind own k with
        | Some v, Some w => Some (if ov then v else joined v w)
        | Some v, None => Some v
        | None, w => w
        end)
  /\ (forall k a b, k <> k_clear -> dfind defaults k = Some (BDict a) -> dfind own k = Some (BDict b) ->
        (forall n, dfind (h_cell h' b) n = filled (h_cell h a) (h_cell h b) n)
        /\ (forall n, dfind (h_cell h' a) n = if eqb n (Some k_clear) then None else dfind (h_cell h a) n))
  /\ (forall x, (forall k a b, k <> k_clear -> dfind defaults k = Some (BDict a) -> dfind own k = Some (BDict b) -> x <> a /\ x <> b) ->
        h_cell h' x = h_cell h x).
Proof.
  intros ov h defaults kw h' defaults' kw' ND PH SP E own. unfold set_defaults in E. cbv zeta in E. change (match dfind defaults k_clear with Some v => if btruthy h v then [] else kw | None => kw end) with own in E.
  match type of E with context [fold_left ?f ?d ?i] => destruct (fold_left f d i) as [h1 kw1] eqn:EL end.
  injection E as <- <- <-.
  assert (NoDup (dkeys (dpop defaults k_clear))) as ND' by (apply NoDup_dkeys_dpop, ND).
  assert (forall k v, k <> k_clear -> dfind defaults k = Some v -> dfind (dpop defaults k_clear) k = Some v) as Keep.
  { intros k v N H. rewrite dfind_dpop by exact ND. assert (eqb k k_clear = false) as -> by (apply eqb_neq; exact N). exact H. }
  assert (separate [dpop defaults k_clear; own]) as SP'.
  { assert (forall k x, dfind (dpop defaults k_clear) k = Some (BDict x) -> dfind defaults k = Some (BDict x)) as G1.
    { intros k x H. rewrite dfind_dpop in H by exact ND. destruct (eqb k k_clear); [discriminate|exact H]. }
    assert (forall k x, dfind own k = Some (BDict x) -> dfind kw k = Some (BDict x)) as G2.
    { intros k x H. unfold own, remaining in H. destruct (dfind defaults k_clear) as [v|]; [destruct (btruthy h v); [discriminate|exact H]|exact H]. }
    intros i j d d' k k' x Hi Hj Hd Hd'.
    destruct i as [|[|i]]; [| |destruct i; discriminate]; (destruct j as [|[|j]]; [| |destruct j; discriminate]); cbn [nth_error] in Hi, Hj;
      injection Hi as <-; injection Hj as <-.
    - exact (SP 0%nat 0%nat _ _ k k' x eq_refl eq_refl (G1 _ _ Hd) (G1 _ _ Hd')).
    - exact (SP 0%nat 1%nat _ _ k k' x eq_refl eq_refl (G1 _ _ Hd) (G2 _ _ Hd')).
    - exact (SP 1%nat 0%nat _ _ k k' x eq_refl eq_refl (G2 _ _ Hd) (G1 _ _ Hd')).
    - exact (SP 1%nat 1%nat _ _ k k' x eq_refl eq_refl (G2 _ _ Hd) (G2 _ _ Hd')). }
  split; [|split; [|split]].
  - intro k. apply dfind_dpop, ND.
  - intro k. destruct ov.
    + rewrite (loop_override ND' EL). rewrite dfind_dpop by exact ND. destruct (eqb k k_clear); [reflexivity|]. destruct (dfind defaults k), (dfind own k); reflexivity.
    + rewrite (loop_keep ND' EL), pick_joined. rewrite dfind_dpop by exact ND. destruct (eqb k k_clear); [reflexivity|]. reflexivity.
  - intros k a b N Ha Hb. eapply loop_filled; eauto.
  - intros x H. eapply loop_untouched; [exact ND'|exact EL|]. intros k a b Ha Hb. rewrite dfind_dpop in Ha by exact ND.
    destruct (eqb k k_clear) eqn:Ek; [discriminate|]. apply eqb_neq in Ek. eapply H; eauto.
Qed.

(** defaults [formatter={'a': 1, 'clear': True}, tags=['d']], keyword arguments [formatter={'b': 2}, tags=['k']] *)
Definition dk (t : String.string) : option pstr := Some (s t).
Definition h_two : heap := Heap 2 (fun a => match a with 0%nat => [(dk "a", VInt 1); (dk "clear", VBool true)] | 1%nat => [(dk "b", VInt 2)] | _ => [] end).
Definition d_two : opts := [(s "formatter", BDict 0); (s "tags", BVal (VList [VStr (s "d")]))].
Definition k_two : opts := [(s "formatter", BDict 1); (s "tags", BVal (VList [VStr (s "k")]))].
Example C117_case : NoDup (dkeys d_two) /\ proper_heap h_two /\ separate [d_two; k_two]
  /\ (let '(h', _, kw') := set_defaults false h_two d_two k_two in
      h_cell h' 1%nat = [(dk "a", VInt 1)] /\ h_cell h' 0%nat = [(dk "a", VInt 1)] /\ dfind kw' (s "tags") = Some (BVal (VList [VStr (s "d"); VStr (s "k")]))).
Proof.
  split; [repeat constructor; simpl; intuition discriminate|]. split.
  { intros [|[|[|a]]]; simpl; repeat constructor; simpl; intuition discriminate. }
  split; [|vm_compute; auto].
  assert (forall k x, dfind d_two k = Some (BDict x) -> k = s "formatter" /\ x = 0%nat) as X.
  { intros k x H. unfold d_two in H. cbn [dfind] in H. destruct (eqb k (s "formatter")) eqn:E; [apply eqb_eq in E; injection H as <-; auto|].
    destruct (eqb k (s "tags")); discriminate. }
  assert (forall k x, dfind k_two k = Some (BDict x) -> k = s "formatter" /\ x = 1%nat) as Y.
  { intros k x H. unfold k_two in H. cbn [dfind] in H. destruct (eqb k (s "formatter")) eqn:E; [apply eqb_eq in E; injection H as <-; auto|].
    destruct (eqb k (s "tags")); discriminate. }
  intros i j d d' k k' x Hi Hj Hd Hd'.
  destruct i as [|[|i]]; [| |destruct i; discriminate]; (destruct j as [|[|j]]; [| |destruct j; discriminate]); cbn [nth_error] in Hi, Hj;
    injection Hi as <-; injection Hj as <-; first [apply X in Hd as [-> ->]|apply Y in Hd as [-> ->]]; first [apply X in Hd' as [-> E]|apply Y in Hd' as [-> E]]; try discriminate E; auto.
Qed.
Print Assumptions C117_set_defaults.
