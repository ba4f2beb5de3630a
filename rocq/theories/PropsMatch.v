(** * Properties of single matches: C15-C18, C61 *)
From Verif Require Import Base BaseFacts Match Spec MatchFacts.
From Coq Require Import ZifyBool.
Export Coq.Strings.String.StringSyntax.
Set Implicit Arguments.
Unset Strict Implicit.
Open Scope Z_scope.

(** ** C15 *)
Theorem C15_eq_equivalence :
  (forall a, meq a a = true)
  /\ (forall a b, meq a b = true -> meq b a = true)
  /\ (forall a b c, meq a b = true -> meq b c = true -> meq a c = true).
Proof.
  split; [exact meq_refl|]. split; [|exact meq_trans]. intros a b H. rewrite meq_sym. exact H.
Qed.
(** what is compared: span, value, name and parent, nothing else *)
Theorem C15_eq_components : forall a b,
  meq a b = true <->
  m_start a = m_start b /\ m_end a = m_end b /\ py_eqb (m_value a) (m_value b) = true /\ m_name a = m_name b
  /\ match m_parent a, m_parent b with
     | Some p, Some q => meq p q = true
     | None, None => True
     | _, _ => False
     end.
Proof.
  intros a b. rewrite meq_spec. unfold m_span. split.
  - intros (H1 & H2 & H3 & H4). injection H1 as -> ->. tauto.
  - intros (H1 & H1' & H2 & H3 & H4). rewrite H1, H1'. tauto.
Qed.
Theorem C15_ne_is_negation : forall a b, mne a b = negb (meq a b).
Proof. exact mne_negb. Qed.
Theorem C15_hash : forall h a b,
  (meq a b = true -> mhash h a = mhash h b)
  /\ (m_start a = m_start b -> m_end a = m_end b -> mhash h a = mhash h b)
  /\ (forall v, mhash h (set_lit a v) = mhash h a).
Proof.
  intros h a b. split; [|split].
  - intro H. apply C15_eq_components in H as (H1 & H2 & _). unfold mhash, m_span. congruence.
  - intros H1 H2. unfold mhash, m_span. congruence.
  - reflexivity.
Qed.
(** one total preorder, that of the pairs (start, end) *)
Theorem C15_order :
  (forall a b, mlt a b = true <-> m_start a < m_start b \/ (m_start a = m_start b /\ m_end a < m_end b))
  /\ (forall a b, mle a b = true <-> m_start a < m_start b \/ (m_start a = m_start b /\ m_end a <= m_end b))
  /\ (forall a b, mgt a b = mlt b a) /\ (forall a b, mge a b = mle b a)
  /\ (forall a b, mle a b = true \/ mle b a = true)
  /\ (forall a b c, mle a b = true -> mle b c = true -> mle a c = true)
  /\ (forall a b, mlt a b = true <-> mle a b = true /\ mle b a = false)
  /\ (forall a b, meq a b = true -> mle a b = true /\ mle b a = true).
Proof.
  assert (forall a b, mle a b = true <-> m_start a < m_start b \/ (m_start a = m_start b /\ m_end a <= m_end b)) as L.
  { intros. unfold mle, span_leb, m_span; simpl. lia. }
  assert (forall a b, mle a b = false <-> ~ (m_start a < m_start b \/ (m_start a = m_start b /\ m_end a <= m_end b))) as L'.
  { intros. rewrite <- L. destruct (mle a b); split; congruence. }
  split; [exact mlt_spec|]. split; [exact L|]. split; [reflexivity|]. split; [reflexivity|].
  split; [intros; rewrite !L; lia|]. split; [intros a b c; rewrite !L; lia|].
  split; [intros; rewrite mlt_spec, L, L'; lia|].
  intros a b H. apply C15_eq_components in H as (H1 & H2 & _). rewrite !L. lia.
Qed.
Example C15_example :
  let p := mk_match 1 0 9 in
  let a := set_parent (set_lit (set_name (mk_match 2 1 4) (Some (s "n"))) (VInt 1)) (Some p) in
  let b := set_tags (set_parent (set_lit (set_name (mk_match 3 1 4) (Some (s "n"))) (VBool true)) (Some (mk_match 7 0 9))) [s "t"] in
  meq a b = true /\ a <> b /\ meq a (set_parent b None) = false /\ mlt a (set_end b 5) = true /\ mle a b = true.
Proof. repeat split; try reflexivity. discriminate. Qed.

(** ** C16 *)
Theorem C16_crop : forall m crops, nonempty m -> Forall (fun c => fst c <= snd c) crops ->
  Forall nonempty (crop m crops)
  /\ disjoint_list (crop m crops)
  /\ (forall i, (exists p, In p (crop m crops) /\ covers p i)
                <-> covers m i /\ forall c, In c crops -> ~ (fst c <= i < snd c))
  /\ Forall (fun p => p = set_end (set_start m (m_start p)) (m_end p)) (crop m crops).
Proof. exact crop_spec. Qed.
Example C16_example :
  let m := mk_match 1 0 10 in
  nonempty m /\ map m_span (crop m [(2, 3); (5, 7); (6, 8)]) = [(0, 2); (3, 5); (8, 10)]
  /\ crop m [(0, 10)] = [] /\ map m_span (crop m [(4, 4)]) = [(0, 4); (4, 10)].
Proof. repeat split; reflexivity. Qed.

(** ** C17 *)
Theorem C17_split : forall m seps str,
  m_input m = Some str -> m_rawstart m = None -> m_rawend m = None ->
  0 <= m_start m -> m_start m < m_end m -> m_end m <= zlen str ->
  exists r, split m seps = Ok r
    /\ maximal_runs (fun i => match py_nth str i with Some ch => negb (char_in ch seps) | None => false end)
         (m_start m) (m_end m) (map m_span r)
    /\ Forall (fun p => p = set_end (set_start m (m_start p)) (m_end p)) r.
Proof. exact split_spec. Qed.
(** a match without a text cannot be split *)
Theorem C17_no_text : forall m seps, m_input m = None \/ m_input m = Some [] -> split m seps = Err TypeError.
Proof. intros m seps [E|E]; unfold split, m_raw; rewrite E; reflexivity. Qed.
Example C17_example :
  let m := set_input (mk_match 1 1 12) (Some (s "x a bc  def y")) in
  match split m (s " ") with Ok r => map m_span r = [(2, 3); (4, 6); (8, 11)] | Err _ => False end.
Proof. reflexivity. Qed.

(** ** C18 *)
(** a truthy value set is the value; otherwise formatter of the raw text, otherwise the raw text *)
Theorem C18_value_partial : forall m,
  (truthy (m_lit m) = true -> m_value m = m_lit m)
  /\ (m_lit m = VNone -> forall f, m_fmt m = Some f -> m_value m = f (m_raw m))
  /\ (m_lit m = VNone -> m_fmt m = None -> m_value m = m_raw m)
  /\ (forall v, truthy v = true -> m_value (set_lit m v) = v).
Proof.
  intro m. unfold m_value. repeat split.
  - intro H. rewrite H. reflexivity.
  - intros -> f ->. reflexivity.
  - intros -> ->. reflexivity.
  - intros v H. simpl. rewrite H. reflexivity.
Qed.
(** the raw text is the slice of the input *)
Theorem C18_raw : forall m str, m_input m = Some str -> str <> [] -> m_rawstart m = None -> m_rawend m = None ->
  0 <= m_start m -> m_start m <= m_end m -> m_end m <= zlen str ->
  exists t, m_raw m = VStr t /\ zlen t = m_end m - m_start m
    /\ forall i, 0 <= i < zlen t -> py_nth t i = py_nth str (m_start m + i).
Proof.
  intros m str H1 Hs H2 H3 H4 H5 H6. unfold m_raw, raw_start, raw_end. rewrite H1, H2, H3.
  destruct str as [|ch str]; [congruence|]. set (S0 := ch :: str) in *.
  exists (py_slice S0 (Some (m_start m)) (Some (m_end m))). split; [reflexivity|].
  unfold py_slice, py_clip.
  assert (zlen S0 = Z.of_nat (length S0)) as Hz by reflexivity.
  destruct (m_start m <? 0) eqn:E1; [lia|]. destruct (m_end m <? 0) eqn:E2; [lia|].
  rewrite !Z.min_l by lia.
  set (t := firstn _ _).
  assert (length t = Z.to_nat (m_end m - m_start m)) as Hl.
  { unfold t. rewrite firstn_length, skipn_length. lia. }
  split; [unfold zlen; lia|]. intros i Hi.
  assert (zlen t = m_end m - m_start m) as Hzt by (unfold zlen; lia).
  assert (forall {A} (l : list A) j, 0 <= j < zlen l -> py_nth l j = nth_error l (Z.to_nat j)) as N.
  { intros A l j Hj. unfold py_nth, py_pos. destruct (j <? 0) eqn:Ej; [lia|].
    destruct ((0 <=? j) && (j <? zlen l)) eqn:Eb; [reflexivity|lia]. }
  rewrite !N by lia. unfold t.
  assert (forall {A} n j (l : list A), (j < n)%nat -> nth_error (firstn n l) j = nth_error l j) as F.
  { intros A. induction n as [|n IH]; intros j l H; [lia|]. destruct l, j; simpl; try reflexivity. apply IH. lia. }
  assert (forall {A} n j (l : list A), nth_error (skipn n l) j = nth_error l (n + j)) as K.
  { intros A. induction n as [|n IH]; intros j l; [reflexivity|]. destruct l; simpl; [destruct j; reflexivity | apply IH]. }
  rewrite F by lia. rewrite K. f_equal. lia.
Qed.
(** a falsy value set (0, False, '') is ignored by the getter *)
Theorem C18_falsy_refuted :
  let m := set_input (mk_match 1 0 3) (Some (s "abc")) in
  m_value (set_lit m (VInt 0)) = VStr (s "abc") /\ m_value (set_lit m (VStr [])) = VStr (s "abc")
  /\ m_value (set_lit m (VBool false)) = VStr (s "abc").
Proof. repeat split; reflexivity. Qed.
Example C18_example :
  let m := set_input (mk_match 1 1 3) (Some (s "abcd")) in
  m_value m = VStr (s "bc") /\ m_value (set_fmt m (Some (fun _ => VInt 7))) = VInt 7
  /\ m_value (set_lit (set_fmt m (Some (fun _ => VInt 7))) (VStr (s "x"))) = VStr (s "x").
Proof. repeat split; reflexivity. Qed.

(** ** C61 *)
(** [initiator] is an ancestor, and the root when no proper ancestor is an empty match *)
Theorem C61_initiator : forall m,
  ancestor m (initiator m)
  /\ ((forall x, ancestor m x -> x = m \/ m_start x <> m_end x) -> m_parent (initiator m) = None).
Proof. intro m. split; [apply initiator_ancestor | apply initiator_root]. Qed.
Theorem C92_names : forall m n, In n (m_names m) <-> exists x, leaf m x /\ m_name x = n.
Proof. exact m_names_leaf. Qed.
Theorem C92_named_tagged : forall m,
  (forall ns, m_named m ns = true <-> exists n x, In n ns /\ leaf m x /\ m_name x = Some n)
  /\ (forall ts, m_tagged m ts = true <-> exists t, In t ts /\ In t (m_tags m)).
Proof. intro m. split; [apply m_named_spec | apply m_tagged_spec]. Qed.
Example C61_example :
  let r := mk_match 1 0 9 in
  let p := set_parent (mk_match 2 1 5) (Some r) in
  let c := set_parent (mk_match 3 2 4) (Some p) in
  initiator c = r
  /\ m_names (set_children r [set_name p (Some (s "a")); set_children (mk_match 5 6 7) [set_name c (Some (s "b")); c]])
     = [Some (s "a"); Some (s "b"); None].
Proof. split; reflexivity. Qed.
(** an empty parent hides the root *)
Theorem C61_initiator_refuted :
  let p := mk_match 1 3 3 in let c := set_parent (mk_match 2 2 4) (Some p) in
  m_parent c = Some p /\ initiator c = c.
Proof. split; reflexivity. Qed.

(** ** C92: the initiator of every match *)
(** Going up from parent to parent, stopping below a missing or empty parent. *)
Inductive up : mtch -> mtch -> Prop :=
| up_stop m : (forall p, m_parent m = Some p -> m_start p = m_end p) -> up m m
| up_step m p x : m_parent m = Some p -> m_start p <> m_end p -> up p x -> up m x.
Theorem C92_initiator : forall m x, initiator m = x <-> up m x.
Proof.
  assert (forall m, up m (initiator m)) as G.
  { intro m. induction m as [m IH] using parent_ind. rewrite initiator_unfold. destruct (m_parent m) as [p|] eqn:Ep; [|constructor; congruence].
    unfold mtrue, mlen. destruct (m_end p - m_start p =? 0) eqn:E; cbn [negb].
    - constructor. intros q Hq. rewrite Ep in Hq. injection Hq as <-. lia.
    - apply up_step with p; [exact Ep | lia | apply IH; reflexivity]. }
  assert (forall m x, up m x -> forall y, up m y -> x = y) as F.
  { induction 1 as [m Hs|m p x Hp Hne H IH]; intros y Hy; inversion Hy as [m' Hs'|m' q y' Hq Hne' H']; subst.
    - reflexivity.
    - exfalso. exact (Hne' (Hs _ Hq)).
    - exfalso. exact (Hne (Hs' _ Hp)).
    - apply IH. rewrite Hp in Hq. injection Hq as <-. exact H'. }
  intros m x. split; [intros <-; apply G|]. intro H. apply (F m); [apply G | exact H].
Qed.
Example C92_example :
  let r := mk_match 1 0 9 in
  let e := set_parent (mk_match 2 4 4) (Some r) in
  let p := set_parent (mk_match 3 1 5) (Some e) in
  let c := set_parent (mk_match 4 2 4) (Some p) in
  initiator c = p /\ up c p.
Proof. cbv zeta. split; [reflexivity | apply C92_initiator; reflexivity]. Qed.

(** ** C103: the value of every match *)
Definition falsy (v : pyval) : Prop := v = VNone \/ v = VBool false \/ v = VInt 0 \/ v = VStr [] \/ v = VList [].
Lemma falsy_truthy v : falsy v <-> truthy v = false.
Proof.
  unfold falsy. split.
  - intros [->|[->|[->|[->| ->]]]]; reflexivity.
  - destruct v as [|[]|z|[|c v]|[|x l]|n]; cbn; intro H; try discriminate; try tauto.
    apply negb_false_iff, Z.eqb_eq in H. subst z. tauto.
Qed.
(** The value is the one set when it is not falsy; otherwise what the formatter makes of the raw
    text; otherwise the raw text. *)
Inductive value_is (m : mtch) : pyval -> Prop :=
| value_set : ~ falsy (m_lit m) -> value_is m (m_lit m)
| value_formatted f : falsy (m_lit m) -> m_fmt m = Some f -> value_is m (f (m_raw m))
| value_raw : falsy (m_lit m) -> m_fmt m = None -> value_is m (m_raw m).
Theorem C103_value : forall m v, m_value m = v <-> value_is m v.
Proof.
  intros m v. unfold m_value. split.
  - intros <-. destruct (truthy (m_lit m)) eqn:E; [constructor; rewrite falsy_truthy; congruence|].
    destruct (m_fmt m) as [f|] eqn:Ef; [apply value_formatted|apply value_raw]; auto; apply falsy_truthy; exact E.
  - intros [H|f H Ef|H Ef]; rewrite ?falsy_truthy in H.
    + apply not_false_is_true in H. rewrite H. reflexivity.
    + rewrite H, Ef. reflexivity.
    + rewrite H, Ef. reflexivity.
Qed.
(** after [m.value = v] the value is [v], unless [v] is falsy: then it is what it is without value;
    [has_literal_value] tells which *)
Theorem C103_assigned : forall m v,
  (~ falsy v -> m_value (set_lit m v) = v /\ has_literal (set_lit m v) = true)
  /\ (falsy v -> m_value (set_lit m v) = m_value (set_lit m VNone) /\ has_literal (set_lit m v) = false)
  /\ m_raw (set_lit m v) = m_raw m.
Proof.
  intros m v. unfold has_literal. split; [|split].
  - intro H. rewrite falsy_truthy in H. apply not_false_is_true in H. unfold m_value. cbn. rewrite H. split; reflexivity.
  - intro H. apply falsy_truthy in H. unfold m_value. cbn. rewrite H. split; reflexivity.
  - reflexivity.
Qed.
(** The raw text: none without input, else the characters from [raw_start] to [raw_end], which are
    the start and the end of the match unless they were given. *)
Theorem C103_raw : forall m,
  (m_raw m = VNone <-> m_input m = None \/ m_input m = Some [])
  /\ (forall str, m_input m = Some str -> str <> [] ->
      let a := match m_rawstart m with Some a => a | None => m_start m end in
      let b := match m_rawend m with Some b => b | None => m_end m end in
      0 <= a -> 0 <= b ->
      exists t, m_raw m = VStr t
        /\ forall i, nth_error t i = if Z.of_nat i <? b - a then nth_error str (Z.to_nat a + i) else None).
Proof.
  intro m. split.
  - unfold m_raw. destruct (m_input m) as [[|c str]|]; split; intro H; auto; try reflexivity; [discriminate|].
    destruct H as [H|H]; discriminate.
  - intros str Hs Hne a b Ha Hb. unfold m_raw. rewrite Hs. destruct str as [|c str]; [congruence|].
    unfold raw_start, raw_end. fold a. fold b. set (S0 := c :: str). eexists. split; [reflexivity|]. intro i.
    unfold py_slice, py_clip. replace (a <? 0) with false by lia. replace (b <? 0) with false by lia.
    assert (forall A n j (l : list A), nth_error (firstn n l) j = if (j <? n)%nat then nth_error l j else None) as F.
    { intro A. induction n as [|n IH]; intros j l; [destruct j; reflexivity|]. destruct l as [|x l], j as [|j]; cbn [firstn nth_error]; try reflexivity.
      - destruct (S j <? S n)%nat; reflexivity.
      - rewrite IH. reflexivity. }
    assert (forall A n j (l : list A), nth_error (skipn n l) j = nth_error l (n + j)) as K.
    { intro A. induction n as [|n IH]; intros j l; [reflexivity|]. destruct l; cbn; [destruct j; reflexivity | apply IH]. }
    rewrite F, K. unfold zlen.
    assert (forall k, (length S0 <= k)%nat -> nth_error S0 k = None) as No by (intros k Hk; apply nth_error_None; exact Hk).
    destruct (Nat.ltb_spec i (Z.to_nat (Z.min b (Z.of_nat (length S0)) - Z.min a (Z.of_nat (length S0))))) as [H1|H1], (Z.ltb_spec (Z.of_nat i) (b - a)) as [H2|H2].
    + f_equal. lia.
    + exfalso. lia.
    + rewrite No by lia. reflexivity.
    + reflexivity.
Qed.
Example C103_example :
  let m := set_input (mk_match 1 1 9) (Some (s "abcd")) in
  m_value (set_lit m (VInt 0)) = VStr (s "bcd") /\ m_value (set_lit m (VInt 5)) = VInt 5
  /\ m_value (set_lit (set_fmt m (Some (fun _ => VInt 7))) (VList [])) = VInt 7
  /\ falsy (VList []) /\ ~ falsy (VInt 5).
Proof. cbv zeta. repeat split; try reflexivity; [unfold falsy; tauto | rewrite falsy_truthy; discriminate]. Qed.

Print Assumptions C15_eq_equivalence.
Print Assumptions C15_eq_components.
Print Assumptions C15_order.
Print Assumptions C16_crop.
Print Assumptions C17_split.
Print Assumptions C18_value_partial.
Print Assumptions C18_raw.
Print Assumptions C61_initiator.
Print Assumptions C92_names.
Print Assumptions C92_named_tagged.
Print Assumptions C92_initiator.
Print Assumptions C103_value.
Print Assumptions C103_raw.
