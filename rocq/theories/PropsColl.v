(** * Properties of the match collection: C01-C13

    Statements only; proofs are in Coll*.v.  A history is a list of API calls ([op])
    run from an empty collection; [list_run] is the same history on a plain list. *)
From Verif Require Import Base BaseFacts Match Spec MatchFacts Coll CollFacts CollQuery CollSem CollSem2 SpecColl
  CollHist CollUniv CollOrder CollMore.
From Coq Require Import ZifyBool.
Export Coq.Strings.String.StringSyntax.
Set Implicit Arguments.
Unset Strict Implicit.
Open Scope Z_scope.

(** Matches used in the examples. *)
Definition ex_m (id : nat) (st en : Z) (n : option pstr) (tags : list pstr) : mtch :=
  set_tags (set_name (mk_match id st en) n) tags.
Definition ex_a := ex_m 1 0 3 (Some (s "foo")) [s "x"; s "y"].
Definition ex_b := ex_m 2 3 6 (Some (s "bar")) [s "y"].
Definition ex_c := ex_m 3 5 8 (Some (s "foo")) [].
Definition ex_input := Some (s "abcdefghij").
(** a history with every kind of call except assignments *)
Definition ex_ops : list op :=
  [OAppend ex_a; OEnding 4; OExtend [ex_b; ex_c]; OStarting 3; OInsert 0 ex_c; ORemove ex_c; OAtIndex 5; OPop (-1);
   OAppend ex_a; ODelslice (Some 0) (Some 2); ORemove ex_b; ONamed [s "foo"]; OExtend [ex_c; ex_b]].
Example ex_ops_ok : acceptable KMatches false [] ex_ops /\ no_assignment ex_ops /\ list_run [] ex_ops = [ex_a; ex_c; ex_b].
Proof. repeat split; simpl; repeat constructor. Qed.

(** ** C01 *)
Theorem C01_lookups_agree : forall k input ops,
  acceptable k false [] ops -> no_assignment ops ->
  let c := run (empty_coll k input) ops in
  let l := list_run [] ops in
  (forall n, n <> [] -> exists r, snd (step c (ONamed [n])) = RList r /\ same_members r (filter (name_is n) l))
  /\ (forall t, exists r, snd (step c (OTagged t)) = RList r /\ same_members r (tagged_members t l))
  /\ (forall i, exists r, snd (step c (OStarting i)) = RList r /\ same_members r (filter (starts_at i) l))
  /\ (forall i, exists r, snd (step c (OEnding i)) = RList r /\ same_members r (filter (ends_at i) l))
  /\ (forall i, exists r, snd (step c (OAtIndex i)) = RList r /\ same_members r (filter (coversb i) l)).
Proof.
  intros k input ops H1 H2 c l. destruct (@reached_ok k input ops H1 H2) as (HI & Hd & _). fold c in HI, Hd. fold l in Hd.
  unfold reached in *. fold c in HI, Hd.
  split; [|split; [|split; [|split]]]; [intros n Hn | intro n | intro n | intro n | intro n];
    (eexists; split; [rewrite lookup_answer by reflexivity; reflexivity|]; apply perm_same_members; rewrite <- Hd).
  - simpl. rewrite app_nil_r, <- occ_name by exact Hn. apply (vname_perm HI).
  - rewrite <- occ_tag. apply (vtag_perm HI).
  - rewrite <- occ_start. apply (vstart_perm HI).
  - rewrite <- occ_end. apply (vend_perm HI).
  - rewrite <- occ_at. apply (vat_perm HI).
Qed.

(** [named(a, b, ...)] with several distinct names *)
Theorem C01_named_several : forall k input ops ns,
  acceptable k false [] ops -> no_assignment ops -> NoDup ns -> Forall (fun n => n <> []) ns ->
  let c := run (empty_coll k input) ops in
  exists r, snd (step c (ONamed ns)) = RList r
    /\ same_members r (flat_map (fun n => filter (name_is n) (list_run [] ops)) ns).
Proof.
  intros k input ops ns H1 H2 Hnd Hne c. destruct (@reached_ok k input ops H1 H2) as (HI & Hd & _).
  unfold reached in *. fold c in HI, Hd. eexists. split; [rewrite lookup_answer by reflexivity; reflexivity|].
  apply perm_same_members. rewrite <- Hd.
  assert (dedup pstr_eqb ns = ns) as ->.
  { clear -Hnd. induction Hnd as [|x l Hx Hl IH]; simpl; [reflexivity|]. rewrite IH. f_equal.
    clear -Hx. induction l as [|y l IH]; simpl; [reflexivity|].
    destruct (pstr_eqb x y) eqn:E; simpl.
    - exfalso. apply Hx. left. symmetry. apply pstr_eqb_eq. exact E.
    - f_equal. apply IH. intro. apply Hx. right; assumption. }
  clear Hnd. induction Hne as [|n ns Hn Hns IH]; simpl; [constructor|].
  rewrite !map_app. apply Permutation_app; [|exact IH]. rewrite <- occ_name by exact Hn. apply (vname_perm HI).
Qed.

(** The same without "up to [==]": when no two distinct matches handed over are [==]. *)
Theorem C01_lookups_agree_exactly : forall k input ops,
  acceptable k false [] ops -> no_assignment ops ->
  (forall a b, In a (all_handed ops) -> In b (all_handed ops) -> meq a b = true -> a = b) ->
  let c := run (empty_coll k input) ops in
  let l := list_run [] ops in
  (forall n, n <> [] -> exists r, snd (step c (ONamed [n])) = RList r /\ Permutation r (filter (name_is n) l))
  /\ (forall t, exists r, snd (step c (OTagged t)) = RList r /\ Permutation r (tagged_members t l))
  /\ (forall i, exists r, snd (step c (OStarting i)) = RList r /\ Permutation r (filter (starts_at i) l))
  /\ (forall i, exists r, snd (step c (OEnding i)) = RList r /\ Permutation r (filter (ends_at i) l))
  /\ (forall i, exists r, snd (step c (OAtIndex i)) = RList r /\ Permutation r (filter (coversb i) l)).
Proof.
  intros k input ops H1 H2 Hinj c l. destruct (C01_lookups_agree input H1 H2) as (A1 & A2 & A3 & A4 & A5).
  fold c in A1, A2, A3, A4, A5. fold l in A1, A2, A3, A4, A5.
  pose proof (reached_univ k input ops) as HU. unfold reached in HU. fold c in HU. apply Uok_Uv in HU.
  destruct (@reached_ok k input ops H1 H2) as (_ & Hd & _). unfold reached in Hd. fold c in Hd. fold l in Hd.
  destruct HU as (U0 & U1 & U2 & U3 & U4 & U5). rewrite Hd, Forall_forall in U0.
  assert (forall (p : mtch -> bool), incl (filter p l) (all_handed ops)) as Hf.
  { intros p x Hx. apply filter_In in Hx as [Hx _]. apply U0, Hx. }
  assert (forall o r, is_lookup o = true -> is_keys o = false -> snd (step c o) = RList r -> answer c o = RList r) as Ha.
  { intros o r Ho1 Ho2 E. rewrite <- E. symmetry. apply lookup_answer; assumption. }
  split; [|split; [|split; [|split]]].
  - intros n Hn. destruct (A1 n Hn) as (r & E & Hs). exists r. split; [exact E|].
    apply (perm_exact Hinj); [|apply Hf|exact Hs]. apply Ha in E; try reflexivity. simpl in E. injection E as <-. rewrite app_nil_r.
    intros x Hx. eapply U1; exact Hx.
  - intro n. destruct (A2 n) as (r & E & Hs). exists r. split; [exact E|].
    apply (perm_exact Hinj); [| |exact Hs].
    + apply Ha in E; try reflexivity. injection E as <-. intros x Hx. eapply U2; exact Hx.
    + intros x Hx. apply U0. apply in_flat_map in Hx as (y & Hy & Hx). apply repeat_spec in Hx. subst. exact Hy.
  - intro n. destruct (A3 n) as (r & E & Hs). exists r. split; [exact E|].
    apply (perm_exact Hinj); [|apply Hf|exact Hs]. apply Ha in E; try reflexivity. injection E as <-. intros x Hx. eapply U3; exact Hx.
  - intro n. destruct (A4 n) as (r & E & Hs). exists r. split; [exact E|].
    apply (perm_exact Hinj); [|apply Hf|exact Hs]. apply Ha in E; try reflexivity. injection E as <-. intros x Hx. eapply U4; exact Hx.
  - intro n. destruct (A5 n) as (r & E & Hs). exists r. split; [exact E|].
    apply (perm_exact Hinj); [|apply Hf|exact Hs]. apply Ha in E; try reflexivity. injection E as <-. intros x Hx. eapply U5; exact Hx.
Qed.

Example C01_example :
  snd (step (run (empty_coll KMatches ex_input) ex_ops) (ONamed [s "foo"])) = RList [ex_a; ex_c]
  /\ snd (step (run (empty_coll KMatches ex_input) ex_ops) (OAtIndex 5)) = RList [ex_c; ex_b].
Proof. split; reflexivity. Qed.

(** ** C02 *)
(** Every call made after an acceptable history (assignments included) acts as on a plain
    list: same contents, same result, same exception. *)
Theorem C02_behaves_like_list_partial : forall k input ops o,
  acceptable k false [] (ops ++ [o]) ->
  let c := run (empty_coll k input) ops in
  c_del c = list_run [] ops
  /\ c_del (fst (step c o)) = fst (list_step (list_run [] ops) o)
  /\ (is_mutator o = true -> snd (step c o) = snd (list_step (list_run [] ops) o)).
Proof.
  intros k input ops o H c. destruct (@refines_list k input ops o H) as (H1 & H2 & H3). fold c in H1, H2, H3.
  rewrite H1 in H2, H3. auto.
Qed.

Lemma nth_error_firstn' {A} : forall n j (l : list A), (j < n)%nat -> nth_error (firstn n l) j = nth_error l j.
Proof. induction n as [|n IH]; intros j l H; [lia|]. destruct l, j; simpl; try reflexivity. apply IH. lia. Qed.
(** [in], [index] and [count] use the inherited mixins over the same list *)
Theorem C02_contains_index_count : forall c m,
  (contains c m = true <-> exists x, In x (c_del c) /\ meq m x = true)
  /\ (forall i, seq_index c m = Ok i ->
        0 <= i /\ exists x, nth_error (c_del c) (Z.to_nat i) = Some x /\ meq m x = true
        /\ forall j y, (j < Z.to_nat i)%nat -> nth_error (c_del c) j = Some y -> meq m y = false)
  /\ (seq_index c m = Err ValueError <-> contains c m = false)
  /\ seq_count c m = length (filter (meq m) (c_del c)).
Proof.
  intros c m. split; [apply mem_spec|]. split; [|split; [|reflexivity]].
  - unfold seq_index. intros i H. destruct (index_of (meq m) (c_del c)) as [n|] eqn:E; [|discriminate]. injection H as <-.
    apply index_of_Some in E as (x & Hx & Hm & Hb). split; [lia|]. rewrite Nat2Z.id. exists x. split; [exact Hx|]. split; [exact Hm|].
    intros j y Hj Hy. apply Hb. apply (nth_error_In _ j). rewrite nth_error_firstn'; assumption.
  - unfold seq_index, contains, mem. pose proof (remove_first_index (meq m) (c_del c)) as Hr.
    destruct (index_of (meq m) (c_del c)) as [n|] eqn:E.
    + apply index_of_Some in E as (x & Hx & Hm & _). split; [discriminate|]. intro Hf.
      rewrite existsb_false_iff in Hf. apply nth_error_In in Hx. rewrite (Hf x Hx) in Hm. discriminate.
    + split; [|reflexivity]. intros _. apply existsb_false_iff. apply remove_first_None. exact Hr.
Qed.

(** Without an earlier [ending] lookup, deleting a slice of two matches may raise ValueError
    although a list would not. *)
Theorem C02_delslice_refuted :
  let a := mk_match 1 0 5 in let b := mk_match 2 1 3 in
  let c := run (empty_coll KMatches ex_input) [OAppend a; OAppend b] in
  snd (step c (ODelslice (Some 0) (Some 2))) = RErr ValueError
  /\ snd (list_step (list_run [] [OAppend a; OAppend b]) (ODelslice (Some 0) (Some 2))) = RUnit.
Proof. split; reflexivity. Qed.

Example C02_example :
  let ops := ex_ops ++ [OSetitem 0 ex_b; OReverse; OSetslice (Some 1) None [ex_a]] in
  acceptable KMatches false [] (ops ++ [OPop 5])
  /\ c_del (run (empty_coll KMatches ex_input) ops) = [ex_b; ex_a]
  /\ snd (step (run (empty_coll KMatches ex_input) ops) (OPop 5)) = RErr IndexError.
Proof. repeat split; simpl; repeat constructor. Qed.

(** ** C03 *)
Theorem C03_lookup_order_partial : forall k input ops,
  acceptable k false [] ops -> no_assignment ops -> in_order [] ops ->
  let c := run (empty_coll k input) ops in
  let l := list_run [] ops in
  (forall n, n <> [] -> snd (step c (ONamed [n])) = RList (filter (name_is n) l))
  /\ (forall t, snd (step c (OTagged t)) = RList (tagged_members t l))
  /\ (forall i, snd (step c (OStarting i)) = RList (filter (starts_at i) l))
  /\ (forall i, snd (step c (OEnding i)) = RList (filter (ends_at i) l))
  /\ (forall i, snd (step c (OAtIndex i)) = RList (filter (coversb i) l)).
Proof.
  intros k input ops H1 H2 H3 c l. destruct (@reached_exact_views k input ops H1 H2 H3) as (V1 & V2 & V3 & V4 & V5).
  destruct (@reached_ok k input ops H1 H2) as (_ & Hd & _). unfold reached in *. fold c in V1, V2, V3, V4, V5, Hd. fold l in Hd.
  rewrite Hd in *.
  split; [|split; [|split; [|split]]]; [intros n Hn | intro n | intro n | intro n | intro n];
    (etransitivity; [rewrite lookup_answer by reflexivity; reflexivity|]); unfold answer; f_equal.
  - simpl. rewrite app_nil_r, V1, occ_name by exact Hn. reflexivity.
  - rewrite V2, occ_tag. reflexivity.
  - rewrite V3, occ_start. reflexivity.
  - rewrite V4, occ_end. reflexivity.
  - rewrite V5, occ_at. reflexivity.
Qed.
Example C03_example : 
  let ops := [OAppend ex_a; OEnding 4; OExtend [ex_b; ex_c]; OStarting 3; ORemove ex_c; OAtIndex 5; OPop (-1);
              OAppend ex_c; ODelslice (Some 0) (Some 2); OExtend [ex_c; ex_b; ex_a]] in
  acceptable KMatches false [] ops /\ no_assignment ops /\ in_order [] ops /\ list_run [] ops = [ex_c; ex_b; ex_a].
Proof. repeat split; simpl; repeat constructor; vm_compute; congruence. Qed.

(** insert at the front after a lookup: the answer is not in sequence order *)
Theorem C03_lookup_order_refuted :
  let ops := [OAppend ex_a; ONamed [s "foo"]; OInsert 0 ex_c] in
  acceptable KMatches false [] ops /\ no_assignment ops
  /\ list_run [] ops = [ex_c; ex_a]
  /\ snd (step (run (empty_coll KMatches ex_input) ops) (ONamed [s "foo"])) = RList [ex_a; ex_c].
Proof. repeat split; simpl; repeat constructor. Qed.

(** ** C04 *)
(** Assignments made before the first lookup or deletion are harmless. *)
Theorem C04_assignment_before_lookups_partial : forall k input ops1 ops2,
  forallb is_build ops1 = true -> no_assignment ops2 -> acceptable k false [] (ops1 ++ ops2) ->
  let c := run (empty_coll k input) (ops1 ++ ops2) in
  let l := list_run [] (ops1 ++ ops2) in
  (forall n, n <> [] -> exists r, snd (step c (ONamed [n])) = RList r /\ same_members r (filter (name_is n) l))
  /\ (forall t, exists r, snd (step c (OTagged t)) = RList r /\ same_members r (tagged_members t l))
  /\ (forall i, exists r, snd (step c (OStarting i)) = RList r /\ same_members r (filter (starts_at i) l))
  /\ (forall i, exists r, snd (step c (OEnding i)) = RList r /\ same_members r (filter (ends_at i) l))
  /\ (forall i, exists r, snd (step c (OAtIndex i)) = RList r /\ same_members r (filter (coversb i) l)).
Proof.
  intros k input ops1 ops2 H1 H2 H3 c l. destruct (reached_phases input H1 H2 H3) as (HI & Hd). fold c in HI, Hd. fold l in Hd.
  split; [|split; [|split; [|split]]]; [intros n Hn | intro n | intro n | intro n | intro n];
    (eexists; split; [rewrite lookup_answer by reflexivity; reflexivity|]; apply perm_same_members; rewrite <- Hd).
  - simpl. rewrite app_nil_r, <- occ_name by exact Hn. apply (vname_perm HI).
  - rewrite <- occ_tag. apply (vtag_perm HI).
  - rewrite <- occ_start. apply (vstart_perm HI).
  - rewrite <- occ_end. apply (vend_perm HI).
  - rewrite <- occ_at. apply (vat_perm HI).
Qed.
Example C04_example :
  let ops1 := [OExtend [ex_a; ex_b]; OReverse; OSetitem 0 ex_c] in
  forallb is_build ops1 = true /\ acceptable KMatches false [] (ops1 ++ ex_ops)
  /\ snd (step (run (empty_coll KMatches ex_input) ops1) (ONamed [s "foo"])) = RList [ex_c; ex_a].
Proof. repeat split; simpl; repeat constructor. Qed.

(** In any case no member is lost: the answer holds the members, plus possibly replaced ones. *)
Theorem C04_assignment_keeps_members_partial : forall k input ops,
  acceptable k false [] ops ->
  let c := run (empty_coll k input) ops in
  let l := list_run [] ops in
  (forall n, n <> [] -> exists r g, snd (step c (ONamed [n])) = RList r /\ same_members r (filter (name_is n) (g ++ l)))
  /\ (forall t, exists r g, snd (step c (OTagged t)) = RList r /\ same_members r (tagged_members t (g ++ l)))
  /\ (forall i, exists r g, snd (step c (OStarting i)) = RList r /\ same_members r (filter (starts_at i) (g ++ l)))
  /\ (forall i, exists r g, snd (step c (OEnding i)) = RList r /\ same_members r (filter (ends_at i) (g ++ l)))
  /\ (forall i, exists r g, snd (step c (OAtIndex i)) = RList r /\ same_members r (filter (coversb i) (g ++ l))).
Proof.
  intros k input ops H1 c l.
  destruct (@run_ok (fun _ => True) k ops false (empty_coll k input)) as (HI & _ & Hd & _); auto; try discriminate; [apply Inv_empty|].
  fold c in HI, Hd. simpl in Hd. fold l in Hd. destruct HI as (HD & _). unfold answer in *.
  split; [|split; [|split; [|split]]]; [intros n Hn | intro n | intro n | intro n | intro n].
  - destruct (named_dict_ok HD) as (g & _ & Hok). eexists; exists g. split; [rewrite lookup_answer by reflexivity; reflexivity|].
    apply perm_same_members. rewrite <- Hd. simpl. rewrite app_nil_r, <- occ_name by exact Hn. apply Hok.
  - destruct (tagged_dict_ok HD) as (g & _ & Hok). eexists; exists g. split; [rewrite lookup_answer by reflexivity; reflexivity|].
    apply perm_same_members. rewrite <- Hd, <- occ_tag. apply Hok.
  - destruct (starting_dict_ok HD) as (g & _ & Hok). eexists; exists g. split; [rewrite lookup_answer by reflexivity; reflexivity|].
    apply perm_same_members. rewrite <- Hd, <- occ_start. apply Hok.
  - destruct (@ending_dict_ok (fun _ => True) c (c_del c)) as (g & _ & Hok); [apply HD | reflexivity |].
    eexists; exists g. split; [rewrite lookup_answer by reflexivity; reflexivity|].
    apply perm_same_members. rewrite <- Hd, <- occ_end. apply Hok.
  - destruct (indexed_dict_ok HD) as (g & _ & Hok). eexists; exists g. split; [rewrite lookup_answer by reflexivity; reflexivity|].
    apply perm_same_members. rewrite <- Hd, <- occ_at. apply Hok.
Qed.

(** After a lookup: the replaced match is still found; reversing lists everything twice. *)
Theorem C04_assignment_refuted :
  let c1 := run (empty_coll KMatches ex_input) [OAppend ex_a; ONamed [s "foo"]; OSetitem 0 ex_b] in
  let c2 := run (empty_coll KMatches ex_input) [OExtend [ex_a; ex_c]; ONamed [s "foo"]; OReverse] in
  c_del c1 = [ex_b] /\ snd (step c1 (ONamed [s "foo"])) = RList [ex_a]
  /\ c_del c2 = [ex_c; ex_a] /\ snd (step c2 (ONamed [s "foo"])) = RList [ex_a; ex_c; ex_c; ex_a].
Proof. repeat split; reflexivity. Qed.

(** ** C05 *)
(** Any number of lookups in any state: same contents, same bound, same later answers. *)
Theorem C05_lookups_read_only_partial : forall c qs o,
  forallb (fun q => negb (is_mutator q)) qs = true ->
  c_del (run c qs) = c_del c
  /\ max_end (run c qs) = max_end c
  /\ (is_mutator o = false -> o <> ONames -> o <> OTags -> snd (step (run c qs) o) = snd (step c o)).
Proof.
  intros c qs o H. assert (obs c (run c qs)) as Ho.
  { apply lookups_obs. rewrite forallb_forall in *. intros x Hx. rewrite is_lookup_mutator. apply H, Hx. }
  split; [apply Ho|]. split; [apply obs_max_end; exact Ho|]. intros Hm Hn Ht.
  assert (is_lookup o = true) as Hl by (rewrite is_lookup_mutator, Hm; reflexivity).
  assert (is_keys o = false) as Hk by (destruct o; try reflexivity; congruence).
  rewrite (lookup_answer c Hl Hk). exact (proj2 (lookup_rel Hl Ho) Hk).
Qed.
Example C05_example :
  let c := run (empty_coll KMatches ex_input) ex_ops in
  let qs := [ONamed [s "zzz"]; OHoles 0 None (fun _ => true) (Some (s "c")); OConflicting ex_a; ONames; OChainAfter 2 (s "x") None (fun _ => true)] in
  forallb (fun q => negb (is_mutator q)) qs = true
  /\ snd (step (run c qs) (OAtIndex 5)) = RList [ex_c; ex_b].
Proof. split; reflexivity. Qed.

(** [names] gains every name asked for; a removed name stays; an [ending] lookup changes
    [max_end] after a later removal. *)
Theorem C05_names_refuted :
  let c := run (empty_coll KMatches None) [OAppend ex_b] in
  snd (step c ONames) = RKeys [s "bar"]
  /\ snd (step (run c [ONamed [s "foo"]]) ONames) = RKeys [s "bar"; s "foo"]
  /\ snd (step (run c [ONames; ORemove ex_b]) ONames) = RKeys [s "bar"].
Proof. repeat split; reflexivity. Qed.
Theorem C05_max_end_refuted :
  let ops := [OAppend ex_a; OAppend ex_b] in
  max_end (run (empty_coll KMatches None) (ops ++ [ORemove ex_b])) = 6
  /\ max_end (run (empty_coll KMatches None) (ops ++ [OEnding 1000; ORemove ex_b])) = 1000.
Proof. split; reflexivity. Qed.
(** what remains true of [names] and [tags]: nothing present is missing *)
Theorem C05_names_complete_partial : forall k input ops,
  acceptable k false [] ops ->
  let c := run (empty_coll k input) ops in
  exists ns ts, snd (step c ONames) = RKeys ns /\ snd (step c OTags) = RKeys ts
    /\ (forall m n, In m (list_run [] ops) -> m_name m = Some n -> n <> [] -> In n ns)
    /\ (forall m t, In m (list_run [] ops) -> In t (m_tags m) -> In t ts).
Proof.
  intros k input ops H1 c.
  destruct (@run_ok (fun _ => True) k ops false (empty_coll k input)) as (HI & _ & Hd & _); auto; try discriminate; [apply Inv_empty|].
  fold c in HI, Hd. simpl in Hd. do 2 eexists. split; [reflexivity|]. split; [reflexivity|]. rewrite <- Hd. split.
  - apply (names_sound HI).
  - apply (tags_sound HI).
Qed.

(** ** C06 *)
Theorem C06_max_end_bounds_partial : forall k input ops,
  acceptable k false [] ops ->
  let c := run (empty_coll k input) ops in
  (forall m, In m (list_run [] ops) -> m_end m <= max_end c)
  /\ match input with Some str => zlen str <= max_end c | None => 0 <= max_end c end.
Proof.
  intros k input ops H1 c.
  destruct (@run_ok (fun _ => True) k ops false (empty_coll k input)) as (HI & [_ Hi] & Hd & _); auto; try discriminate; [apply Inv_empty|].
  fold c in HI, Hd, Hi. simpl in Hd, Hi. destruct HI as (_ & [M0 M] & _). rewrite Hd in M.
  unfold max_end. rewrite Hi. split.
  - intros m Hm. specialize (M m Hm). destruct input as [[|]|]; lia.
  - destruct input as [[|]|]; [rewrite zlen_nil|..]; lia.
Qed.
(** exact as long as nothing is deleted or assigned *)
Theorem C06_max_end_tight_partial : forall k input ops,
  forallb is_adding ops = true -> Forall (fun m => accepts k m = true) (all_handed ops) ->
  let e := max_end (run (empty_coll k input) ops) in
  e = 0 \/ (exists str, input = Some str /\ e = zlen str) \/ (exists m, In m (all_handed ops) /\ e = m_end m).
Proof.
  intros k input ops H1 H2 e.
  assert (tight (run (empty_coll k input) ops)) as Ht by (eapply tight_run; eauto; reflexivity).
  pose proof (reached_univ k input ops) as (HU & _). unfold reached in HU. rewrite Forall_forall in HU.
  assert (c_input (run (empty_coll k input) ops) = input) as Hi.
  { clear. assert (forall c, c_input (run c ops) = c_input c) as G; [|apply G].
    assert (forall c m, c_input (fst (add_match c m)) = c_input c) as Gadd
      by (intros; unfold add_match; destruct (accepts (c_kind c) m); reflexivity).
    assert (forall c m, c_input (shrink_maxend c m) = c_input c) as Gsh.
    { intros; unfold shrink_maxend. destruct (m_end m >=? c_maxend c); [|reflexivity]. destruct (dget _ _); reflexivity. }
    assert (forall c m, c_input (fst (remove_match c m)) = c_input c) as Grem.
    { intros. unfold remove_match.
      repeat match goal with |- context [let '(_, _) := ?x in _] => destruct x as [? [|]]; simpl; try reflexivity end. etransitivity; [apply Gsh|reflexivity]. }
    assert (forall c i m, c_input (fst (insert c i m)) = c_input c) as Gins by (intros; unfold insert; rewrite Gadd; reflexivity).
    assert (forall ms c, c_input (fst (extend c ms)) = c_input c) as Gext.
    { induction ms as [|m ms IH]; intro c; simpl; [reflexivity|]. unfold append. specialize (Gins c (zlen (c_del c)) m).
      destruct (insert c (zlen (c_del c)) m) as [c1 [|]]; simpl in *; [rewrite IH|]; exact Gins. }
    assert (forall c i, c_input (fst (delitem c i)) = c_input c) as Gdel.
    { intros. unfold delitem. destruct (py_pos (c_del c) i); [|reflexivity]. destruct (nth_error (c_del c) n); [|reflexivity]. rewrite Grem. reflexivity. }
    assert (forall c i, c_input (fst (pop c i)) = c_input c) as Gpop.
    { intros. unfold pop. destruct (py_nth (c_del c) i); [|reflexivity]. specialize (Gdel c i). destruct (delitem c i) as [c1 [|]]; exact Gdel. }
    assert (forall ms c, c_input (fst (remove_matches c ms)) = c_input c) as Grems.
    { induction ms as [|m ms IH]; intro c; simpl; [reflexivity|]. specialize (Grem c m). destruct (remove_match c m) as [c1 [|]]; simpl in *; [rewrite IH|]; exact Grem. }
    assert (forall ms c, c_input (fst (add_matches c ms)) = c_input c) as Gadds.
    { induction ms as [|m ms IH]; intro c; simpl; [reflexivity|]. specialize (Gadd c m). destruct (add_match c m) as [c1 [|]]; simpl in *; [rewrite IH|]; exact Gadd. }
    assert (forall c i m, c_input (fst (setitem c i m)) = c_input c) as Gset.
    { intros. unfold setitem. destruct (py_pos (c_del c) i); [|reflexivity]. rewrite Gadd. reflexivity. }
    assert (forall n is c, c_input (fst (reverse_loop n is c)) = c_input c) as Grev.
    { intro n. induction is as [|i is IH]; intro c; simpl; [reflexivity|].
      destruct (py_nth (c_del c) (n - i - 1)) as [a|]; [|reflexivity]. destruct (py_nth (c_del c) i) as [b|]; [|reflexivity].
      pose proof (Gset c i a) as E1. destruct (setitem c i a) as [c1 [|]]; simpl in *; [|exact E1].
      pose proof (Gset c1 (n - i - 1) b) as E2. destruct (setitem c1 (n - i - 1) b) as [c2 [|]]; simpl in *; [rewrite IH|]; congruence. }
    assert (forall n c, c_input (fst (clear_loop n c)) = c_input c) as Gcl.
    { induction n as [|n IH]; intro c; simpl; [reflexivity|]. specialize (Gpop c (-1)).
      destruct (pop c (-1)) as [c1 [|[]]]; simpl in *; try exact Gpop. rewrite IH. exact Gpop. }
    induction ops as [|o ops IH]; intro c; [reflexivity|]. simpl. rewrite IH. clear IH.
    destruct (is_mutator o) eqn:Em.
    2: { assert (obs c (fst (step c o))) as Ho by (apply lookup_obs; rewrite is_lookup_mutator, Em; reflexivity). apply Ho. }
    destruct o; try discriminate; cbn [step unit_out fst].
    - apply Gins. - apply Gins. - apply Gext.
    - unfold remove. destruct (seq_index c m); [apply Gdel | reflexivity].
    - apply Gdel. - unfold delslice. rewrite Grems. reflexivity.
    - specialize (Gpop c i). destruct (pop c i). exact Gpop.
    - apply Gcl. - apply Gset. - unfold setslice. rewrite Gadds. reflexivity.
    - apply Grev. }
  unfold tight in Ht. destruct (zmaxl_spec (map m_end (c_del (run (empty_coll k input) ops)))) as (Z1 & Z2 & Z3).
  assert (c_maxend (run (empty_coll k input) ops) = 0 \/ exists m, In m (all_handed ops) /\ c_maxend (run (empty_coll k input) ops) = m_end m) as Hc.
  { rewrite Ht. destruct Z2 as [Z2|Z2]; [left; exact Z2|right]. apply in_map_iff in Z2 as (m & E & Hm). exists m. split; [apply HU; exact Hm | congruence]. }
  subst e. unfold max_end. rewrite Hi. destruct input as [[|ch str]|]; [destruct Hc as [->|Hc]; auto| |destruct Hc as [->|Hc]; auto].
  match goal with |- Z.max ?x ?y = _ \/ _ => destruct (Z.max_dec x y) as [E|E]; rewrite E end;
    [right; left; eauto | destruct Hc as [->|Hc]; auto].
Qed.
(** it does not shrink when the furthest match is removed *)
Theorem C06_max_end_shrinks_refuted :
  let ops := [OAppend ex_a; OAppend ex_b; ORemove ex_b] in
  list_run [] ops = [ex_a] /\ m_end ex_a = 3 /\ max_end (run (empty_coll KMatches None) ops) = 6.
Proof. repeat split; reflexivity. Qed.
(** and never decreases at all *)
Theorem C06_max_end_never_decreases : forall k input ops1 ops2,
  acceptable k false [] (ops1 ++ ops2) ->
  max_end (run (empty_coll k input) ops1) <= max_end (run (empty_coll k input) (ops1 ++ ops2)).
Proof.
  intros k input ops1 ops2 H. rewrite run_app. pose proof H as H'. apply acceptable_app in H as [A1 A2].
  destruct (@run_ok (fun _ => True) k ops1 false (empty_coll k input)) as (HI & [Hk Hi] & Hd & _); auto; try discriminate; [apply Inv_empty|].
  destruct (@run_ok (fun _ => True) k ops2 (false || existsb (fun o => match o with OEnding _ => true | _ => false end) ops1) (run (empty_coll k input) ops1)) as (_ & [_ Hi2] & _ & Hm); auto.
  - intro Hx. eapply asked_built; [| | | exact A1 | exact Hx]; auto; [apply Inv_empty | discriminate].
  - rewrite Hd. exact A2.
  - unfold max_end. rewrite Hi2. destruct (c_input (run (empty_coll k input) ops1)) as [[|]|]; lia.
Qed.

(** ** C07 *)
Theorem C07_previous_next : forall k input ops m,
  acceptable k false [] ops -> no_assignment ops ->
  let c := run (empty_coll k input) ops in
  let l := list_run [] ops in
  (forall x, In x l -> 0 <= m_start x <= m_end x) ->
  (exists r, snd (step c (OPrevious m)) = RList r
     /\ ((r = [] /\ forall x, In x l -> m_start m < m_end x)
         \/ exists e, e <= m_start m /\ r <> [] /\ same_members r (filter (ends_at e) l)
            /\ forall x, In x l -> m_end x <= m_start m -> m_end x <= e))
  /\ (exists r, snd (step c (ONext m)) = RList r
     /\ ((r = [] /\ forall x, In x l -> m_start x <= m_start m)
         \/ exists e, m_start m < e /\ r <> [] /\ same_members r (filter (starts_at e) l)
            /\ forall x, In x l -> m_start m < m_start x -> e <= m_start x)).
Proof.
  intros k input ops m H1 H2 c l Hpos. destruct (@reached_ok k input ops H1 H2) as (HI & Hd & _). unfold reached in *. fold c in HI, Hd. fold l in Hd.
  rewrite <- Hd in *. split; (eexists; split; [rewrite lookup_answer by reflexivity; reflexivity|]).
  - apply (previous_sem HI). intros x Hx. specialize (Hpos x Hx). lia.
  - apply (next_sem HI). intros x Hx. specialize (Hpos x Hx). lia.
Qed.
Example C07_example :
  snd (step (run (empty_coll KMatches ex_input) ex_ops) (OPrevious ex_c)) = RList [ex_a]
  /\ snd (step (run (empty_coll KMatches ex_input) ex_ops) (ONext ex_a)) = RList [ex_b]
  /\ snd (step (run (empty_coll KMatches ex_input) ex_ops) (ONext ex_c)) = RList [].
Proof. repeat split; reflexivity. Qed.

(** ** C08 *)
Theorem C08_range : forall k input ops st en,
  acceptable k false [] ops ->
  let c := run (empty_coll k input) ops in
  let l := list_run [] ops in
  let e := match en with None => max_end c | Some e => Z.min (max_end c) e end in
  let sel := filter (fun m => (m_start m <? e) && (m_end m >? st)) l in
  exists r, snd (step c (ORange st en)) = RList r
    /\ Permutation r sel
    /\ StronglySorted (fun a b => m_start a < m_start b \/ (m_start a = m_start b /\ m_end a <= m_end b)) r
    /\ (forall sp, filter (fun m => (m_start m =? fst sp) && (m_end m =? snd sp)) r
                   = filter (fun m => (m_start m =? fst sp) && (m_end m =? snd sp)) sel)
    /\ (forall m, st < e -> nonempty m -> (In m r <-> In m l /\ exists i, covers m i /\ st <= i < e)).
Proof.
  intros k input ops st en H1 c l e sel.
  destruct (@run_ok (fun _ => True) k ops false (empty_coll k input)) as (_ & _ & Hd & _); auto; try discriminate; [apply Inv_empty|].
  fold c in Hd. simpl in Hd. fold l in Hd. destruct (range_sem c st en) as (R1 & R2 & R3). fold e in R1, R3. rewrite Hd in R1, R3.
  exists (q_range c st en). split; [reflexivity|]. split; [exact R1|]. split; [exact R2|]. split; [exact R3|].
  intros m Hse Hne. assert (In m (q_range c st en) <-> In m sel) as ->.
  { split; intro Hx; [eapply Permutation_in; [exact R1|exact Hx] | eapply Permutation_in; [symmetry; exact R1|exact Hx]]. }
  unfold sel. rewrite filter_In. unfold covers, nonempty in *. split.
  - intros [Hm Hb]. split; [exact Hm|]. exists (Z.max st (m_start m)). lia.
  - intros [Hm (i & Hi1 & Hi2)]. split; [exact Hm|]. lia.
Qed.
Example C08_example :
  snd (step (run (empty_coll KMatches ex_input) ex_ops) (ORange 3 (Some 7))) = RList [ex_b; ex_c].
Proof. reflexivity. Qed.

(** ** C09 *)
(** [uncovered keep l i]: no member of [l] that is kept (not ignored) covers [i]. *)
Definition uncovered (keep : mtch -> bool) (l : list mtch) (i : Z) : bool :=
  negb (existsb (fun m => coversb i m && keep m) l).

(** The holes are the maximal uncovered intervals, except that an empty hole [(st, st)] is
    listed first when the text just before [st] is uncovered and [st] itself is not
    (or the range is empty). *)
Theorem C09_holes_partial : forall k input ops st en keep,
  acceptable k false [] ops -> no_assignment ops -> respects_eq_on (all_handed ops) keep ->
  let c := run (empty_coll k input) ops in
  let l := list_run [] ops in
  let e := match en with None => max_end c | Some e => Z.min (max_end c) e end in
  (forall m, In m l -> keep m = true -> nonempty m) -> 0 <= st -> st <= e ->
  exists r, maximal_runs (uncovered keep l) st e r
    /\ snd (step c (OHoles st en keep None))
       = RSpans (if (0 <? st) && uncovered keep l (st - 1) && ((st =? e) || negb (uncovered keep l st))
                 then (st, st) :: r else r).
Proof.
  intros k input ops st en keep H1 H2 Hk c l e Hne H0 Hse.
  destruct (@reached_ok k input ops H1 H2) as (HI & Hd & _). pose proof (@reached_agrees k input ops keep Hk) as Hag.
  unfold reached in *. fold c in HI, Hd, Hag. fold l in Hd.
  destruct (@holes_sem c HI keep None Hag) with (st := st) (en := en) as (r & R1 & R2); auto.
  - rewrite Hd. exact Hne.
  - intros s0 sr E; discriminate.
  - exists r. split.
    + apply hole_list_runs in R1. unfold kept_at in R1. rewrite Hd in R1. exact R1.
    + rewrite (@lookup_answer c (OHoles st en keep None)) by reflexivity. unfold answer. rewrite R2. f_equal.
      unfold uncovered, kept_at. rewrite Hd, negb_involutive. reflexivity.
Qed.
(** In particular from the start of the text the answer is exactly the maximal uncovered intervals. *)
Theorem C09_holes_from_start : forall k input ops en keep,
  acceptable k false [] ops -> no_assignment ops -> respects_eq_on (all_handed ops) keep ->
  let c := run (empty_coll k input) ops in
  let l := list_run [] ops in
  let e := match en with None => max_end c | Some e => Z.min (max_end c) e end in
  (forall m, In m l -> keep m = true -> nonempty m) -> 0 <= e ->
  exists r, snd (step c (OHoles 0 en keep None)) = RSpans r /\ maximal_runs (uncovered keep l) 0 e r.
Proof.
  intros k input ops en keep H1 H2 Hk c l e Hne He.
  destruct (C09_holes_partial (input := input) (st := 0) (en := en) H1 H2 Hk) as (r & R1 & R2); auto; [lia|].
  exists r. split; [exact R2 | exact R1].
Qed.
Example C09_example :
  let c := run (empty_coll KMatches ex_input) ex_ops in
  snd (step c (OHoles 0 None (fun m => m_id m =? 2)%nat None)) = RSpans [(0, 3); (6, 10)]
  /\ snd (step c (OHoles 0 None (fun _ => true) None)) = RSpans [(8, 10)].
Proof. split; reflexivity. Qed.
(** an empty hole, and an inverted one *)
Theorem C09_holes_refuted :
  let c := run (empty_coll KMatches ex_input) [OExtend [mk_match 1 0 2; mk_match 2 5 8]] in
  snd (step c (OHoles 5 None (fun _ => true) None)) = RSpans [(5, 5); (8, 10)]
  /\ snd (step c (OHoles 20 None (fun _ => true) None)) = RSpans [(20, 10)].
Proof. split; reflexivity. Qed.

(** ** C10 *)
(** the character at position [i] of the text is one of [seps] *)
Definition is_sep (str seps : pstr) (i : Z) : bool :=
  match py_nth str i with Some ch => char_in ch seps | None => false end.
(** From the start of the text, or from a position preceded by a kept match: the holes are
    well formed, ordered, not adjacent, uncovered; only their first character may be a
    separator; they end at a match, a separator or the end; no uncovered non-separator
    position is missed.  (With [st] elsewhere see the refutation.) *)
Theorem C10_holes_seps_partial : forall k str ops st en keep sp sps,
  acceptable k false [] ops -> no_assignment ops -> respects_eq_on (all_handed ops) keep ->
  let c := run (empty_coll k (Some str)) ops in
  let l := list_run [] ops in
  let e := match en with None => max_end c | Some e => Z.min (max_end c) e end in
  let seps := sp :: sps in
  str <> [] -> e <= zlen str -> 0 <= st -> st <= e -> (st = 0 \/ uncovered keep l (st - 1) = false) ->
  (forall m, In m l -> keep m = true -> nonempty m) ->
  exists r, snd (step c (OHoles st en keep (Some seps))) = RSpans r
    /\ Forall (fun h => st <= fst h /\ fst h < snd h /\ snd h <= e
                /\ (forall j, fst h <= j < snd h -> uncovered keep l j = true)
                /\ (forall j, fst h < j < snd h -> is_sep str seps j = false)
                /\ (snd h = e \/ uncovered keep l (snd h) = false \/ is_sep str seps (snd h) = true)) r
    /\ StronglySorted (fun x y => snd x < fst y) r
    /\ (forall j, st <= j < e -> uncovered keep l j = true -> is_sep str seps j = false -> exists h, In h r /\ fst h <= j < snd h).
Proof.
  intros k str ops st en keep sp sps H1 H2 Hk c l e seps Hstr Hlen H0 Hse Hpre Hne.
  destruct (@reached_ok k (Some str) ops H1 H2) as (HI & Hd & Hi & _). pose proof (@reached_agrees k (Some str) ops keep Hk) as Hag.
  unfold reached in *. fold c in HI, Hd, Hag, Hi. fold l in Hd.
  assert (forall i, kept_at c keep i = negb (uncovered keep l i)) as Hkept.
  { intro i. unfold kept_at, uncovered. rewrite Hd, negb_involutive. reflexivity. }
  destruct (@holes_sem c HI keep (Some seps) Hag) with (st := st) (en := en) as (r & (R1 & R2 & R3) & R4); auto.
  - rewrite Hd. exact Hne.
  - unfold holes_bad. rewrite Hi. destruct str; [congruence | reflexivity].
  - intros s0 sr E. split.
    + intros str' E'. rewrite Hi in E'. injection E' as <-. exact Hlen.
    + destruct Hpre as [Hp|Hp]; [left; exact Hp | right; rewrite Hkept, Hp; reflexivity].
  - exists r.
    assert (forall i, hole_sep (c_input c) (Some seps) i = is_sep str seps i) as Hsep.
    { intro i. unfold hole_sep, seps, is_sep. rewrite Hi. destruct str; [congruence|]. reflexivity. }
    split; [|split; [|split]].
    + rewrite (@lookup_answer c (OHoles st en keep (Some seps))) by reflexivity. unfold answer. rewrite R4. f_equal.
      destruct Hpre as [->|Hp]; [reflexivity|]. rewrite (Hkept (st - 1)), Hp. simpl. rewrite andb_false_r. reflexivity.
    + eapply Forall_impl; [|exact R1]. cbv beta. intros h (A & B & C & D & E & F & G).
      split; [exact A|]. split; [exact B|]. split; [exact C|]. split; [|split].
      * intros j Hj. specialize (D j Hj). rewrite Hkept in D. destruct (uncovered keep l j); [reflexivity|discriminate].
      * intros j Hj. rewrite <- Hsep. apply E, Hj.
      * destruct G as [G|[G|G]]; [auto | right; left | right; right; rewrite <- Hsep; exact G].
        rewrite Hkept in G. destruct (uncovered keep l (snd h)); [discriminate | reflexivity].
    + exact R2.
    + intros j Hj Hu Hs. apply R3; [exact Hj | rewrite Hkept, Hu; reflexivity | rewrite Hsep; exact Hs].
Qed.
Example C10_example :
  let c := run (empty_coll KMatches (Some (s "ab,cd ef"))) [OAppend (mk_match 1 3 5)] in
  snd (step c (OHoles 0 None (fun _ => true) (Some (s ", ")))) = RSpans [(0, 2); (5, 8)].
Proof. reflexivity. Qed.
(** a hole before [st]; a hole starting with a separator *)
Theorem C10_holes_seps_refuted :
  snd (step (run (empty_coll KMatches (Some (s "ab,defgh"))) []) (OHoles 5 None (fun _ => true) (Some (s ",")))) = RSpans [(5, 2); (5, 8)]
  /\ snd (step (run (empty_coll KMatches (Some (s "a,,b"))) []) (OHoles 0 None (fun _ => true) (Some (s ",")))) = RSpans [(0, 1); (2, 4)].
Proof. split; reflexivity. Qed.

(** ** C11 *)
Theorem C11_conflicting : forall k input ops m,
  acceptable k false [] ops -> no_assignment ops ->
  let c := run (empty_coll k input) ops in
  let l := list_run [] ops in
  (nonempty m -> found m l ->
     exists r, snd (step c (OConflicting m)) = RList r /\ no_equal r
       /\ (forall x, In x l -> (found x r <-> overlap x m /\ meq x m = false))
       /\ (forall y, In y r -> exists x, In x l /\ meq x y = true))
  /\ (~ nonempty m \/ ~ found m l -> snd (step c (OConflicting m)) = RErr ValueError).
Proof.
  intros k input ops m H1 H2 c l. destruct (@reached_ok k input ops H1 H2) as (HI & Hd & _). unfold reached in *. fold c in HI, Hd. fold l in Hd.
  pose proof (conflicting_sem HI m) as H. rewrite (@lookup_answer c (OConflicting m)) by reflexivity. unfold answer. rewrite Hd in H.
  destruct (remove_first (meq m) _) as [r|].
  - destruct H as (A & B & C & D & E). split; [|intros [Hn|Hn]; contradiction]. intros _ _. exists r. auto.
  - split; [|reflexivity]. intros Hne (x & Hx & Hm). exfalso. exact (H x Hx Hm Hne).
Qed.
Theorem C11_at_span : forall k input ops sp,
  acceptable k false [] ops -> no_assignment ops ->
  let c := run (empty_coll k input) ops in
  let l := list_run [] ops in
  exists r, snd (step c (OAtSpan sp)) = RList r
    /\ (forall x, In x l -> (found x r <-> covers x (fst sp) \/ covers x (snd sp - 1)))
    /\ (forall y, In y r -> found y l)
    /\ (no_equal l -> no_equal r).
Proof.
  intros k input ops sp H1 H2 c l. destruct (@reached_ok k input ops H1 H2) as (HI & Hd & _). unfold reached in *. fold c in HI, Hd. fold l in Hd.
  eexists. split; [rewrite lookup_answer by reflexivity; reflexivity|]. rewrite <- Hd. apply (at_span_sem HI).
Qed.
Theorem C11_at_match : forall c m, snd (q_at_match c m) = snd (q_at_span c (m_start m, m_end m)).
Proof. reflexivity. Qed.
Example C11_example :
  let c := run (empty_coll KMatches ex_input) ex_ops in
  snd (step c (OConflicting ex_b)) = RList [ex_c] /\ nonempty ex_b /\ found ex_b (list_run [] ex_ops)
  /\ snd (step c (OConflicting (mk_match 9 4 4))) = RErr ValueError
  /\ snd (step c (OAtSpan (0, 7))) = RList [ex_a; ex_c].
Proof. repeat split; try reflexivity. exists ex_b. split; [vm_compute; tauto | reflexivity]. Qed.

(** ** C12 *)
(** position [i] carries on a chain: a member accepted by the predicate, or a separator *)
Definition carries (pred : mtch -> bool) (l : list mtch) (str seps : pstr) (i : Z) : bool :=
  existsb (fun m => coversb i m && pred m) l || is_sep str seps i.
Theorem C12_chain_after : forall k str ops p seps en pred,
  acceptable k false [] ops -> no_assignment ops -> respects_eq_on (all_handed ops) pred ->
  let c := run (empty_coll k (Some str)) ops in
  let l := list_run [] ops in
  let e := match en with None => max_end c | Some e => Z.min (max_end c) e end in
  0 <= p -> e <= zlen str ->
  exists r, snd (step c (OChainAfter p seps en pred)) = RList r /\ no_equal r
    /\ (forall x, In x l -> (found x r <-> pred x = true /\ exists i, covers x i /\ p <= i < e
                                /\ forall j, p <= j <= i -> carries pred l str seps j = true))
    /\ (forall y, In y r -> found y l).
Proof.
  intros k str ops p seps en pred H1 H2 Hk c l e Hp He.
  destruct (@reached_ok k (Some str) ops H1 H2) as (HI & Hd & Hi & _). pose proof (@reached_agrees k (Some str) ops pred Hk) as Hag.
  unfold reached in *. fold c in HI, Hd, Hag, Hi. fold l in Hd.
  destruct (@chain_after_sem c HI pred seps str Hag Hi p en Hp He) as (r & E & R1 & R2 & R3).
  exists r. split; [rewrite (@lookup_answer c (OChainAfter p seps en pred)) by reflexivity; unfold answer; rewrite E; reflexivity|].
  split; [exact R1|]. rewrite <- Hd. split; [|exact R3]. intros x Hx. rewrite (R2 x Hx). rewrite Hd. unfold linked. rewrite Hd. reflexivity.
Qed.
Theorem C12_chain_before : forall k str ops p seps st pred,
  acceptable k false [] ops -> no_assignment ops -> respects_eq_on (all_handed ops) pred ->
  let c := run (empty_coll k (Some str)) ops in
  let l := list_run [] ops in
  let e := Z.min (max_end c) p in
  0 <= st -> e <= zlen str ->
  exists r, snd (step c (OChainBefore p seps st pred)) = RList r /\ no_equal r
    /\ (forall x, In x l -> (found x r <-> pred x = true /\ exists i, covers x i /\ st <= i < e
                                /\ forall j, i <= j < e -> carries pred l str seps j = true))
    /\ (forall y, In y r -> found y l).
Proof.
  intros k str ops p seps st pred H1 H2 Hk c l e Hp He.
  destruct (@reached_ok k (Some str) ops H1 H2) as (HI & Hd & Hi & _). pose proof (@reached_agrees k (Some str) ops pred Hk) as Hag.
  unfold reached in *. fold c in HI, Hd, Hag, Hi. fold l in Hd.
  destruct (@chain_before_sem c HI pred seps str Hag Hi p st Hp He) as (r & E & R1 & R2 & R3).
  exists r. split; [rewrite (@lookup_answer c (OChainBefore p seps st pred)) by reflexivity; unfold answer; rewrite E; reflexivity|].
  split; [exact R1|]. rewrite <- Hd. split; [|exact R3]. intros x Hx. rewrite (R2 x Hx). rewrite Hd. unfold linked. rewrite Hd. reflexivity.
Qed.
Example C12_example :
  let c := run (empty_coll KMatches (Some (s "ab--cd-ef!gh"))) [OExtend [mk_match 1 0 2; mk_match 2 4 6; mk_match 3 7 9; mk_match 4 10 12]] in
  snd (step c (OChainAfter 0 (s "-") None (fun _ => true))) = RList [mk_match 1 0 2; mk_match 2 4 6; mk_match 3 7 9]
  /\ snd (step c (OChainBefore 9 (s "-") 3 (fun _ => true))) = RList [mk_match 3 7 9; mk_match 2 4 6].
Proof. split; reflexivity. Qed.

(** ** C13 *)
(** The rejected match is in the sequence although AssertionError was raised. *)
Theorem C13_rejection_refuted :
  let m := set_marker (mk_match 1 0 2) true in
  let c := empty_coll KMatches ex_input in
  snd (step c (OAppend m)) = RErr AssertionError /\ c_del (fst (step c (OAppend m))) = [m].
Proof. split; reflexivity. Qed.
(** What a rejected insertion does: the error, and only the sequence changed. *)
Theorem C13_rejected_insert_partial : forall c i m,
  accepts (c_kind c) m = false ->
  snd (step c (OInsert i m)) = RErr AssertionError
  /\ c_del (fst (step c (OInsert i m))) = fst (list_step (c_del c) (OInsert i m))
  /\ max_end (fst (step c (OInsert i m))) = max_end c.
Proof. intros c i m H. unfold step, unit_out, insert, add_match. cbn [with_del c_kind]. rewrite H. auto. Qed.
(** As long as only acceptable matches are handed over, the collection is homogeneous. *)
Theorem C13_homogeneous_partial : forall k input ops,
  acceptable k false [] ops ->
  Forall (fun m => match k with KMatches => m_marker m = false | KMarkers => m_marker m = true | KBase => True end)
    (c_del (run (empty_coll k input) ops)).
Proof.
  intros k input ops H1.
  destruct (@run_ok (fun _ => True) k ops false (empty_coll k input)) as ((_ & _ & HF) & [Hk _] & _); auto; try discriminate; [apply Inv_empty|].
  rewrite Hk in HF. eapply Forall_impl; [|exact HF]. intros m Hm. simpl in Hm. destruct k; [exact I | |exact Hm].
  simpl in Hm. destruct (m_marker m); [discriminate | reflexivity].
Qed.

Print Assumptions C01_lookups_agree.
Print Assumptions C01_lookups_agree_exactly.
Print Assumptions C02_behaves_like_list_partial.
Print Assumptions C03_lookup_order_partial.
Print Assumptions C04_assignment_before_lookups_partial.
Print Assumptions C05_lookups_read_only_partial.
Print Assumptions C06_max_end_tight_partial.
Print Assumptions C07_previous_next.
Print Assumptions C08_range.
Print Assumptions C09_holes_partial.
Print Assumptions C10_holes_seps_partial.
Print Assumptions C11_conflicting.
Print Assumptions C12_chain_before.
