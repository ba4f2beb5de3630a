(** Histories that only add at the end: lookups answer in sequence order. *)
From Verif Require Import Base BaseFacts Match Spec MatchFacts Coll CollFacts CollQuery CollSem CollSem2 SpecColl CollHist CollUniv.
From Coq Require Import ZifyBool.
Set Implicit Arguments.
Unset Strict Implicit.
Open Scope Z_scope.

Definition dex {K} `{Eqb K} (ks : mtch -> list K) (od : option (mdict K)) (l : list mtch) : Prop :=
  match od with None => True | Some d => forall k, dget d k = occ ks k l end.
(** every built dictionary lists the members of [l] in order *)
Definition Oex (c : coll) (l : list mtch) : Prop :=
  dex name_keys (c_named c) l /\ dex tag_keys (c_tagged c) l /\ dex start_keys (c_starting c) l
  /\ dex end_keys (c_ending c) l /\ dex index_keys (c_indexed c) l.

Lemma dex_push {K} `{Eqb K} (ks : mtch -> list K) od l m : dex ks od l -> dex ks (push_all (ks m) m od) (l ++ [m]).
Proof.
  destruct od as [d|]; simpl; [|auto]. intros Hd k. rewrite dget_fold_push, Hd, occ_app. simpl. rewrite app_nil_r. reflexivity.
Qed.

Lemma remove_first_exact m a n b : (forall x, In x a -> meq m x = false) ->
  remove_first (meq m) (a ++ repeat m (S n) ++ b) = Some (a ++ repeat m n ++ b).
Proof.
  induction a as [|x a IH]; intro Ha; simpl.
  - rewrite meq_refl. reflexivity.
  - rewrite (Ha x) by (left; reflexivity). simpl in IH. rewrite IH by (intros; apply Ha; right; assumption). reflexivity.
Qed.

Lemma remove_keys_exact {K} `{Eqb K} m (keys : list K) (A B : K -> list mtch) :
  (forall k x, In x (A k) -> meq m x = false) ->
  forall d : mdict K, (forall k, dget d k = A k ++ repeat m (countb (eqb k) keys) ++ B k) ->
  exists d', remove_keys keys m d = (d', Ok tt) /\ forall k, dget d' k = A k ++ B k.
Proof.
  intro HA. induction keys as [|k0 keys IH]; intros d Hd; simpl.
  - exists d. split; [reflexivity|]. intro k. rewrite Hd. reflexivity.
  - rewrite (Hd k0), countb_cons, eqb_refl.
    change ((if true then 1 else 0) + countb (eqb k0) keys)%nat with (S (countb (eqb k0) keys)) || idtac.
    rewrite remove_first_exact by (intros x Hx; eapply HA; exact Hx).
    apply IH. intro k. rewrite dget_dset. destruct (eqb k k0) eqn:E.
    + apply eqb_eq in E. subst. reflexivity.
    + rewrite (Hd k), countb_cons, E. reflexivity.
Qed.

Lemma dex_remove {K} `{Eqb K} (ks : mtch -> list K) od m a b :
  (forall x, In x a -> meq m x = false) -> dex ks od (a ++ m :: b) ->
  exists od', remove_all (ks m) m od = (od', Ok tt) /\ dex ks od' (a ++ b) /\ (od = None <-> od' = None).
Proof.
  intros Ha. destruct od as [d|]; simpl.
  - intro Hd. destruct (@remove_keys_exact _ _ m (ks m) (fun k => occ ks k a) (fun k => occ ks k b)) with (d := d) as (d' & E & Hd').
    + intros k x Hx. apply occ_In in Hx as [Hx _]. auto.
    + intro k. rewrite Hd, occ_app, occ_cons. reflexivity.
    + rewrite E. exists (Some d'). split; [reflexivity|]. split; [|split; discriminate].
      intro k. rewrite Hd', occ_app. reflexivity.
  - intros _. exists None. repeat split.
Qed.

Lemma remove_match_exact c m a b :
  (forall x, In x a -> meq m x = false) -> Oex c (a ++ m :: b) -> (c_ending c = None -> c_maxend c <= m_end m -> c_del c = a ++ b) ->
  exists c', remove_match c m = (c', Ok tt) /\ Oex c' (a ++ b) /\ c_del c' = c_del c
    /\ (c_ending c <> None -> c_ending c' <> None).
Proof.
  intros Ha (D1 & D2 & D3 & D4 & D5) Hl. unfold remove_match.
  destruct (dex_remove Ha D1) as (n & En & Hn & _).
  destruct (dex_remove Ha D2) as (t & Et & Ht & _).
  destruct (dex_remove Ha D3) as (st & Es & Hst & _).
  destruct (dex_remove Ha D4) as (en & Ee & Hen & Hk).
  destruct (dex_remove Ha D5) as (ix & Ei & Hix & _).
  rewrite En. cbn [c_tagged with_named]. rewrite Et. cbn [c_starting with_tagged with_named]. rewrite Es.
  cbn [c_ending with_starting with_tagged with_named]. rewrite Ee.
  cbn [c_indexed with_ending with_starting with_tagged with_named]. rewrite Ei.
  eexists. split; [reflexivity|]. unfold shrink_maxend. simpl.
  destruct (Z.geb_spec (m_end m) (c_maxend c)) as [Hge|_].
  2: { split; [repeat split; assumption|]. split; [reflexivity|]. intros Hne E. apply Hne. apply Hk. exact E. }
  set (c1 := with_indexed _ ix).
  assert (forall k, dget (dtouch (ending_dict c1) (m_end m)) k = occ end_keys k (a ++ b)) as Hd.
  { intro k. rewrite dget_dtouch. unfold ending_dict, c1. simpl. destruct en as [d|]; [apply Hen|].
    rewrite build_ending_get. rewrite Hl by (solve [apply Hk; reflexivity] || exact Hge). reflexivity. }
  destruct (dget (dtouch (ending_dict c1) (m_end m)) (m_end m)); (split; [repeat split; assumption|]; split; [reflexivity|]; discriminate).
Qed.

Lemma no_equal_before a m b : no_equal (a ++ m :: b) -> forall x, In x a -> meq m x = false.
Proof.
  intros H x Hx. apply no_equal_NoDup in H. rewrite map_app in H. simpl in H. apply NoDup_remove_2 in H.
  apply meq_false_mkey. intro E. apply H. rewrite E. apply in_or_app; left. apply in_map, Hx.
Qed.
Lemma no_equal_remove a m b : no_equal (a ++ m :: b) -> no_equal (a ++ b).
Proof. intro H. apply no_equal_NoDup in H. apply no_equal_NoDup. rewrite map_app in *. simpl in H. apply NoDup_remove_1 in H. exact H. Qed.

Lemma delitem_exact c i : Oex c (c_del c) -> no_equal (c_del c) ->
  match py_pos (c_del c) i with
  | None => delitem c i = (c, Err IndexError)
  | Some n => exists c', delitem c i = (c', Ok tt) /\ Oex c' (c_del c') /\ c_del c' = remove_nth n (c_del c) /\ no_equal (c_del c')
  end.
Proof.
  intros HO Hne. unfold delitem. destruct (py_pos (c_del c) i) as [n|] eqn:Ep; [|reflexivity].
  destruct (py_pos_nth _ _ Ep) as [x Ex]. rewrite Ex. pose proof (split_nth _ _ Ex) as Hs.
  rewrite Hs in HO at 1. rewrite Hs in Hne.
  destruct (@remove_match_exact (with_del c (remove_nth n (c_del c))) x (firstn n (c_del c)) (skipn (S n) (c_del c)))
    as (c' & E & HO' & Hd & _).
  - eapply no_equal_before; exact Hne.
  - exact HO.
  - intros _ _. reflexivity.
  - exists c'. split; [exact E|]. simpl in Hd. rewrite Hd. split; [exact HO'|]. split; [reflexivity|].
    unfold remove_nth. eapply no_equal_remove; exact Hne.
Qed.

Lemma remove_match_maxend c m : c_maxend c <= c_maxend (fst (remove_match c m)).
Proof.
  unfold remove_match.
  repeat match goal with |- context [let '(_, _) := ?x in _] => destruct x as [? [|]]; cbn [fst c_maxend with_named with_tagged with_starting with_ending with_indexed]; try lia end.
  unfold shrink_maxend. cbn [c_maxend with_named with_tagged with_starting with_ending with_indexed].
  destruct (Z.geb_spec (m_end m) (c_maxend c)); [|cbn; lia].
  match goal with |- context [dkeys ?d] => assert (m_end m <= zmax_list (dkeys d)) by (apply zmax_list_ge, dkeys_dtouch_In; auto) end.
  match goal with |- context [match ?x with _ => _ end] => destruct x end; cbn [c_maxend with_maxend with_ending with_indexed with_starting with_tagged with_named]; lia.
Qed.
Lemma remove_matches_exact ms : forall c a b,
  Oex c (a ++ ms ++ b) -> no_equal (a ++ ms ++ b) -> c_del c = a ++ b -> 
  (c_ending c <> None \/ Forall (fun x => m_end x < c_maxend c) (removelast ms)) ->
  exists c', remove_matches c ms = (c', Ok tt) /\ Oex c' (a ++ b) /\ c_del c' = a ++ b.
Proof.
  induction ms as [|m ms IH]; intros c a b HO Hne Hd He; simpl; [eauto|].
  destruct (@remove_match_exact c m a (ms ++ b)) as (c1 & E1 & HO1 & Hd1 & Hn1).
  - eapply no_equal_before; exact Hne.
  - exact HO.
  - intros En Hge. destruct He as [He|He]; [congruence|]. destruct ms; [exact Hd|]. cbn [removelast] in He. inversion He; subst. lia.
  - rewrite E1. apply IH.
    + exact HO1.
    + eapply no_equal_remove; exact Hne.
    + congruence.
    + destruct He as [He|He]; [left; auto | right]. destruct ms; [constructor|]. cbn [removelast] in He.
      inversion He as [|? ? _ He']; subst. pose proof (@remove_match_maxend c m) as Hm. rewrite E1 in Hm. cbn [fst] in Hm.
      eapply Forall_impl; [|exact He']. cbn beta. intros; lia.
Qed.

Lemma clear_exact n : forall c, Oex c (c_del c) -> no_equal (c_del c) ->
  Oex (fst (clear_loop n c)) (c_del (fst (clear_loop n c))).
Proof.
  induction n as [|n IH]; intros c HO Hne; simpl; [exact HO|].
  unfold pop, py_nth. pose proof (delitem_exact (-1) HO Hne) as H.
  destruct (py_pos (c_del c) (-1)) as [k|] eqn:Ep; [|exact HO].
  destruct (py_pos_nth _ _ Ep) as [x Ex]. rewrite Ex. destruct H as (c' & -> & H1 & H2 & H3). simpl. apply IH; assumption.
Qed.

Lemma append_exact c m : accepts (c_kind c) m = true -> Oex c (c_del c) -> Oex (fst (append c m)) (c_del (fst (append c m)))
  /\ c_del (fst (append c m)) = c_del c ++ [m].
Proof.
  intros Ha (D1 & D2 & D3 & D4 & D5). unfold append, insert, add_match. simpl. rewrite Ha. simpl.
  assert (insert_nth (Z.to_nat (py_clip (zlen (c_del c)) (zlen (c_del c)))) m (c_del c) = c_del c ++ [m]) as ->.
  { unfold insert_nth, py_clip. pose proof (zlen_nonneg (c_del c)). replace (zlen (c_del c) <? 0) with false by lia.
    rewrite Z.min_id. unfold zlen. rewrite Nat2Z.id, firstn_all, skipn_all. reflexivity. }
  split; [|reflexivity]. repeat split; apply dex_push; assumption.
Qed.
Lemma extend_exact ms : forall c, Forall (fun m => accepts (c_kind c) m = true) ms -> Oex c (c_del c) ->
  Oex (fst (extend c ms)) (c_del (fst (extend c ms))).
Proof.
  induction ms as [|m ms IH]; intros c Hf HO; simpl; [exact HO|]. inversion Hf; subst.
  destruct (append_exact H1 HO) as [H _]. unfold append, insert, add_match in *. simpl in *. rewrite H1 in *. simpl in *.
  apply IH; [exact H2 | exact H].
Qed.

Lemma obs_Oex c c' : obs c c' -> Oex c (c_del c) -> Oex c' (c_del c').
Proof.
  intros (O1 & _ & _ & O4 & O5 & O6 & O7 & O8 & _) (D1 & D2 & D3 & D4 & D5). rewrite O1.
  assert (forall K (EK : Eqb K) (ks : mtch -> list K) (od od' : option (mdict K)) (b : list mtch -> mdict K),
    (forall l k, dget (b l) k = occ ks k l) ->
    (forall k, dget (match od' with Some d => d | None => b (c_del c') end) k = dget (match od with Some d => d | None => b (c_del c) end) k) ->
    dex ks od (c_del c) -> dex ks od' (c_del c)) as G.
  { intros K EK ks od od' b Hb Hv Hd. destruct od' as [d'|]; simpl in *; [|exact I]. intro k. rewrite Hv.
    destruct od as [d|]; [apply Hd | apply Hb]. }
  repeat split; [eapply G; [apply build_named_get | exact O4 | exact D1] | eapply G; [apply build_tagged_get | exact O5 | exact D2]
    | eapply G; [apply build_starting_get | exact O6 | exact D3] | eapply G; [apply build_ending_get | exact O7 | exact D4]
    | eapply G; [apply build_indexed_get | exact O8 | exact D5]].
Qed.

Lemma step_exact c o :
  Forall (fun m => accepts (c_kind c) m = true) (handed o) -> is_assignment o = false ->
  (match o with ODelslice i j => c_ending c <> None \/ Forall (fun x => m_end x < c_maxend c) (removelast (py_slice (c_del c) i j))
              | OInsert i _ => zlen (c_del c) <= i | _ => True end) ->
  no_equal (c_del c) -> Oex c (c_del c) -> Oex (fst (step c o)) (c_del (fst (step c o))).
Proof.
  intros Hf Ha Hs Hne HO. destruct (is_mutator o) eqn:Em.
  2: { eapply obs_Oex; [apply lookup_obs; rewrite is_lookup_mutator, Em; reflexivity | exact HO]. }
  destruct o; try discriminate; cbn [step handed] in *.
  - inversion Hf; subst. apply append_exact; assumption.
  - inversion Hf; subst. assert (insert c i m = append c m) as E.
    { unfold append, insert. f_equal. f_equal. f_equal. unfold py_clip. pose proof (zlen_nonneg (c_del c)).
      replace (i <? 0) with false by lia. replace (zlen (c_del c) <? 0) with false by lia. f_equal. lia. }
    rewrite E. apply append_exact; assumption.
  - apply extend_exact; assumption.
  - unfold unit_out, remove. simpl. destruct (seq_index c m) as [i|]; [|exact HO].
    pose proof (delitem_exact i HO Hne) as H. destruct (py_pos (c_del c) i); [|rewrite H; exact HO].
    destruct H as (c' & -> & H1 & _). exact H1.
  - pose proof (delitem_exact i HO Hne) as H. destruct (py_pos (c_del c) i); [|rewrite H; exact HO].
    destruct H as (c' & -> & H1 & _). exact H1.
  - unfold delslice. destruct (py_slice_unslice (c_del c) i j) as (a & b & Eu & El).
    rewrite Eu.
    destruct (@remove_matches_exact (py_slice (c_del c) i j) (with_del c (a ++ b)) a b) as (c' & E & HO' & Hd).
    + rewrite El in HO at 1. exact HO.
    + rewrite <- El. exact Hne.
    + reflexivity.
    + exact Hs.
    + rewrite E. simpl. rewrite Hd. exact HO'.
  - unfold pop, py_nth. pose proof (delitem_exact i HO Hne) as H. destruct (py_pos (c_del c) i) as [n|] eqn:Ep; [|exact HO].
    destruct (py_pos_nth _ _ Ep) as [x Ex]. rewrite Ex. destruct H as (c' & -> & H1 & _). exact H1.
  - apply clear_exact; assumption.
Qed.

Lemma run_exact k ops : forall asked c,
  c_kind c = k -> Inv no_ghost c -> (asked = true -> c_ending c <> None) ->
  acceptable k asked (c_del c) ops -> no_assignment ops -> in_order (c_del c) ops ->
  no_equal (c_del c) -> Oex c (c_del c) -> Oex (run c ops) (c_del (run c ops)).
Proof.
  induction ops as [|o ops IH]; intros asked c Hk HI Hasked Hacc Hna Hord Hne HO; [exact HO|].
  cbn [acceptable in_order] in *. destruct Hacc as (A1 & A2 & A3). destruct Hord as (B1 & B2 & B3).
  unfold no_assignment in Hna. simpl in Hna. apply andb_true_iff in Hna as [Hna1 Hna2]. apply negb_true_iff in Hna1.
  rewrite <- Hk in A1.
  assert (match o with ODelslice i j => c_ending c <> None \/ Forall (fun x => m_end x < c_maxend c) (removelast (py_slice (c_del c) i j)) | _ => True end) as Hs.
  { destruct o; auto. destruct A2 as [A2|A2]; [auto | right; eapply furthest_below; eauto]. }
  destruct (@step_ok no_ghost c o) as (S1 & S2 & S3 & _ & S5 & S6); auto.
  { rewrite Hna1. discriminate. }
  simpl. apply (IH (match o with OEnding _ => true | _ => asked end)).
  - destruct S2 as [-> _]. exact Hk.
  - exact S1.
  - intro Hx. destruct o; try (apply S6; apply Hasked; exact Hx). apply ending_built.
  - rewrite S3. exact A3.
  - exact Hna2.
  - rewrite S3. exact B3.
  - rewrite S3. exact B2.
  - apply step_exact; auto. destruct o; auto.
Qed.

Lemma reached_exact k input ops :
  acceptable k false [] ops -> no_assignment ops -> in_order [] ops ->
  let c := reached k input ops in Oex c (c_del c).
Proof.
  intros H1 H2 H3 c. apply (@run_exact k ops false (empty_coll k input)); auto; try discriminate.
  - apply Inv_empty.
  - constructor.
  - repeat split.
Qed.
Lemma reached_exact_views k input ops :
  acceptable k false [] ops -> no_assignment ops -> in_order [] ops ->
  let c := reached k input ops in
  (forall n, vname c n = occ name_keys n (c_del c)) /\ (forall t, vtag c t = occ tag_keys t (c_del c))
  /\ (forall i, vstart c i = occ start_keys i (c_del c)) /\ (forall i, vend c i = occ end_keys i (c_del c))
  /\ (forall i, vat c i = occ index_keys i (c_del c)).
Proof.
  intros H1 H2 H3 c. destruct (@reached_exact k input ops H1 H2 H3) as (D1 & D2 & D3 & D4 & D5). fold c in D1, D2, D3, D4, D5.
  unfold vname, vtag, vstart, vend, vat, named_dict, tagged_dict, starting_dict, ending_dict, indexed_dict.
  repeat split; intro k0;
    [destruct (c_named c); [apply D1 | apply build_named_get] | destruct (c_tagged c); [apply D2 | apply build_tagged_get]
    |destruct (c_starting c); [apply D3 | apply build_starting_get] | destruct (c_ending c); [apply D4 | apply build_ending_get]
    |destruct (c_indexed c); [apply D5 | apply build_indexed_get]].
Qed.
