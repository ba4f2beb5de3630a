(** * C111: calls and consequences of rules, in any order *)
From Verif Require Import Base BaseFacts Match Spec MatchFacts Coll CollFacts CollQuery CollSem CollSem2 SpecColl CollHist CollUniv
  Conseq ConseqFacts PropsLoose PropsColl PropsConseq SpecMix.
From Coq Require Import ZifyBool.
Export Coq.Strings.String.StringSyntax.
Set Implicit Arguments.
Unset Strict Implicit.
Open Scope Z_scope.

(** the consequence classes of rules.py:134-248 *)
Definition consequence (a : action) (c : coll) (r : response) : coll * res unit :=
  match a with
  | Removing => drop_ret (remove_then c r)
  | Appending name => append_then name c r
  | Renaming n => rename_then n c r
  | Tagging ts => append_tags_then ts c r
  | Untagging ts => remove_tags_then ts c r
  end.
Definition happen (c : coll) (e : event) : coll * out :=
  match e with Call o => step c o | Then a r => unit_out (consequence a c r) end.
Definition happened (c : coll) (es : list event) : coll := fold_left (fun c e => fst (happen c e)) es c.

(** ** Exactness through calls *)
Lemma Exact_empty k input : Exact (empty_coll k input).
Proof. split; [repeat split|]. split; [split; [simpl; lia | intros m []] | constructor]. Qed.
Lemma Exact_obs c c' : obs c c' -> Exact c -> Exact c'.
Proof.
  intros (O1 & [O2 O2'] & O3 & O4 & O5 & O6 & O7 & O8 & _) ((D1 & D2 & D3 & D4 & D5) & [M0 HM] & HF).
  assert (forall K (EK : Eqb K) (ks : mtch -> list K) (od od' : option (mdict K)) (bd : list mtch -> mdict K),
    (forall l k, dget (bd l) k = occ ks k l) ->
    (forall k, dget (match od' with Some d => d | None => bd (c_del c') end) k = dget (match od with Some d => d | None => bd (c_del c) end) k) ->
    odict_exact ks od (c_del c) -> odict_exact ks od' (c_del c')) as G.
  { intros K EK ks od od' bd Hb Hg Hd. destruct od' as [d'|]; [|exact I]. intro k. rewrite Hg, O1. destruct od as [d|]; [apply Hd | rewrite Hb; apply Permutation_refl]. }
  split; [repeat split|].
  - exact (@G _ _ name_keys _ _ build_named build_named_get O4 D1).
  - exact (@G _ _ tag_keys _ _ build_tagged build_tagged_get O5 D2).
  - exact (@G _ _ start_keys _ _ build_starting build_starting_get O6 D3).
  - exact (@G _ _ end_keys _ _ build_ending build_ending_get O7 D4).
  - exact (@G _ _ index_keys _ _ build_indexed build_indexed_get O8 D5).
  - rewrite O1. split; [|rewrite O2; exact HF]. split; [rewrite O3; exact M0 | intros m Hm; rewrite O3; apply HM, Hm].
Qed.
Lemma occ_perm {K} `{Eqb K} (ks : mtch -> list K) k l l' : Permutation l l' -> Permutation (occ ks k l) (occ ks k l').
Proof. intro P. unfold occ. induction P; simpl; [constructor | apply Permutation_app_head, IHP | rewrite !app_assoc; apply Permutation_app_tail, Permutation_app_comm | eapply Permutation_trans; eauto]. Qed.
Lemma exact_push {K} `{Eqb K} (ks : mtch -> list K) od m l l' : Permutation l' (m :: l) -> odict_exact ks od l -> odict_exact ks (push_all (ks m) m od) l'.
Proof.
  intros P Hd. destruct od as [d|]; [|exact I]. intro k. cbn [push_all]. rewrite dget_fold_push.
  rewrite (occ_perm ks k P). unfold occ at 1. cbn [flat_map]. fold (occ ks k l). rewrite Permutation_app_comm. apply Permutation_app_head, Hd.
Qed.
Lemma Exact_insert c i m : Exact c -> accepts (c_kind c) m = true -> Exact (fst (insert c i m)).
Proof.
  intros HE Ha. pose proof (Exact_Inv HE) as HI. destruct (@insert_ok no_ghost c i m HI Ha) as (c' & E & (_ & HM & HF) & _ & Hd & _).
  rewrite E in *. cbn [fst]. split; [|split; assumption]. rewrite Hd. unfold insert, add_match in E. cbn [c_kind with_del] in E. rewrite Ha in E.
  injection E as <-. destruct HE as ((D1 & D2 & D3 & D4 & D5) & _).
  assert (Permutation (insert_nth (Z.to_nat (py_clip (zlen (c_del c)) i)) m (c_del c)) (m :: c_del c)) as P by apply insert_nth_perm.
  repeat split; cbn; eapply exact_push; eauto.
Qed.
Lemma Exact_append c m : Exact c -> accepts (c_kind c) m = true ->
  exists c', append c m = (c', Ok tt) /\ Exact c' /\ c_kind c' = c_kind c /\ c_del c' = c_del c ++ [m].
Proof.
  intros HE Ha. destruct (@append_ok no_ghost c m (Exact_Inv HE) Ha) as (c' & E & _ & [He _] & Hd & _).
  exists c'. split; [exact E|]. pose proof (@Exact_insert c (zlen (c_del c)) m HE Ha) as X. unfold append in E. rewrite E in X. auto.
Qed.
Lemma Exact_extend ms : forall c, Exact c -> Forall (fun m => accepts (c_kind c) m = true) ms -> Exact (fst (extend c ms)).
Proof.
  induction ms as [|m ms IH]; intros c HE Ha; [exact HE|]. inversion Ha as [|? ? A1 A2]; subst. cbn [extend].
  destruct (Exact_append HE A1) as (c' & E & HE' & Hk & _). rewrite E. apply IH; [exact HE'|]. rewrite Hk. exact A2.
Qed.
Lemma Exact_univ c : Exact c -> Uok (fun m => In m (c_del c)) c.
Proof.
  intros ((D1 & D2 & D3 & D4 & D5) & _).
  assert (forall K (EK : Eqb K) (ks : mtch -> list K) od, odict_exact ks od (c_del c) -> odall (fun m => In m (c_del c)) od) as G.
  { intros K EK ks [d|] Hd; [|exact I]. intros k x Hx. apply (Permutation_in _ (Hd k)) in Hx. apply occ_In in Hx. apply Hx. }
  split; [apply Forall_forall; auto|]. repeat split; eapply G; eassumption.
Qed.
Lemma Exact_removes c ops : Exact c -> told_apart (c_del c) -> all_handed ops = [] -> Inv no_ghost (run c ops) -> Exact (run c ops).
Proof.
  intros HE Ht Hh HI. apply (Inv_Exact (ms := c_del c)); [exact HI | | exact Ht].
  apply Uok_run; [rewrite Hh; constructor | apply Exact_univ, HE].
Qed.

Lemma call_exact c o : Exact c -> proper (c_kind c) (c_del c) (Call o) ->
  Exact (fst (step c o)) /\ c_kind (fst (step c o)) = c_kind c /\ c_del (fst (step c o)) = fst (list_step (c_del c) o)
  /\ (is_mutator o = true -> snd (step c o) = snd (list_step (c_del c) o)).
Proof.
  intros HE (Ha & Hna & Ho). pose proof (Exact_Inv HE) as HI.
  destruct (@step_ok no_ghost c o HI Ha) as (S1 & [S2 _] & S3 & S4 & _).
  { rewrite Hna. discriminate. }
  { destruct o; auto. right. eapply furthest_below; [exact HI | apply Ho]. }
  split; [|auto]. destruct (is_mutator o) eqn:Em.
  2: { eapply Exact_obs; [apply lookup_obs; rewrite is_lookup_mutator, Em; reflexivity | exact HE]. }
  assert (handed o = [] -> told_apart (c_del c) -> Exact (fst (step c o))) as R.
  { intros Hh Ht. apply (Exact_removes (ops := [o]) HE Ht); [|exact S1]. unfold all_handed. cbn [flat_map]. rewrite Hh. reflexivity. }
  destruct o; try discriminate; try (apply R; [reflexivity | apply Ho]); clear R; cbn [handed] in Ha.
  - cbn [step]. unfold unit_out. cbn [fst]. inversion Ha; subst. apply Exact_insert; assumption.
  - cbn [step]. unfold unit_out. cbn [fst]. inversion Ha; subst. apply Exact_insert; assumption.
  - cbn [step]. unfold unit_out. cbn [fst]. apply Exact_extend; assumption.
Qed.

Lemma no_equal_apart l : no_equal l -> told_apart l.
Proof. intros H a b Ha Hb E. exact (no_equal_eq H Ha Hb E). Qed.
Lemma removes_handed ms : all_handed (map ORemove ms) = [].
Proof. induction ms as [|m ms IH]; [reflexivity|]. exact IH. Qed.
Lemma many_removed c ms : Exact c -> told_apart (c_del c) ->
  exists c', remove_many c ms = (c', Ok (taken (c_del c) ms)) /\ Exact c' /\ c_kind c' = c_kind c /\ c_del c' = take_out_all (c_del c) ms.
Proof.
  intros HE Ht. destruct (@remove_many_ok no_ghost ms c (Exact_Inv HE)) as (c' & E & R & HI & [He _] & Hd). exists c'.
  split; [exact E|]. split; [|auto]. rewrite R. apply Exact_removes; [exact HE | exact Ht | apply removes_handed | rewrite <- R; exact HI].
Qed.
Lemma one_removed c m : Exact c -> told_apart (c_del c) ->
  exists c', remove_one c m = (c', Ok (if existsb (meq m) (c_del c) then Some m else None)) /\ Exact c' /\ c_kind c' = c_kind c
    /\ c_del c' = take_out_all (c_del c) [m].
Proof.
  intros HE Ht. destruct (@many_removed c [m] HE Ht) as (c' & E & HE' & Hk & Hd). cbn [remove_many taken] in E.
  unfold remove_one. change (existsb (meq m) (c_del c)) with (contains c m). rewrite contains_remove_first in E |- *.
  destruct (remove_first (meq m) (c_del c)) as [l|].
  - destruct (remove c m) as [c1 [[]|e]]; [|discriminate]. injection E as <-. exists c1. auto.
  - injection E as <-. exists c. auto.
Qed.

Lemma many_joined c ms : Exact c -> Forall (fun m => accepts (c_kind c) m = true) ms ->
  exists c', append_then None c (Many ms) = (c', Ok tt) /\ Exact c' /\ c_kind c' = c_kind c /\ c_del c' = joined (c_del c) ms.
Proof.
  intros HE Ha. unfold append_then, joined. revert c HE Ha. induction ms as [|m ms IH]; intros c HE Ha.
  - exists c. split; [reflexivity|]. split; [exact HE|]. split; [reflexivity|]. symmetry. apply app_nil_r.
  - inversion Ha as [|? ? A1 A2]; subst. cbn [append_many fold_left new_elements renames]. unfold contains, mem.
    destruct (existsb (meq m) (c_del c)) eqn:E; cbn [app].
    + rewrite app_nil_r. apply IH; assumption.
    + destruct (Exact_append HE A1) as (c1 & E1 & HE1 & Hk1 & Hd1). rewrite E1.
      destruct (IH c1 HE1) as (c2 & E2 & HE2 & Hk2 & Hd2); [rewrite Hk1; exact A2|]. unfold drop_ret in E2 |- *.
      destruct (append_many None [] c1 ms) as [c3 r]. cbn [fst snd] in E2. injection E2 as -> E2. exists c2.
      destruct r; [|discriminate]. cbn [fst snd]. split; [reflexivity|]. split; [exact HE2|]. split; [congruence|]. rewrite Hd2, Hd1, <- app_assoc. reflexivity.
Qed.
Lemma one_joined c m : Exact c -> accepts (c_kind c) m = true ->
  exists c', append_then None c (One m) = (c', Ok tt) /\ Exact c' /\ c_kind c' = c_kind c /\ c_del c' = joined (c_del c) [m].
Proof.
  intros HE Ha. unfold append_then, append_one, joined. cbn [renames new_elements]. unfold contains, mem.
  destruct (existsb (meq m) (c_del c)) eqn:E; cbn [app].
  - exists c. split; [reflexivity|]. split; [exact HE|]. split; [reflexivity|]. symmetry. apply app_nil_r.
  - destruct (Exact_append HE Ha) as (c1 & E1 & HE1 & Hk1 & Hd1). rewrite E1. exists c1. auto.
Qed.

(** ** Changing objects *)
Lemma seen1_upd : seen1 = upd. Proof. reflexivity. Qed.
Lemma seen_upds f ids m : seen f ids m = upds f ids m. Proof. reflexivity. Qed.
Definition harmless (f : mtch -> mtch) : Prop :=
  forall m, m_id (f m) = m_id m /\ m_start (f m) = m_start m /\ m_end (f m) = m_end m /\ m_marker (f m) = m_marker m.
Lemma named_harmless n : harmless (fun x => set_name x n). Proof. intro m. repeat split. Qed.
Lemma upds_keeps f ids m : harmless f -> m_id (upds f ids m) = m_id m /\ m_marker (upds f ids m) = m_marker m.
Proof.
  intro Hf. unfold upds. revert m. induction ids as [|i ids IH]; intro m; [split; reflexivity|]. cbn [fold_left].
  destruct (IH (upd i f m)) as [-> ->]. destruct (upd_keeps Hf i m) as (A & _ & _ & B). auto.
Qed.
Lemma accepts_marker k m m' : m_marker m' = m_marker m -> accepts k m' = accepts k m.
Proof. intro E. unfold accepts. rewrite E. reflexivity. Qed.
Lemma assign_kind i f c : c_kind (assign i f c) = c_kind c. Proof. reflexivity. Qed.

Lemma one_named c n m : Exact c -> accepts (c_kind c) m = true -> n <> [] -> one_state (c_del c ++ [m]) -> ~ In m (c_del c) ->
  let g := seen1 (m_id m) (fun x => set_name x (Some n)) in
  exists c', append_then (Some n) c (One m) = (c', Ok tt) /\ Exact c' /\ c_kind c' = c_kind c /\ c_del c' = joined (map g (c_del c)) [g m].
Proof.
  intros HE Ha Hn Ho Hm g.
  assert (Exact (assign (m_id m) (fun x => set_name x (Some n)) c)) as HE1.
  { apply assign_Exact; [apply named_harmless | | exact HE]. intros x Hx E. apply Hm. rewrite <- (Ho x m); [exact Hx | apply in_or_app; auto | apply in_or_app; right; left; reflexivity | exact E]. }
  destruct (@one_joined _ (g m) HE1) as (c' & E & HE' & Hk & Hd).
  { rewrite assign_kind. rewrite <- Ha. apply accepts_marker, (upd_keeps (named_harmless (Some n))). }
  exists c'. split; [|auto]. rewrite <- E. unfold append_then, append_one. cbn [renames]. destruct n as [|ch n]; [congruence|]. reflexivity.
Qed.
Lemma many_named n ms : n <> [] -> forall ids c, Exact c -> Forall (fun m => accepts (c_kind c) m = true) ms ->
  one_state (c_del c ++ map (seen (fun x => set_name x (Some n)) ids) ms) ->
  exists c' l, append_many (Some n) ids c ms = (c', Ok l) /\ Exact c' /\ c_kind c' = c_kind c /\ c_del c' = joined_as n ids (c_del c) ms.
Proof.
  intro Hn. set (f := fun x => set_name x (Some n)). pose proof (named_harmless (Some n) : harmless f) as Hf.
  induction ms as [|m0 ms IH]; intros ids c HE Ha Ho.
  - exists c, []. auto.
  - inversion Ha as [|? ? A1 A2]; subst. cbn [append_many joined_as].
    pose (m := seen f ids m0). change (fold_left _ ids m0) with m. change (seen _ ids m0) with m. cbn [map] in Ho. change (seen f ids m0) with m in Ho.
    unfold contains, mem. destruct (existsb (meq m) (c_del c)) eqn:E.
    + apply IH; [exact HE | exact A2|]. intros a b Hx Hy. apply Ho; [apply in_app_or in Hx as [Hx|Hx] | apply in_app_or in Hy as [Hy|Hy]]; apply in_or_app; simpl; auto.
    + replace (renames (Some n)) with (Some n) by (destruct n; [congruence | reflexivity]). cbv iota beta zeta. change (fun x : mtch => set_name x (Some n)) with f.
      assert (Exact (assign (m_id m) f c)) as HE1.
      { apply assign_Exact; [exact Hf | | exact HE]. intros x Hx Ei. rewrite existsb_false_iff in E.
        assert (x = m) as -> by (apply Ho; [apply in_or_app; auto | apply in_or_app; right; left; reflexivity | exact Ei]).
        specialize (E m Hx). rewrite meq_refl in E. discriminate. }
      destruct (@Exact_append _ (upd (m_id m) f m) HE1) as (c1 & E1 & HE2 & Hk & Hd).
      { rewrite assign_kind, <- A1. apply accepts_marker. destruct (upd_keeps Hf (m_id m) m) as (_ & _ & _ & ->). apply (upds_keeps ids m0 Hf). }
      rewrite E1. destruct (IH (ids ++ [m_id m]) c1 HE2) as (c2 & l2 & E2 & HE3 & Hk2 & Hd2).
      * rewrite Hk, assign_kind. exact A2.
      * rewrite Hd. cbn [c_del assign].
        replace ((map (upd (m_id m) f) (c_del c) ++ [upd (m_id m) f m]) ++ map (seen f (ids ++ [m_id m])) ms)
          with (map (upd (m_id m) f) (c_del c ++ m :: map (seen f ids) ms)).
        -- intros a b Hx Hy Ei. apply in_map_iff in Hx as (x & <- & Hx). apply in_map_iff in Hy as (y & <- & Hy).
           rewrite (proj1 (upd_keeps Hf _ x)), (proj1 (upd_keeps Hf _ y)) in Ei. rewrite (Ho x y Hx Hy Ei). reflexivity.
        -- rewrite map_app. cbn [map]. rewrite map_map, <- app_assoc. cbn [app]. f_equal. f_equal. apply map_ext. intro x.
           unfold seen. rewrite fold_left_app. reflexivity.
      * rewrite E2. exists c2, (upd (m_id m) f m :: l2). split; [reflexivity|]. split; [exact HE3|]. split; [rewrite Hk2, Hk; reflexivity|]. rewrite Hd2, Hd. reflexivity.
Qed.

Lemma countb_in (p : mtch -> bool) x l : In x l -> p x = true -> (1 <= countb p l)%nat.
Proof. intros Hx Hp. unfold countb. assert (In x (filter p l)) as H by (apply filter_In; auto). destruct (filter p l); [contradiction | simpl; lia]. Qed.
Lemma no_equal_once l x : no_equal l -> (countb (meq x) l <= 1)%nat.
Proof.
  intro H. induction H as [|a l Ha H IH]; [unfold countb; cbn; lia|]. rewrite countb_cons. destruct (meq x a) eqn:E; [|lia].
  replace (countb (meq x) l) with 0%nat; [lia|]. symmetry. unfold countb. rewrite (proj2 (filter_nil_iff _ _)); [reflexivity|].
  intros y Hy. rewrite Forall_forall in Ha. specialize (Ha y Hy). destruct (meq x y) eqn:E'; [|reflexivity].
  apply meq_mkey in E. apply meq_mkey in E'. apply meq_false_mkey in Ha. congruence.
Qed.
Lemma taken_in l ms x : In x (taken l ms) -> In x ms.
Proof. revert l. induction ms as [|m ms IH]; intros l H; [exact H|]. cbn [taken] in H. destruct (remove_first (meq m) l); [destruct H as [H|H]; [left; exact H | right; eapply IH, H] | right; eapply IH, H]. Qed.
Lemma take_out_in l ms x : In x (take_out_all l ms) -> In x l.
Proof. apply sublist_In, take_out_sublist. Qed.
(** an object that was taken out is no longer a member *)
Lemma taken_gone l ms : no_equal l -> one_state (l ++ ms) -> forall x, In x (take_out_all l ms) -> ~ In (m_id x) (map m_id (taken l ms)).
Proof.
  intros Hn Ho x Hx Hi. apply in_map_iff in Hi as (t & Et & Ht). assert (x = t) as ->.
  { apply Ho; [apply in_or_app; left; eapply take_out_in, Hx | apply in_or_app; right; eapply taken_in, Ht | congruence]. }
  apply taken_in in Ht. pose proof (countb_take_out_all ms l t) as C. pose proof (no_equal_once t Hn) as C1.
  pose proof (countb_in (p := meq t) Ht (meq_refl t)) as C2. pose proof (countb_in (p := meq t) Hx (meq_refl t)) as C3. lia.
Qed.

Lemma mbool_eq m : m_start m <= m_end m -> mbool m = Ok (negb (m_start m =? m_end m)).
Proof. intro H. unfold mbool, mlen. destruct (m_start m =? m_end m) eqn:E; destruct (m_end m - m_start m <? 0) eqn:E1; try lia; cbn [negb]; f_equal; lia. Qed.
Lemma map_seen_nil f l : map (seen f []) l = l.
Proof. apply map_id. Qed.
Lemma joined_nil l : joined l [] = l.
Proof. apply app_nil_r. Qed.

Lemma changes c f r : Exact c -> harmless f -> Forall (fun m => accepts (c_kind c) m = true) (responded r) -> no_equal (c_del c) ->
  one_state (c_del c ++ responded r) -> match r with One m => m_start m <= m_end m | Many _ => True end ->
  exists c', modify_then f c r = (c', Ok tt) /\ Exact c' /\ c_kind c' = c_kind c /\ c_del c' = changed f (c_del c) r.
Proof.
  intros HE Hf Ha Hn Ho Hr. pose proof (no_equal_apart Hn) as Ht. pose proof (taken_gone Hn Ho) as Hg.
  destruct r as [m|ms]; unfold modify_then, remove_then, changed; cbn [responded] in *.
  - destruct (@one_removed c m HE Ht) as (c1 & E & HE1 & Hk1 & Hd1). rewrite E. clear E.
    assert (taken (c_del c) [m] = if existsb (meq m) (c_del c) then [m] else []) as Et.
    { cbn [taken]. change (existsb (meq m) (c_del c)) with (contains c m). rewrite contains_remove_first. destruct (remove_first (meq m) (c_del c)); reflexivity. }
    rewrite Et in *. rewrite <- Hd1 in *. destruct (existsb (meq m) (c_del c)); cbn [option_map map] in *.
    + rewrite mbool_eq by exact Hr. destruct (m_start m =? m_end m); cbn [negb].
      * exists c1. auto.
      * assert (Exact (assign (m_id m) f c1)) as HE2 by (apply assign_Exact; [exact Hf | | exact HE1]; intros x Hx Ei; apply (Hg x Hx); left; congruence).
        destruct (@one_joined _ (upd (m_id m) f m) HE2) as (c2 & E2 & HE3 & Hk3 & Hd3).
        { rewrite assign_kind, Hk1. inversion Ha as [|? ? A _]; subst. rewrite <- A. apply accepts_marker, (upd_keeps Hf). }
        exists c2. split; [exact E2|]. split; [exact HE3|]. split; [rewrite Hk3; exact Hk1 | exact Hd3].
    + exists c1. split; [reflexivity|]. split; [exact HE1|]. split; [exact Hk1|]. rewrite map_seen_nil, joined_nil. destruct (m_start m =? m_end m); reflexivity.
  - destruct (@many_removed c ms HE Ht) as (c1 & E & HE1 & Hk1 & Hd1). rewrite E. rewrite <- Hd1 in *.
    pose proof (assign_each_spec f c1 (taken (c_del c) ms)) as (S1 & S2 & [S3 _]).
    pose proof (@assign_each_Exact f (taken (c_del c) ms) Hf c1 Hg HE1) as HE2.
    destruct (taken (c_del c) ms) as [|t ts] eqn:Et.
    + exists c1. split; [reflexivity|]. split; [exact HE1|]. split; [exact Hk1|]. cbn [map]. rewrite map_seen_nil, joined_nil. reflexivity.
    + rewrite <- Et in *. destruct (assign_each f c1 (taken (c_del c) ms)) as [c2 l2]. cbn [fst snd] in *.
      destruct (@many_joined c2 l2 HE2) as (c3 & E3 & HE3 & Hk3 & Hd3).
      { rewrite S3, Hk1, S2. rewrite Forall_forall in *. intros x Hx. apply in_map_iff in Hx as (y & <- & Hy).
        rewrite <- (Ha y (taken_in Hy)). apply accepts_marker, (upds_keeps _ _ Hf). }
      exists c3. split; [exact E3|]. split; [exact HE3|]. split; [congruence|]. rewrite Hd3, S1, S2. reflexivity.
Qed.

Lemma event_exact c e : Exact c -> proper (c_kind c) (c_del c) e ->
  Exact (fst (happen c e)) /\ c_kind (fst (happen c e)) = c_kind c /\ c_del (fst (happen c e)) = settle (c_del c) e
  /\ match e with Call o => is_mutator o = true -> snd (happen c e) = snd (list_step (c_del c) o) | Then _ _ => snd (happen c e) = RUnit end.
Proof.
  intros HE Hp. destruct e as [o|a r]; [apply call_exact; assumption|].
  assert (exists c', consequence a c r = (c', Ok tt) /\ Exact c' /\ c_kind c' = c_kind c /\ c_del c' = settle (c_del c) (Then a r)) as (c' & E & H1 & H2 & H3).
  2: { cbn [happen]. rewrite E. auto. }
  destruct a as [|name|n|ts|ts]; cbn [consequence settle proper] in *.
  - destruct r as [m|ms]; cbn [responded]; unfold remove_then.
    + destruct (@one_removed c m HE Hp) as (c1 & E & H1 & H2 & H3). rewrite E. exists c1. auto.
    + destruct (@many_removed c ms HE Hp) as (c1 & E & H1 & H2 & H3). rewrite E. exists c1. auto.
  - destruct Hp as [Ha Hp]. assert (renames name = None \/ exists ch n, name = Some (ch :: n)) as [Hn|(ch & n & ->)] by (destruct name as [[|ch n]|]; eauto).
    + assert (append_then name c r = append_then None c r) as -> by (destruct name as [[|ch n]|]; [|discriminate|reflexivity]; destruct r as [m|ms]; [reflexivity|]; unfold append_then; f_equal; clear; revert c; induction ms as [|m ms IH]; intro c; [reflexivity|]; cbn [append_many fold_left renames]; destruct (contains c m); [apply IH|]; destruct (append c m) as [c1 [[]|e]]; [rewrite IH; reflexivity | reflexivity]).
      assert (exists c', append_then None c r = (c', Ok tt) /\ Exact c' /\ c_kind c' = c_kind c /\ c_del c' = joined (c_del c) (responded r)) as (c' & X).
      { destruct r as [m|ms]; [inversion Ha; subst; apply one_joined; assumption | apply many_joined; assumption]. }
      exists c'. destruct name as [[|ch n]|]; [exact X | discriminate | exact X].
    + destruct Hp as [Ho Hm]. destruct r as [m|ms]; cbn [responded] in *.
      * inversion Ha; subst. destruct (@one_named c (ch :: n) m HE) as (c' & X); auto; [discriminate|]. exists c'. exact X.
      * destruct (@many_named (ch :: n) ms ltac:(discriminate) [] c HE Ha) as (c' & l & E & X).
        { rewrite map_seen_nil. exact Ho. }
        exists c'. split; [unfold append_then; rewrite E; reflexivity | exact X].
  - destruct Hp as (Ha & Hn & Ho & Hr). apply (@changes c (new_name n) r); auto. intro m. repeat split.
  - destruct Hp as (Ha & Hn & Ho & Hr). apply (@changes c (more_tags ts) r); auto. intro m. repeat split.
  - destruct Hp as (Ha & Hn & Ho & Hr). apply (@changes c (fewer_tags ts) r); auto. intro m. repeat split.
Qed.
Lemma events_exact es : forall c, Exact c -> all_proper (c_kind c) (c_del c) es ->
  Exact (happened c es) /\ c_kind (happened c es) = c_kind c /\ c_del (happened c es) = settled (c_del c) es.
Proof.
  induction es as [|e es IH]; intros c HE Hp; [auto|]. destruct Hp as [P1 P2]. destruct (event_exact HE P1) as (E1 & E2 & E3 & _).
  unfold happened, settled. cbn [fold_left]. destruct (IH (fst (happen c e)) E1) as (I1 & I2 & I3); [rewrite E2, E3; exact P2|].
  split; [exact I1|]. split; [rewrite <- E2; exact I2|]. rewrite <- E3. exact I3.
Qed.
Lemma Exact_shows c : Exact c -> shows_members c.
Proof.
  intros ((D1 & D2 & D3 & D4 & D5) & _).
  assert (forall K (EK : Eqb K) (ks : mtch -> list K) od (bd : list mtch -> mdict K) k, (forall l k, dget (bd l) k = occ ks k l) -> odict_exact ks od (c_del c) ->
    Permutation (dget (match od with Some d => d | None => bd (c_del c) end) k) (occ ks k (c_del c))) as G.
  { intros K EK ks [d|] bd k Hb Hd; [apply Hd | rewrite Hb; apply Permutation_refl]. }
  split; [|split; [|split; [|split]]]; [intros n Hn | intro n | intro n | intro n | intro n];
    (eexists; split; [rewrite lookup_answer by reflexivity; reflexivity|]).
  - simpl. rewrite app_nil_r, <- occ_name by exact Hn. exact (@G _ _ name_keys _ build_named n build_named_get D1).
  - rewrite <- occ_tag. exact (@G _ _ tag_keys _ build_tagged n build_tagged_get D2).
  - rewrite <- occ_start. exact (@G _ _ start_keys _ build_starting n build_starting_get D3).
  - rewrite <- occ_end. exact (@G _ _ end_keys _ build_ending n build_ending_get D4).
  - rewrite <- occ_at. exact (@G _ _ index_keys _ build_indexed n build_indexed_get D5).
Qed.

(** ** C111 Calls and consequences of rules in any order: the contents are those of a plain list of
    objects, the lookups show exactly the members, nothing raises unexpectedly. *)
Theorem C111_calls_and_rules : forall k input es,
  all_proper k [] es ->
  let c := happened (empty_coll k input) es in
  c_del c = settled [] es /\ shows_members c.
Proof.
  intros k input es H c. destruct (@events_exact es (empty_coll k input) (Exact_empty k input) H) as (E1 & _ & E3).
  split; [exact E3 | apply Exact_shows, E1].
Qed.
Theorem C111_outcomes : forall k input es e,
  all_proper k [] (es ++ [e]) ->
  let c := happened (empty_coll k input) es in
  match e with
  | Call o => is_mutator o = true -> snd (happen c e) = snd (list_step (c_del c) o)
  | Then _ _ => snd (happen c e) = RUnit
  end.
Proof.
  intros k input es e H c. assert (all_proper k [] es /\ proper k (settled [] es) e) as [H1 H2].
  { revert H. unfold settled. generalize (@nil mtch) as l. induction es as [|e1 es IH]; intros l H; [split; [exact I | apply H]|].
    destruct H as [P1 P2]. destruct (IH _ P2) as [I1 I2]. split; [split; assumption | exact I2]. }
  destruct (@events_exact es (empty_coll k input) (Exact_empty k input) H1) as (E1 & E2 & E3). fold c in E1, E2, E3.
  assert (proper (c_kind c) (c_del c) e) as Hp by (rewrite E2, E3; exact H2). exact (proj2 (proj2 (proj2 (event_exact E1 Hp)))).
Qed.
(** two rules and a call between lookups: the renamed match then gets a tag, and is found under both *)
Definition mix_x : mtch := set_name ex_a (Some (s "new")).
Definition mix_y : mtch := more_tags [s "u"] mix_x.
Definition mix_es : list event :=
  [Call (OExtend [ex_a; ex_b]); Call (ONamed [s "new"]); Call (OTagged (s "u")); Then (Renaming (Some (s "new"))) (Many [ex_a]);
   Call (OAppend ex_c); Then (Tagging [s "u"]) (One mix_x); Then Removing (Many [ex_b])].
Ltac solve_states := repeat match goal with
  | |- _ /\ _ => split
  | |- Forall _ _ => constructor
  | |- ForallOrdPairs _ _ => constructor
  | |- told_apart _ => intros ? ? ? ?
  | |- one_state _ => intros ? ? ? ?
  | H : In _ _ |- _ => progress cbn in H
  | H : _ \/ _ |- _ => destruct H as [<-|H]
  | H : False |- _ => contradiction
  | |- _ -> _ => intro; try reflexivity; discriminate
  | |- True => exact I
  | |- _ => reflexivity
  end.
Example C111_example :
  all_proper KMatches [] mix_es
  /\ settled [] mix_es = [ex_c; mix_y]
  /\ let c := happened (empty_coll KMatches ex_input) mix_es in
     snd (step c (ONamed [s "new"])) = RList [mix_y] /\ snd (step c (OTagged (s "u"))) = RList [mix_y].
Proof.
  split; [|repeat split; vm_compute; reflexivity].
  unfold mix_es. cbn [all_proper].
  assert (settled [] (firstn 3 mix_es) = [ex_a; ex_b]) as S3 by (vm_compute; reflexivity).
  assert (settle [ex_a; ex_b] (Then (Renaming (Some (s "new"))) (Many [ex_a])) = [ex_b; mix_x]) as S4 by (vm_compute; reflexivity).
  assert (settle [ex_b; mix_x; ex_c] (Then (Tagging [s "u"]) (One mix_x)) = [ex_b; ex_c; mix_y]) as S6 by (vm_compute; reflexivity).
  cbn [settle] in S4, S6. cbn [settle list_step fst app]. rewrite !S4. cbn [app]. rewrite !S6.
  split; [|split; [|split; [|split; [|split; [|split; [|split]]]]]]; cbn [proper]; solve_states.
  all: try (vm_compute; discriminate). all: unfold no_equal; repeat constructor.
Qed.

(** ** C112 AppendMatch with a name: full statement refuted.  A single match that is already a member is
    renamed while it stays filed under its old name. *)
Theorem C112_renamed_in_place_refuted :
  let c := happened (empty_coll KMatches ex_input) [Call (OAppend ex_a); Call (ONamed [s "foo"])] in
  let c' := fst (happen c (Then (Appending (Some (s "new"))) (One ex_a))) in
  snd (happen c (Then (Appending (Some (s "new"))) (One ex_a))) = RUnit
  /\ c_del c' = [mix_x] /\ snd (step c' (ONamed [s "new"])) = RList []
  /\ snd (step c' (ORemove mix_x)) = RErr ValueError.
Proof. vm_compute. repeat split; reflexivity. Qed.
(** given a list, or one match that is no member, it keeps the lookups right *)
Theorem C112_append_named_partial : forall k input es n m,
  all_proper k [] es -> n <> [] -> accepts k m = true ->
  let c := happened (empty_coll k input) es in
  one_state (c_del c ++ [m]) -> ~ In m (c_del c) ->
  let g := seen1 (m_id m) (fun x => set_name x (Some n)) in
  exists c', append_then (Some n) c (One m) = (c', Ok tt) /\ c_del c' = joined (map g (c_del c)) [g m]
    /\ shows_members c' /\ exists r, snd (step c' (ONamed [n])) = RList r /\ found (g m) r.
Proof.
  intros k input es n m H Hn Ha c Ho Hm g.
  destruct (@events_exact es (empty_coll k input) (Exact_empty k input) H) as (E1 & E2 & E3). fold c in E1, E2, E3.
  destruct (@one_named c n m E1) as (c' & A & B & C & D); auto; [rewrite E2; exact Ha|]. exists c'. split; [exact A|]. split; [exact D|].
  pose proof (Exact_shows B) as S. split; [exact S|]. destruct (proj1 S n Hn) as (r & R1 & R2). exists r. split; [exact R1|].
  assert (m_name (g m) = Some n) as En by (unfold g; rewrite seen1_upd, upd_unfold; cbv zeta; rewrite Nat.eqb_refl; reflexivity).
  assert (exists x, In x (c_del c') /\ meq (g m) x = true) as (x & Hx & Ex).
  { rewrite D. unfold joined. cbn [new_elements]. destruct (existsb (meq (g m)) (map g (c_del c))) eqn:E.
    - apply existsb_exists in E as (x & Hx & Ex). exists x. split; [apply in_or_app; left; exact Hx | exact Ex].
    - exists (g m). split; [apply in_or_app; right; fold g; rewrite E; left; reflexivity | apply meq_refl]. }
  exists x. split; [|exact Ex]. apply (Permutation_in _ (Permutation_sym R2)). apply filter_In. split; [exact Hx|].
  unfold name_is. assert (m_name x = m_name (g m)) as -> by (apply meq_mkey in Ex; rewrite (mkey_unfold (g m)), (mkey_unfold x) in Ex; congruence). rewrite En. apply pstr_eqb_refl.
Qed.
Print Assumptions C111_calls_and_rules.
Print Assumptions C111_outcomes.
Print Assumptions C112_append_named_partial.
