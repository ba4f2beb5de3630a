(** Facts about the consequences. *)
From Verif Require Import Base BaseFacts Match Spec MatchFacts Coll CollFacts CollQuery CollSem CollSem2 SpecColl CollHist CollUniv Conseq PropsLoose PropsColl.
From Coq Require Import ZifyBool.
Set Implicit Arguments.
Unset Strict Implicit.
Open Scope Z_scope.

(** ** Specification vocabulary *)
(** every lookup answers what the contents say, up to order and [==] (see C01) *)
Definition lookups_agree (c : coll) : Prop :=
  (forall n, n <> [] -> exists r, snd (step c (ONamed [n])) = RList r /\ same_members r (filter (name_is n) (c_del c)))
  /\ (forall t, exists r, snd (step c (OTagged t)) = RList r /\ same_members r (tagged_members t (c_del c)))
  /\ (forall i, exists r, snd (step c (OStarting i)) = RList r /\ same_members r (filter (starts_at i) (c_del c)))
  /\ (forall i, exists r, snd (step c (OEnding i)) = RList r /\ same_members r (filter (ends_at i) (c_del c)))
  /\ (forall i, exists r, snd (step c (OAtIndex i)) = RList r /\ same_members r (filter (coversb i) (c_del c))).
Lemma Inv_agree c : Inv no_ghost c -> lookups_agree c.
Proof.
  intro HI. split; [|split; [|split; [|split]]]; [intros n Hn | intro n | intro n | intro n | intro n];
    (eexists; split; [rewrite lookup_answer by reflexivity; reflexivity|]; apply perm_same_members).
  - simpl. rewrite app_nil_r, <- occ_name by exact Hn. apply (vname_perm HI).
  - rewrite <- occ_tag. apply (vtag_perm HI).
  - rewrite <- occ_start. apply (vstart_perm HI).
  - rewrite <- occ_end. apply (vend_perm HI).
  - rewrite <- occ_at. apply (vat_perm HI).
Qed.
(** a plain list from which the first [==] element of each given one is taken, if any *)
Definition take_out (l : list mtch) (m : mtch) : list mtch :=
  match remove_first (meq m) l with Some l' => l' | None => l end.
Definition take_out_all (l ms : list mtch) : list mtch := fold_left take_out ms l.
(** those of the given ones for which there was one *)
Fixpoint taken (l ms : list mtch) : list mtch :=
  match ms with
  | [] => []
  | m :: r => match remove_first (meq m) l with Some l' => m :: taken l' r | None => taken l r end
  end.
(** [l'] is [l] without some elements *)
Inductive sublist {A} : list A -> list A -> Prop :=
| sub_nil : sublist [] []
| sub_keep x l' l : sublist l' l -> sublist (x :: l') (x :: l)
| sub_drop x l' l : sublist l' l -> sublist l' (x :: l).

Lemma sublist_refl {A} (l : list A) : sublist l l.
Proof. induction l; constructor; assumption. Qed.
Lemma sublist_trans {A} (a b c : list A) : sublist a b -> sublist b c -> sublist a c.
Proof.
  intros H1 H2. revert a H1. induction H2 as [|x b c H IH|x b c H IH]; intros a H1; [exact H1| |constructor; apply IH, H1].
  inversion H1; subst; constructor; apply IH; assumption.
Qed.
Lemma sublist_In {A} (l' l : list A) x : sublist l' l -> In x l' -> In x l.
Proof. induction 1; simpl; [auto | intros [->|]; auto | auto]. Qed.
Lemma remove_first_sublist {A} (p : A -> bool) l l' : remove_first p l = Some l' -> sublist l' l.
Proof.
  revert l'. induction l as [|x l IH]; intros l' E; simpl in E; [discriminate|]. destruct (p x).
  - injection E as <-. constructor. apply sublist_refl.
  - destruct (remove_first p l) as [l2|]; [|discriminate]. injection E as <-. constructor. apply IH. reflexivity.
Qed.
Lemma take_out_sublist ms : forall l, sublist (take_out_all l ms) l.
Proof.
  induction ms as [|m ms IH]; intro l; unfold take_out_all; simpl; [apply sublist_refl|].
  eapply sublist_trans; [apply IH|]. unfold take_out. destruct (remove_first (meq m) l) eqn:E; [eapply remove_first_sublist, E | apply sublist_refl].
Qed.
Lemma countb_take_out l m x :
  countb (meq x) (take_out l m) = (countb (meq x) l - (if meq x m then 1 else 0))%nat.
Proof.
  unfold take_out. destruct (remove_first (meq m) l) as [l'|] eqn:E.
  - apply remove_first_Some in E as (a & z & b & -> & Hz & _ & ->). rewrite !countb_app, countb_cons.
    assert (meq x z = meq x m) as ->.
    { destruct (meq x m) eqn:Ex; [apply meq_mkey; apply meq_mkey in Ex, Hz; congruence | apply meq_false_mkey; apply meq_false_mkey in Ex; apply meq_mkey in Hz; congruence]. }
    destruct (meq x m); lia.
  - destruct (meq x m) eqn:Ex; [|lia]. replace (countb (meq x) l) with 0%nat; [reflexivity|]. symmetry.
    unfold countb. replace (filter (meq x) l) with (@nil mtch); [reflexivity|]. symmetry.
    destruct (filter (meq x) l) as [|z t] eqn:Ef; [reflexivity|]. exfalso.
    assert (In z (filter (meq x) l)) as Hz by (rewrite Ef; left; reflexivity). apply filter_In in Hz as [Hz Hm].
    rewrite remove_first_index in E. destruct (index_of (meq m) l) eqn:Ei; [discriminate|].
    pose proof (proj1 (index_of_None _ _) Ei z Hz) as C. cbv beta in C.
    apply meq_false_mkey in C. apply meq_mkey in Ex, Hm. congruence.
Qed.
Lemma countb_take_out_all ms : forall l x, countb (meq x) (take_out_all l ms) = (countb (meq x) l - countb (meq x) ms)%nat.
Proof.
  induction ms as [|m ms IH]; intros l x; unfold take_out_all; simpl; [rewrite Nat.sub_0_r; reflexivity|].
  fold (take_out_all (take_out l m) ms). rewrite IH, countb_take_out, countb_cons. destruct (meq x m); lia.
Qed.
Lemma countb_taken ms : forall l x, countb (meq x) (taken l ms) = Nat.min (countb (meq x) l) (countb (meq x) ms).
Proof.
  induction ms as [|m ms IH]; intros l x; simpl; [rewrite Nat.min_0_r; reflexivity|].
  pose proof (countb_take_out l m x) as H. unfold take_out in H. rewrite (countb_cons _ m ms).
  destruct (remove_first (meq m) l) as [l'|] eqn:E.
  - rewrite countb_cons, IH, H. destruct (meq x m) eqn:Ex; [|lia].
    apply remove_first_Some in E as (a & z & b & -> & Hz & _ & ->).
    assert (meq x z = true) as Hxz by (apply meq_mkey; apply meq_mkey in Ex, Hz; congruence).
    rewrite !countb_app, !countb_cons, Hxz in *. lia.
  - rewrite IH. destruct (meq x m) eqn:Ex; lia.
Qed.

(** ** RemoveMatch *)
Lemma contains_remove_first c m : contains c m = match remove_first (meq m) (c_del c) with Some _ => true | None => false end.
Proof.
  unfold contains. rewrite remove_first_index. destruct (index_of (meq m) (c_del c)) as [n|] eqn:E.
  - apply index_of_Some in E as (x & Hx & Hm & _). apply mem_spec. exists x. split; [eapply nth_error_In, Hx | exact Hm].
  - destruct (mem meq m (c_del c)) eqn:Em; [|reflexivity]. apply mem_spec in Em as (x & Hx & Hm).
    pose proof (proj1 (index_of_None _ _) E x Hx) as C. cbv beta in C. congruence.
Qed.
Lemma remove_many_ok P ms : forall c, Inv P c ->
  exists c', remove_many c ms = (c', Ok (taken (c_del c) ms)) /\ c' = run c (map ORemove (taken (c_del c) ms))
    /\ Inv P c' /\ same_env c c' /\ c_del c' = take_out_all (c_del c) ms.
Proof.
  induction ms as [|m ms IH]; intros c HI; simpl.
  - exists c. split; [reflexivity|]. split; [reflexivity|]. split; [exact HI|]. split; [apply same_env_refl | reflexivity].
  - rewrite contains_remove_first. pose proof (@remove_ok P c m HI) as H. unfold take_out_all. simpl.
    change (fold_left take_out ms (take_out (c_del c) m)) with (take_out_all (take_out (c_del c) m) ms). unfold take_out.
    destruct (remove_first (meq m) (c_del c)) as [l|] eqn:E.
    + destruct H as (c1 & E1 & HI1 & He1 & Hd1 & _). rewrite E1. destruct (IH c1 HI1) as (c2 & E2 & R2 & HI2 & He2 & Hd2).
      rewrite Hd1 in *. rewrite E2. exists c2. split; [reflexivity|]. split.
      * rewrite R2. simpl. rewrite E1. reflexivity.
      * split; [exact HI2|]. split; [eapply same_env_trans; eauto | exact Hd2].
    + apply IH, HI.
Qed.

(** ** AppendMatch without name *)
Lemma append_many_none ids ms : forall P c, Inv P c -> Forall (fun m => accepts (c_kind c) m = true) ms -> ids = [] ->
  let new := new_elements meq (c_del c) ms in
  exists c', append_many None ids c ms = (c', Ok new) /\ c' = run c (map OAppend new)
    /\ Inv P c' /\ same_env c c' /\ c_del c' = c_del c ++ new.
Proof.
  intros P c HI Ha -> new. revert c HI Ha new. induction ms as [|m ms IH]; intros c HI Ha new; simpl.
  - exists c. split; [reflexivity|]. split; [reflexivity|]. split; [exact HI|]. split; [apply same_env_refl | symmetry; apply app_nil_r].
  - inversion Ha as [|? ? Hm Hms]; subst. unfold new. simpl. unfold contains, mem. destruct (existsb (meq m) (c_del c)) eqn:E.
    + rewrite app_nil_r. apply IH; assumption.
    + destruct (@append_ok P c m HI Hm) as (c1 & E1 & HI1 & He1 & Hd1 & _). rewrite E1.
      destruct (IH c1 HI1) as (c2 & E2 & R2 & HI2 & He2 & Hd2); [rewrite (proj1 He1); exact Hms|].
      rewrite E2, Hd1 in *. exists c2. split; [reflexivity|]. split; [rewrite R2; simpl; rewrite E1; reflexivity|].
      split; [exact HI2|]. split; [eapply same_env_trans; eauto|]. rewrite Hd2, <- app_assoc. reflexivity.
Qed.

(** ** Assignment to an object *)
Lemma upd_unfold id f m : upd id f m =
  let m' := match m_parent m with Some p => set_parent m (Some (upd id f p)) | None => m end in
  if Nat.eqb (m_id m) id then f m' else m'.
Proof. destruct m. reflexivity. Qed.

Section Assign.
  Variable f : mtch -> mtch.
  Hypothesis f_ok : forall m, m_id (f m) = m_id m /\ m_start (f m) = m_start m /\ m_end (f m) = m_end m /\ m_marker (f m) = m_marker m.

  Lemma upd_keeps id m : m_id (upd id f m) = m_id m /\ m_start (upd id f m) = m_start m /\ m_end (upd id f m) = m_end m
    /\ m_marker (upd id f m) = m_marker m.
  Proof.
    rewrite upd_unfold. cbv zeta. set (m' := match m_parent m with Some p => _ | None => _ end).
    assert (m_id m' = m_id m /\ m_start m' = m_start m /\ m_end m' = m_end m /\ m_marker m' = m_marker m) as H.
    { unfold m'. destruct (m_parent m); auto. }
    destruct (Nat.eqb (m_id m) id); [|exact H]. destruct (f_ok m') as (F1 & F2 & F3 & F4). rewrite F1, F2, F3, F4. exact H.
  Qed.
  Lemma upd_other id m : m_id m <> id -> m_name (upd id f m) = m_name m /\ m_tags (upd id f m) = m_tags m.
  Proof.
    intro Hne. rewrite upd_unfold. cbv zeta. destruct (Nat.eqb_spec (m_id m) id); [congruence|].
    destruct (m_parent m); auto.
  Qed.
  (** the object is not among the strict ancestors *)
  Lemma upd_id id m : (forall x, ancestor m x -> m_id x <> id) -> upd id f m = m.
  Proof.
    revert m. fix IH 1. intros m H. rewrite upd_unfold. cbv zeta.
    destruct (Nat.eqb_spec (m_id m) id) as [E|_]; [exfalso; apply (H m (anc_refl m) E)|].
    destruct m as [i st en li na ta ma pr fm so inp rs re ix pa par ch]. simpl in *. destruct par as [p|]; [|reflexivity].
    unfold set_parent. simpl. f_equal. f_equal. apply IH. intros x Hx. apply H. eapply anc_step; [reflexivity | exact Hx].
  Qed.
  Lemma upd_self id m : m_id m = id -> (forall p x, m_parent m = Some p -> ancestor p x -> m_id x <> id) -> upd id f m = f m.
  Proof.
    intros E H. rewrite upd_unfold. cbv zeta. rewrite E, Nat.eqb_refl. f_equal.
    destruct m as [i st en li na ta ma pr fm so inp rs re ix pa par ch]. simpl in *. destruct par as [p|]; [|reflexivity].
    unfold set_parent. simpl. f_equal. f_equal. apply upd_id. intros x Hx. eapply H; eauto.
  Qed.
End Assign.

(** every built dictionary holds exactly the members *)
Definition odict_exact {K} `{Eqb K} (ks : mtch -> list K) (od : option (mdict K)) (l : list mtch) : Prop :=
  match od with None => True | Some d => forall k, Permutation (dget d k) (occ ks k l) end.
Definition Exact (c : coll) : Prop :=
  (odict_exact name_keys (c_named c) (c_del c) /\ odict_exact tag_keys (c_tagged c) (c_del c)
   /\ odict_exact start_keys (c_starting c) (c_del c) /\ odict_exact end_keys (c_ending c) (c_del c)
   /\ odict_exact index_keys (c_indexed c) (c_del c))
  /\ Mok c (c_del c) /\ Forall (fun m => accepts (c_kind c) m = true) (c_del c).
Lemma Exact_Inv c : Exact c -> Inv no_ghost c.
Proof.
  assert (forall K (EK : Eqb K) (ks : mtch -> list K) od l, odict_exact ks od l -> odict_ok no_ghost ks od l) as G.
  { intros K EK ks [d|] l Hd; simpl in *; [|exact I]. exists []. split; [constructor|]. intro k. apply Permutation_map, Hd. }
  intros ((H1 & H2 & H3 & H4 & H5) & HM & HF). split; [|auto]. repeat split; apply G; assumption.
Qed.
Lemma no_ghost_nil g : Forall no_ghost g -> g = [].
Proof. destruct g as [|x g]; [reflexivity|]. intro H. inversion H; contradiction. Qed.
Lemma Inv_Exact c ms : Inv no_ghost c -> Uok (fun m => In m ms) c ->
  (forall a b, In a ms -> In b ms -> meq a b = true -> a = b) -> Exact c.
Proof.
  intros ((D1 & D2 & D3 & D4 & D5) & HM & HF) (U0 & U1 & U2 & U3 & U4 & U5) Hinj. rewrite Forall_forall in U0.
  assert (forall K (EK : Eqb K) (ks : mtch -> list K) od, odict_ok no_ghost ks od (c_del c) -> odall (fun m => In m ms) od -> odict_exact ks od (c_del c)) as G.
  { intros K EK ks [d|] Hd HU; simpl in *; [|exact I]. destruct Hd as (g & Hg & Hd). apply no_ghost_nil in Hg. subst g. simpl in Hd.
    intro k. apply (perm_exact (ms := ms)); [exact Hinj | intros x; apply HU | intros x Hx; apply occ_In in Hx; apply U0, Hx | apply perm_same_members, Hd]. }
  split; [|auto]. repeat split; apply G; assumption.
Qed.

Lemma dget_map {K} `{Eqb K} (u : mtch -> mtch) (d : mdict K) k : dget (map (fun kv => (fst kv, map u (snd kv))) d) k = map u (dget d k).
Proof.
  unfold dget. induction d as [|[k' v] d IH]; simpl; [reflexivity|]. destruct (eqb k k'); [reflexivity | exact IH].
Qed.
Lemma occ_map {K} `{Eqb K} (ks : mtch -> list K) u k l : (forall m, In m l -> ks (u m) = ks m) -> occ ks k (map u l) = map u (occ ks k l).
Proof.
  unfold occ. induction l as [|m l IH]; intro Hk; simpl; [reflexivity|].
  rewrite map_app, map_repeat, (Hk m (or_introl eq_refl)), IH; [reflexivity | intros; apply Hk; right; assumption].
Qed.
Lemma assign_Exact f id c :
  (forall m, m_id (f m) = m_id m /\ m_start (f m) = m_start m /\ m_end (f m) = m_end m /\ m_marker (f m) = m_marker m) ->
  (forall m, In m (c_del c) -> m_id m <> id) -> Exact c -> Exact (assign id f c).
Proof.
  intros Hf Hid ((D1 & D2 & D3 & D4 & D5) & [M0 HM] & HF).
  assert (forall K (EK : Eqb K) (ks : mtch -> list K) od, (forall m, In m (c_del c) -> ks (upd id f m) = ks m) ->
            odict_exact ks od (c_del c) -> odict_exact ks (upd_dict (upd id f) od) (c_del (assign id f c))) as G.
  { intros K EK ks [d|] Hk Hd; simpl in *; [|exact I]. intro k. rewrite dget_map, occ_map by exact Hk. apply Permutation_map, Hd. }
  split; [|split].
  - repeat split; simpl; apply G; try assumption; intros m Hm;
      destruct (upd_keeps Hf id m) as (K1 & K2 & K3 & K4); destruct (@upd_other f id m (Hid m Hm)) as (K5 & K6).
    + unfold name_keys. rewrite K5. reflexivity.
    + unfold tag_keys. exact K6.
    + unfold start_keys. rewrite K2. reflexivity.
    + unfold end_keys. rewrite K3. reflexivity.
    + unfold index_keys. rewrite K2, K3. reflexivity.
  - split; [exact M0|]. intros m Hm. simpl in Hm. apply in_map_iff in Hm as (x & <- & Hx).
    destruct (upd_keeps Hf id x) as (_ & _ & -> & _). apply HM, Hx.
  - simpl. rewrite Forall_forall in *. intros m Hm. apply in_map_iff in Hm as (x & <- & Hx).
    destruct (upd_keeps Hf id x) as (_ & _ & _ & K4). specialize (HF x Hx). unfold accepts in *. rewrite K4. exact HF.
Qed.

(** all the assignments *)
Definition upds (f : mtch -> mtch) (ids : list nat) (m : mtch) : mtch := fold_left (fun m id => upd id f m) ids m.
Lemma upds_id f ids m : (forall x, ancestor m x -> ~ In (m_id x) ids) -> upds f ids m = m.
Proof.
  unfold upds. induction ids as [|id ids IH]; intro H; simpl; [reflexivity|]. rewrite upd_id; [apply IH|].
  - intros x Hx Hi. apply (H x Hx). right. exact Hi.
  - intros x Hx E. apply (H x Hx). left. congruence.
Qed.
Lemma upds_self f ids m : (forall m, m_id (f m) = m_id m /\ m_parent (f m) = m_parent m) -> NoDup ids -> In (m_id m) ids ->
  (forall p x, m_parent m = Some p -> ancestor p x -> ~ In (m_id x) ids) -> upds f ids m = f m.
Proof.
  intros Hf. unfold upds. induction ids as [|id ids IH]; intros Hn Hi H; simpl; [contradiction|]. inversion Hn; subst.
  destruct (Nat.eq_dec (m_id m) id) as [E|E].
  - rewrite upd_self; [|exact E | intros p x Hp Hx Ex; apply (H p x Hp Hx); left; congruence].
    apply (upds_id f (ids := ids)). intros x Hx Hi'. inversion Hx as [|? p ? Hp Hp']; subst.
    + rewrite (proj1 (Hf m)) in Hi'. contradiction.
    + rewrite (proj2 (Hf m)) in Hp. apply (H p x Hp Hp'). right. exact Hi'.
  - destruct Hi as [Hi|Hi]; [congruence|]. rewrite upd_id.
    + apply IH; [assumption | exact Hi |]. intros p x Hp Hx Hi'. apply (H p x Hp Hx). right. exact Hi'.
    + intros x Hx. inversion Hx as [|? p ? Hp Hp']; subst; [exact E|]. intro C. apply (H p x Hp Hp'). left. congruence.
Qed.
Lemma assign_each_spec f c ms :
  c_del (fst (assign_each f c ms)) = map (upds f (map m_id ms)) (c_del c)
  /\ snd (assign_each f c ms) = map (upds f (map m_id ms)) ms
  /\ same_env c (fst (assign_each f c ms)).
Proof.
  unfold assign_each, upds. generalize (map m_id ms) as ids. intro ids. generalize ms as r. revert c.
  induction ids as [|id ids IH]; intros c r; simpl; [rewrite !map_id; repeat split|].
  destruct (IH (assign id f c) (map (upd id f) r)) as (I1 & I2 & I3). rewrite I1, I2. simpl. rewrite !map_map.
  split; [reflexivity|]. split; [reflexivity|]. destruct I3 as [A B]. split; [rewrite A | rewrite B]; reflexivity.
Qed.
Lemma assign_each_Exact f ms : (forall m, m_id (f m) = m_id m /\ m_start (f m) = m_start m /\ m_end (f m) = m_end m /\ m_marker (f m) = m_marker m) ->
  forall c, (forall m, In m (c_del c) -> ~ In (m_id m) (map m_id ms)) -> Exact c -> Exact (fst (assign_each f c ms)).
Proof.
  intro Hf. unfold assign_each. generalize (map m_id ms) as ids. generalize ms as r. intros r ids. revert r.
  induction ids as [|id ids IH]; intros r c Hid HE; simpl; [exact HE|]. apply IH.
  - simpl. intros m Hm. apply in_map_iff in Hm as (x & <- & Hx). rewrite (proj1 (upd_keeps Hf id x)).
    intro Hi. apply (Hid x Hx). right. exact Hi.
  - apply assign_Exact; [exact Hf | intros m Hm E; apply (Hid m Hm); left; congruence | exact HE].
Qed.

Lemma assign_noop id f c ms : Uok (fun m => In m ms) c -> (forall x, In x ms -> upd id f x = x) ->
  (forall P, Inv P c -> Inv P (assign id f c)) /\ c_del (assign id f c) = c_del c.
Proof.
  intros (U0 & U1 & U2 & U3 & U4 & U5) Hu. rewrite Forall_forall in U0.
  assert (forall lm, (forall x, In x lm -> In x ms) -> map (upd id f) lm = lm) as ML.
  { intros lm Hl. transitivity (map (fun x => x) lm); [|apply map_id]. apply map_ext_in. auto. }
  assert (c_del (assign id f c) = c_del c) as Ed by (simpl; apply ML, U0).
  split; [|exact Ed]. intros P ((D1 & D2 & D3 & D4 & D5) & HM & HF).
  assert (forall K (EK : Eqb K) (ks : mtch -> list K) od, odall (fun m => In m ms) od -> odict_ok P ks od (c_del c) -> odict_ok P ks (upd_dict (upd id f) od) (c_del c)) as G.
  { intros K EK ks [d|] HU Hd; simpl in *; [|exact I]. destruct Hd as (g & Hg & Hd). exists g. split; [exact Hg|].
    intro k. rewrite dget_map, ML by (intros x; apply HU). apply Hd. }
  unfold Inv. rewrite Ed. split; [repeat split; simpl; apply G; assumption|]. split; [exact HM | exact HF].
Qed.
