(** Facts: the keys listed by [names] and [tags], and the exact [max_end], over all histories. *)
From Verif Require Import Base BaseFacts Match Spec MatchFacts Coll CollFacts CollQuery CollSem CollSem2 SpecColl CollHist CollUniv CollOrder SpecFiled CollFiled.
From Coq Require Import ZifyBool.
Set Implicit Arguments.
Unset Strict Implicit.
Open Scope Z_scope.

Lemma history_ind k input (Q : list op -> coll -> Prop) :
  Q [] (empty_coll k input) ->
  (forall pre o, acceptable k false [] (pre ++ [o]) ->
     forall c0, c0 = run (empty_coll k input) pre -> Q pre c0 -> Inv (fun _ => True) c0 -> c_del c0 = list_run [] pre ->
     Forall (fun m => accepts (c_kind c0) m = true) (handed o) ->
     (match o with ODelslice i j => c_ending c0 <> None \/ Forall (fun x => m_end x < c_maxend c0) (removelast (py_slice (c_del c0) i j)) | _ => True end) ->
     c_del (fst (step c0 o)) = fst (list_step (c_del c0) o) ->
     Q (pre ++ [o]) (fst (step c0 o))) ->
  forall ops, acceptable k false [] ops -> Q ops (run (empty_coll k input) ops).
Proof.
  intros H0 HS ops. induction ops as [|o pre IH] using rev_ind; intro Hacc; [exact H0|].
  pose proof Hacc as Hacc'. apply acceptable_app in Hacc' as [A1 A2]. cbn [acceptable] in A2. destruct A2 as (B1 & B2 & _).
  pose proof (Inv_empty (fun _ => True) k input) as HI0.
  assert (false = true -> c_ending (empty_coll k input) <> None) as Hf by discriminate.
  destruct (@run_ok (fun _ => True) k pre false (empty_coll k input) eq_refl HI0 Hf A1 (or_intror (fun _ => I))) as (R1 & R2 & R3 & _).
  pose proof (@asked_built k (empty_coll k input) pre false eq_refl HI0 Hf A1) as Hask.
  rewrite run_app. change (run (run (empty_coll k input) pre) [o]) with (fst (step (run (empty_coll k input) pre) o)).
  set (c0 := run (empty_coll k input) pre) in *. cbn [c_del empty_coll] in R3.
  assert (match o with ODelslice i j => c_ending c0 <> None \/ Forall (fun x => m_end x < c_maxend c0) (removelast (py_slice (c_del c0) i j)) | _ => True end) as Hsl.
  { destruct o; auto. destruct B2 as [B2|B2]; [left; apply Hask; exact B2 | right; eapply furthest_below; [exact R1 | rewrite R3; exact B2]]. }
  assert (Forall (fun m => accepts (c_kind c0) m = true) (handed o)) as HFo by (destruct R2 as [-> _]; exact B1).
  destruct (@step_ok (fun _ => True) c0 o R1 HFo (fun _ _ => I) Hsl) as (_ & _ & S3 & _).
  apply HS; auto.
Qed.

Lemma added_since_snoc a o : forall l, added_since l (a ++ [o]) = added_since l a ++ added (told (list_run l a) o).
Proof.
  induction a as [|x a IH]; intro l; cbn [app added_since list_run fold_left]; [rewrite app_nil_r; reflexivity|].
  rewrite IH, app_assoc. reflexivity.
Qed.
Lemma added_In m es : In m (added es) <-> In (Added m) es.
Proof.
  unfold added. rewrite in_flat_map. split.
  - intros ([x|x] & H1 & H2); [destruct H2 as [<-|[]]; exact H1 | destruct H2].
  - intro H. exists (Added m). split; [exact H | left; reflexivity].
Qed.
(** members are matches added *)
Lemma step_added l o m : In m (fst (list_step l o)) -> In m l \/ In (Added m) (told l o).
Proof.
  assert (forall n x, In x (remove_nth n l) -> In x l) as HR.
  { intros n x H. unfold remove_nth in H. apply in_app_or in H as [H|H]; [eapply firstn_In | eapply skipn_In]; eauto. }
  destruct o; cbn [list_step told fst]; intro H; try (left; exact H).
  - apply in_app_or in H as [H|[<-|[]]]; [left; exact H | right; left; reflexivity].
  - eapply Permutation_in in H; [|apply insert_nth_perm]. destruct H as [<-|H]; [right; left; reflexivity | left; exact H].
  - apply in_app_or in H as [H|H]; [left; exact H | right; apply in_map, H].
  - destruct (remove_first (meq m0) l) as [l'|] eqn:E; cbn [fst] in H; [|left; exact H].
    apply remove_first_Some in E as (a & x & b & -> & _ & _ & ->). left. apply in_or_app. apply in_app_or in H. simpl. tauto.
  - destruct (py_pos l i); cbn [fst] in H; left; [eapply HR; eauto | exact H].
  - left. destruct (py_slice_unslice l i j) as (a & b & Eu & El). rewrite Eu in H. rewrite El. rewrite !in_app_iff in *. tauto.
  - destruct (py_pos l i) as [n|]; [destruct (nth_error l n)|]; cbn [fst] in H; left; try exact H. eapply HR; eauto.
  - contradiction.
  - unfold py_nth. destruct (py_pos l i) as [n|] eqn:Ep; cbn [fst] in H; [|left; exact H].
    destruct (py_pos_nth _ _ Ep) as [x Ex]. rewrite Ex. unfold replace_nth in H. apply in_app_or in H as [H|[<-|H]]; [left; eapply firstn_In; eauto | right; left; reflexivity | left; eapply skipn_In; eauto].
  - apply in_app_or in H as [H|H]; [left; eapply firstn_In; eauto|]. apply in_app_or in H as [H|H]; [right; apply in_map, H | left; eapply skipn_In; eauto].
  - left. apply in_rev. exact H.
Qed.
Lemma members_added ops m : In m (list_run [] ops) -> In m (added_since [] ops).
Proof.
  induction ops as [|o ops IH] using rev_ind; [intros []|]. rewrite list_run_snoc, added_since_snoc, in_app_iff, added_In.
  intro H. apply step_added in H as [H|H]; auto.
Qed.
Lemma told_added l o m : In (Added m) (told l o) -> In m (added (told l o)).
Proof. apply added_In. Qed.

(** ** [names] and [tags] *)
Section Keys.
  Variable tag : bool.
  Definition kf : family := if tag then ByTag else ByName.
  Definition ksel (c : coll) : option (mdict pstr) := if tag then c_tagged c else c_named c.
  Definition kdict (c : coll) : mdict pstr := if tag then tagged_dict c else named_dict c.
  Definition kks (m : mtch) : list pstr := if tag then tag_keys m else name_keys m.
  Definition kasked (o : op) : list pstr :=
    match o with ONamed ns => if tag then [] else ns | OTagged t => if tag then [t] else [] | _ => [] end.
  Definition keyed (c : coll) (S : pstr -> Prop) : Prop := exists d, ksel c = Some d /\ forall k, In k (dkeys d) <-> S k.
  Definition kact (S : pstr -> Prop) (e : news) : pstr -> Prop :=
    match e with Added m => fun k => S k \/ In k (kks m) | Gone _ => S end.
  Lemma keyed_add c m S : accepts (c_kind c) m = true -> keyed c S -> keyed (fst (add_match c m)) (kact S (Added m)).
  Proof.
    intros Ha (d & Ed & Hd). unfold add_match, keyed, ksel, kact, kks in *. rewrite Ha.
    destruct tag; cbn [fst c_named c_tagged]; rewrite Ed; cbn [push_all]; (eexists; split; [reflexivity|]; intro k; rewrite dkeys_fold_push, Hd; tauto).
  Qed.
  Lemma remove_keys_keys {K} `{Eqb K} (keys : list K) m : forall d d', remove_keys keys m d = (d', Ok tt) -> forall k, In k (dkeys d') <-> In k (dkeys d).
  Proof.
    induction keys as [|k0 keys IH]; intros d d' E k; cbn [remove_keys] in E; [injection E as <-; tauto|].
    destruct (remove_first (meq m) (dget d k0)) as [l|] eqn:Er; [|discriminate].
    rewrite (IH _ _ E), dkeys_dset_In. split; [|tauto]. intros [->|Hk]; [|exact Hk]. apply dget_In_keys. intro En. rewrite En in Er. discriminate.
  Qed.
  Lemma keyed_rem c m S c' : remove_match c m = (c', Ok tt) -> keyed c S -> keyed c' (kact S (Gone m)).
  Proof.
    intros Hr (d & Ed & Hd). apply remove_match_parts in Hr as (n & t & st & en & ix & R1 & R2 & R3 & R4 & R5 & ->).
    destruct (shrink_others (Coll (c_kind c) (c_input c) (c_maxend c) (c_del c) n t st en ix) m) as (S1 & S2 & _).
    unfold keyed, ksel, kact in *. destruct tag.
    - rewrite S2. cbn [c_tagged]. rewrite Ed in R2. cbn [remove_all] in R2. destruct (remove_keys (tag_keys m) m d) as [d' r] eqn:E. injection R2 as <- ->.
      exists d'. split; [reflexivity|]. intro k. rewrite (remove_keys_keys E). apply Hd.
    - rewrite S1. cbn [c_named]. rewrite Ed in R1. cbn [remove_all] in R1. destruct (remove_keys (name_keys m) m d) as [d' r] eqn:E. injection R1 as <- ->.
      exists d'. split; [reflexivity|]. intro k. rewrite (remove_keys_keys E). apply Hd.
  Qed.
  Lemma keyed_dict c S : keyed c S -> forall k, In k (dkeys (kdict c)) <-> S k.
  Proof. intros (d & E & H) k. unfold kdict, ksel, tagged_dict, named_dict in *. destruct tag; rewrite E; apply H. Qed.
  Lemma dict_keyed c S : ~ unfilled kf c -> (forall k, In k (dkeys (kdict c)) <-> S k) -> keyed c S.
  Proof.
    unfold kf, kdict, keyed, ksel, tagged_dict, named_dict. destruct tag; cbn [unfilled]; intros Hu H.
    - destruct (c_tagged c) as [d|]; [exists d; auto | tauto].
    - destruct (c_named c) as [d|]; [exists d; auto | tauto].
  Qed.
  Lemma q_named_keys ns : forall c k, In k (dkeys (named_dict (fst (q_named_loop c ns)))) <-> In k ns \/ In k (dkeys (named_dict c)).
  Proof.
    induction ns as [|n ns IH]; intros c k; cbn [q_named_loop]; [simpl; tauto|].
    destruct (q_named1 c n) as [c1 l] eqn:E. specialize (IH c1 k). destruct (q_named_loop c1 ns) as [c2 l']. cbn [fst] in *. rewrite IH.
    unfold q_named1 in E. injection E as <- _. cbn [named_dict with_named c_named]. rewrite dkeys_dtouch_In. simpl. intuition congruence.
  Qed.
  Lemma dedup_In (l : list pstr) k : In k (dedup pstr_eqb l) <-> In k l.
  Proof.
    induction l as [|x l IH]; cbn [dedup]; [tauto|]. simpl. rewrite filter_In, IH, negb_true_iff. split; [tauto|].
    intros [->|H]; [left; reflexivity|]. destruct (pstr_eqb x k) eqn:E; [left; apply pstr_eqb_eq, E | auto].
  Qed.
  Lemma lookup_keys c o k : is_lookup o = true -> In k (dkeys (kdict (fst (step c o)))) <-> In k (kasked o) \/ In k (dkeys (kdict c)).
  Proof.
    intro Hl.
    assert (may_need kf o = false -> kasked o = [] -> In k (dkeys (kdict (fst (step c o)))) <-> In k (kasked o) \/ In k (dkeys (kdict c))) as G.
    { intros Hm ->. pose proof (proj2 (lookup_grows c Hl kf) Hm) as Hs. destruct (lookup_obs c Hl) as (Hd & _).
      unfold kf, kdict, tagged_dict, named_dict in *. destruct tag; cbn [same_dict] in Hs; rewrite Hs, Hd; simpl; tauto. }
    unfold kf, kdict, kasked in *. destruct o; try discriminate; try (destruct tag; apply G; reflexivity); destruct tag; try (apply G; reflexivity).
    - destruct ns as [|n ns]; [simpl; tauto|]. cbn [step]. unfold q_named.
      pose proof (q_named_keys (dedup pstr_eqb (n :: ns)) c k) as H. destruct (q_named_loop c (dedup pstr_eqb (n :: ns))). cbn [fst] in *.
      rewrite H, dedup_In. tauto.
    - cbn [step q_tagged fst tagged_dict with_tagged c_tagged]. rewrite dkeys_dtouch_In. simpl. intuition congruence.
    - cbn [step q_names fst named_dict with_named c_named]. simpl. tauto.
    - cbn [step q_tags fst tagged_dict with_tagged c_tagged]. simpl. tauto.
  Qed.
  Lemma unfilled_keys c : unfilled kf c -> forall k, In k (dkeys (kdict c)) <-> exists m, In m (c_del c) /\ In k (kks m).
  Proof.
    unfold kf, kdict, kks, tagged_dict, named_dict. destruct tag; cbn [unfilled]; intros -> k.
    - apply build_tagged_keys.
    - rewrite build_named_keys. split; intros (m & Hm & H); exists m; (split; [exact Hm|]).
      + destruct H as [E Hk]. unfold name_keys. rewrite E. destruct k; [congruence | left; reflexivity].
      + unfold name_keys in H. destruct (m_name m) as [[|a r]|]; try contradiction. destruct H as [<-|[]]. split; [reflexivity | discriminate].
  Qed.
  Definition asked_keys (ops : list op) : list pstr := flat_map kasked ops.
  Definition kspec (ops before after : list op) (k : pstr) : Prop :=
    In k (asked_keys ops) \/ exists m, (In m (list_run [] before) \/ In m (added_since (list_run [] before) after)) /\ In k (kks m).

  Lemma acts_kact es : forall S k, acts kact S es k <-> S k \/ exists m, In m (added es) /\ In k (kks m).
  Proof.
    induction es as [|e es IH]; intros S k; cbn [acts fold_left].
    - split; [tauto|]. intros [H|(m & [] & _)]; exact H.
    - fold (acts kact (kact S e) es). rewrite IH. destruct e as [x|x]; cbn [kact].
      + change (added (Added x :: es)) with (x :: added es). split.
        * intros [[H|H]|(m & H1 & H2)]; [left; exact H | right; exists x; simpl; auto | right; exists m; simpl; auto].
        * intros [H|(m & [<-|H1] & H2)]; eauto.
      + change (added (Gone x :: es)) with (added es). tauto.
  Qed.

  Lemma reach_keyed k input ops : acceptable k false [] ops ->
    let c := run (empty_coll k input) ops in
    (unfilled kf c /\ forallb (fun o => negb (asks kf o)) ops = true /\ asked_keys ops = [])
    \/ exists before after, ops = before ++ after /\ forallb (fun o => negb (asks kf o)) (removelast before) = true
        /\ (exists b o, before = b ++ [o] /\ may_need kf o = true) /\ keyed c (kspec ops before after).
  Proof.
    apply history_ind with (Q := fun ops c =>
      (unfilled kf c /\ forallb (fun o => negb (asks kf o)) ops = true /\ asked_keys ops = [])
      \/ exists before after, ops = before ++ after /\ forallb (fun o => negb (asks kf o)) (removelast before) = true
        /\ (exists b o, before = b ++ [o] /\ may_need kf o = true) /\ keyed c (kspec ops before after)).
    - left. unfold kf. destruct tag; repeat split.
    - clear ops. intros pre o Hacc c0 Hc0 IH HI Hd HF HS Hd'.
      assert (asked_keys (pre ++ [o]) = asked_keys pre ++ kasked o) as Hak by (unfold asked_keys; rewrite flat_map_app; cbn [flat_map]; rewrite app_nil_r; reflexivity).
      set (U := fun _ : mtch => True).
      assert (Forall U (c_del c0)) as HUc by (apply Forall_forall; intros; exact I).
      destruct (is_mutator o) eqn:Em.
      + assert (kasked o = []) as Hka by (destruct o; try discriminate; reflexivity).
        rewrite Hka, app_nil_r in Hak.
        assert (R_del : forall c l S, Forall U l -> keyed c S -> keyed (with_del c l) S) by (intros c l S _ H; exact H).
        assert (R_add : forall c m S, accepts (c_kind c) m = true -> U m -> keyed c S -> keyed (fst (add_match c m)) (kact S (Added m))) by (intros; apply keyed_add; assumption).
        assert (R_rem : forall c m S c', U m -> remove_match c m = (c', Ok tt) -> keyed c S -> keyed c' (kact S (Gone m))) by (intros; eapply keyed_rem; eauto).
        destruct (@track_step U kf _ keyed kact R_del R_add R_rem (fun _ => True) c0 o Em HI HF HS HUc (fun _ _ => I)) as [T1 _].
        assert (V_del : forall c l (g : unit), Forall U l -> unfilled kf c -> unfilled kf (with_del c l)) by (intros; apply unfilled_with_del; assumption).
        assert (V_add : forall c m (g : unit), accepts (c_kind c) m = true -> U m -> unfilled kf c -> unfilled kf (fst (add_match c m))) by (intros; apply unfilled_add; assumption).
        assert (V_rem : forall c m (g : unit) c', U m -> remove_match c m = (c', Ok tt) -> unfilled kf c -> unfilled kf c').
        { intros c m _ c' _ Hr Hu. destruct (unfilled_remove Hr Hu) as [H|[H _]]; [exact H|]. unfold kf in H. destruct tag; discriminate. }
        destruct (@track_step U kf unit (fun c _ => unfilled kf c) (fun g _ => g) V_del V_add V_rem (fun _ => True) c0 o Em HI HF HS HUc (fun _ _ => I)) as [T2 _].
        assert (may_need kf o = false) as Hmn by (unfold kf; destruct tag, o; try discriminate; reflexivity).
        destruct IH as [(Hu & Ha & Hk)|(be & af & H1 & H2 & H3 & H4)].
        * left. split; [|split].
          -- apply (T2 tt Hu).
          -- rewrite forallb_app, Ha. cbn [forallb]. replace (asks kf o) with false; [reflexivity|]. unfold may_need in Hmn. apply orb_false_iff in Hmn. symmetry. apply Hmn.
          -- rewrite Hak. exact Hk.
        * right. exists be, (af ++ [o]). rewrite H1 at 1. rewrite <- app_assoc. split; [reflexivity|]. split; [exact H2|]. split; [exact H3|].
          destruct (T1 _ H4) as (d & Ed & Hdk). exists d. split; [exact Ed|]. intro x. rewrite Hdk, acts_kact. unfold kspec. rewrite Hak, added_since_snoc.
          assert (list_run (list_run [] be) af = c_del c0) as -> by (rewrite Hd, H1; unfold list_run; rewrite fold_left_app; reflexivity).
          split.
          -- intros [[H|(m & Hm & Hx)]|(m & Hm & Hx)]; [left; exact H | right; exists m | right; exists m]; rewrite in_app_iff; tauto.
          -- intros [H|(m & Hm & Hx)]; [left; left; exact H|]. rewrite in_app_iff in Hm. destruct Hm as [Hm|[Hm|Hm]]; [left; right; exists m; tauto | left; right; exists m; tauto | right; exists m; tauto].
      + assert (is_lookup o = true) as Hl by (rewrite is_lookup_mutator, Em; reflexivity).
        destruct IH as [(Hu & Ha & Hk)|(be & af & H1 & H2 & H3 & H4)].
        * destruct (lookup_unfilled Hl Hu) as [H|[Hmn H]].
          -- left. split; [exact H|]. assert (asks kf o = false) as Has by (destruct (asks kf o) eqn:E; [exfalso; exact (asks_fills E H) | reflexivity]). split.
             ++ rewrite forallb_app, Ha. cbn [forallb]. rewrite Has. reflexivity.
             ++ rewrite Hak, Hk. unfold kf, kasked in *. destruct tag, o; try reflexivity; try discriminate. destruct ns; [reflexivity | discriminate].
          -- right. exists (pre ++ [o]), []. rewrite app_nil_r, removelast_last. split; [reflexivity|]. split; [exact Ha|]. split; [exists pre, o; auto|].
             apply dict_keyed; [eapply fam_filled; exact H|]. intro x. rewrite (lookup_keys c0 x Hl), (unfilled_keys Hu). unfold kspec. rewrite Hak, Hk, list_run_snoc. cbn [app added_since].
             rewrite <- Hd, <- Hd'. destruct (lookup_obs c0 Hl) as (-> & _).
             split; [intros [Hx|(m & Hm & Hx)]; [left; exact Hx | right; exists m; tauto] | intros [Hx|(m & [Hm|[]] & Hx)]; [left; exact Hx | right; exists m; tauto]].
        * right. exists be, (af ++ [o]). rewrite H1 at 1. rewrite <- app_assoc. split; [reflexivity|]. split; [exact H2|]. split; [exact H3|].
          apply dict_keyed.
          -- intro H. apply (proj1 (lookup_grows c0 Hl kf)) in H. destruct H4 as (d & Ed & _). unfold kf, ksel in *. destruct tag; cbn [unfilled] in H; congruence.
          -- intro x. rewrite (lookup_keys c0 x Hl), (keyed_dict H4). unfold kspec. rewrite Hak, added_since_snoc, !in_app_iff.
             replace (told (list_run (list_run [] be) af) o) with (@nil news) by (destruct o; try discriminate; reflexivity). cbn [added flat_map].
             rewrite app_nil_r. tauto.
  Qed.
End Keys.

(** ** [max_end] *)
Section Top.
  Variable U : mtch -> Prop.
  Variable E0 : Z -> Prop.
  Hypothesis HE : forall m, U m -> E0 (m_end m).
  Definition topped (c : coll) (F : list Z) : Prop :=
    Forall (fun e => e <= c_maxend c) F /\ 0 <= c_maxend c /\ (c_maxend c = 0 \/ E0 (c_maxend c))
    /\ (forall d, c_ending c = Some d -> forall k, In k (dkeys d) -> E0 k) /\ Forall U (c_del c).
  Definition tact (F : list Z) (e : news) : list Z := match e with Added m => F ++ [m_end m] | Gone _ => F end.
  Lemma topped_del c l F : Forall U l -> topped c F -> topped (with_del c l) F.
  Proof. intros Hl (H1 & H2 & H3 & H4 & _). repeat split; assumption. Qed.
  Lemma topped_add c m F : accepts (c_kind c) m = true -> U m -> topped c F -> topped (fst (add_match c m)) (tact F (Added m)).
  Proof.
    intros Ha Hm (H1 & H2 & H3 & H4 & H5). unfold add_match, topped. rewrite Ha. cbn [fst c_maxend c_ending c_del tact].
    split; [|split; [lia|split; [|split; [|exact H5]]]].
    - apply Forall_app. split; [|constructor; [lia|constructor]]. eapply Forall_impl; [|exact H1]. cbn beta. intros; lia.
    - destruct (Z.max_dec (c_maxend c) (m_end m)) as [-> | ->]; [exact H3 | right; apply HE, Hm].
    - intros d Hd k Hk. destruct (c_ending c) as [d0|]; [|discriminate]. cbn [push_all] in Hd.
      match type of Hd with Some ?x = Some d => assert (d = x) as Hd' by congruence end. rewrite Hd' in Hk.
      rewrite dkeys_fold_push in Hk. destruct Hk as [[<-|[]]|Hk]; [apply HE, Hm | eapply H4; eauto].
  Qed.
  Lemma zmax_list_In l : l <> [] -> In (zmax_list l) l.
  Proof.
    destruct l as [|a l]; [congruence|]. intros _. cbn [zmax_list]. revert a. induction l as [|b l IH]; intro a; [left; reflexivity|].
    cbn [fold_left]. destruct (IH (Z.max a b)) as [H|H]; [|right; right; exact H].
    destruct (Z.max_dec a b) as [E|E]; rewrite E in *; [left; exact H | right; left; exact H].
  Qed.
  Lemma topped_rem c m F c' : U m -> remove_match c m = (c', Ok tt) -> topped c F -> topped c' (tact F (Gone m)).
  Proof.
    intros Hm Hr (H1 & H2 & H3 & H4 & H5). pose proof (@remove_match_maxend c m) as Hmx. rewrite Hr in Hmx. cbn [fst] in Hmx.
    apply remove_match_parts in Hr as (n & t & st & en & ix & _ & _ & _ & R4 & _ & ->). cbn [tact].
    set (c1 := Coll (c_kind c) (c_input c) (c_maxend c) (c_del c) n t st en ix) in *.
    assert (forall d, en = Some d -> forall k, In k (dkeys d) -> E0 k) as Hen.
    { intros d Hd k Hk. subst en. destruct (c_ending c) as [d0|]; [|discriminate]. cbn [remove_all] in R4.
      destruct (remove_keys (end_keys m) m d0) as [d1 r] eqn:E. injection R4 as -> ->. eapply H4; [reflexivity|]. apply (remove_keys_keys E). exact Hk. }
    assert (forall k, In k (dkeys (dtouch (ending_dict c1) (m_end m))) -> E0 k) as Hk.
    { intros k Hk. apply dkeys_dtouch_In in Hk as [->|Hk]; [apply HE, Hm|]. unfold ending_dict, c1 in Hk. cbn [c_ending c_del] in Hk. destruct en as [d|] eqn:Een.
      - eapply Hen; eauto.
      - apply build_ending_keys in Hk as (x & Hx & <-). apply HE. rewrite Forall_forall in H5. auto. }
    assert (Forall (fun e => e <= c_maxend (shrink_maxend c1 m)) F /\ 0 <= c_maxend (shrink_maxend c1 m)) as [G1 G2].
    { split; [|lia]. eapply Forall_impl; [|exact H1]. cbn beta. intros; lia. }
    split; [exact G1|]. split; [exact G2|]. clear G1 G2 Hmx. unfold shrink_maxend. change (c_maxend c1) with (c_maxend c).
    destruct (m_end m >=? c_maxend c); [|split; [exact H3|split; [exact Hen | exact H5]]].
    set (d := dtouch (ending_dict c1) (m_end m)) in *.
    destruct (dget d (m_end m)).
    - cbn [with_maxend with_ending c_maxend c_ending c_del]. split; [right; apply Hk, zmax_list_In|split; [|exact H5]].
      + intro E. assert (In (m_end m) (dkeys d)) as Hin by (unfold d; apply dkeys_dtouch_In; auto). rewrite E in Hin. exact Hin.
      + intros d' E k Hin. injection E as <-. auto.
    - cbn [with_ending c_maxend c_ending c_del]. split; [exact H3|split; [|exact H5]]. intros d' E k Hin. injection E as <-. auto.
  Qed.
End Top.

Lemma previous_keys n : forall c i k, In k (dkeys (ending_dict (fst (previous_loop n c i)))) ->
  (i - Z.of_nat n < k <= i) \/ In k (dkeys (ending_dict c)).
Proof.
  induction n as [|n IH]; intros c i k; cbn [previous_loop]; [tauto|].
  unfold q_ending. match goal with |- context [match ?x with [] => _ | _ => _ end] => destruct x end; cbn [fst].
  - intro H. apply IH in H as [H|H]; [left; lia|]. cbn [ending_dict with_ending c_ending] in H. apply dkeys_dtouch_In in H as [->|H]; [left; lia | right; exact H].
  - intro H. cbn [ending_dict with_ending c_ending] in H. apply dkeys_dtouch_In in H as [->|H]; [left; lia | right; exact H].
Qed.

Definition top_source (ops : list op) (e : Z) : Prop := (exists m, In m (added_since [] ops) /\ m_end m = e) \/ end_asked ops e.
Lemma end_asked_app a b e : end_asked a e -> end_asked (a ++ b) e.
Proof. intros (o & Ho & H). exists o. rewrite in_app_iff. auto. Qed.

Lemma acts_tact es : forall F, acts tact F es = F ++ map m_end (added es).
Proof.
  induction es as [|e es IH]; intro F; cbn [acts fold_left]; [rewrite app_nil_r; reflexivity|].
  fold (acts tact (tact F e) es). rewrite IH. destruct e; cbn [tact]; [|reflexivity].
  rewrite <- app_assoc. reflexivity.
Qed.
Lemma reach_top k input ops : acceptable k false [] ops ->
  topped (fun m => In m (added_since [] ops)) (top_source ops) (run (empty_coll k input) ops) (map m_end (added_since [] ops)).
Proof.
  apply history_ind with (Q := fun ops c => topped (fun m => In m (added_since [] ops)) (top_source ops) c (map m_end (added_since [] ops))).
  - split; [constructor|]. split; [cbn; lia|]. split; [left; reflexivity|]. split; [intros d E; discriminate | constructor].
  - clear ops. intros pre o Hacc c0 Hc0 IH HI Hd HF HS Hd'.
    set (ops := pre ++ [o]) in *.
    assert (added_since [] ops = added_since [] pre ++ added (told (c_del c0) o)) as Hadd by (unfold ops; rewrite added_since_snoc, Hd; reflexivity).
    assert (topped (fun m => In m (added_since [] ops)) (top_source ops) c0 (map m_end (added_since [] pre))) as IH'.
    { destruct IH as (H1 & H2 & H3 & H4 & H5).
      assert (forall e, top_source pre e -> top_source ops e) as Hw.
      { intros e [(m & Hm & E)|H]; [left; exists m; rewrite Hadd, in_app_iff; auto | right; apply end_asked_app, H]. }
      split; [exact H1|]. split; [exact H2|]. split; [destruct H3; auto|]. split; [eauto|].
      eapply Forall_impl; [|exact H5]. cbn beta. intros x Hx. rewrite Hadd, in_app_iff. auto. }
    assert (forall m, In m (added_since [] ops) -> top_source ops (m_end m)) as HE by (intros m Hm; left; eauto).
    destruct (is_mutator o) eqn:Em.
    + pose proof (topped_del (U := fun m => In m (added_since [] ops)) (E0 := top_source ops)) as R_del.
      pose proof (topped_add HE) as R_add. pose proof (topped_rem HE) as R_rem. cbn beta in *.
      destruct (@track_step (fun m => In m (added_since [] ops)) ByEnd _ (topped (fun m => In m (added_since [] ops)) (top_source ops)) tact R_del R_add R_rem (fun _ => True) c0 o Em HI HF HS) as [T1 _].
      * apply IH'.
      * intros m Hm. rewrite Hadd, in_app_iff. right. apply added_In, Hm.
      * specialize (T1 _ IH'). rewrite acts_tact in T1.
        replace (map m_end (added_since [] ops)) with (map m_end (added_since [] pre) ++ map m_end (added (told (c_del c0) o))) by (rewrite Hadd, map_app; reflexivity).
        exact T1.
    + assert (is_lookup o = true) as Hl by (rewrite is_lookup_mutator, Em; reflexivity).
      assert (added (told (c_del c0) o) = []) as Hn by (destruct o; try discriminate; reflexivity).
      rewrite Hn, app_nil_r in Hadd.
      replace (map m_end (added_since [] ops)) with (map m_end (added_since [] pre)) by (rewrite Hadd; reflexivity). destruct (lookup_obs c0 Hl) as (O1 & O2 & O3 & _).
      destruct IH' as (H1 & H2 & H3 & H4 & H5). split; [|split; [|split; [|split]]].
      * eapply Forall_impl; [|exact H1]. cbn beta. intros; lia.
      * lia.
      * rewrite O3. exact H3.
      * assert (forall e, In e (dkeys (ending_dict c0)) -> top_source ops e) as Hk.
        { intros e He. unfold ending_dict in He. destruct (c_ending c0) as [d|] eqn:Ed; [eapply H4; eauto|].
          apply build_ending_keys in He as (m & Hm & <-). apply HE. rewrite Forall_forall in H5. auto. }
        assert (In o ops) as Ho by (unfold ops; apply in_or_app; right; left; reflexivity).
        intros d E e He. assert (In e (dkeys (ending_dict (fst (step c0 o))))) as He' by (unfold ending_dict; rewrite E; exact He). clear d E He.
        destruct (may_need ByEnd o) eqn:Emn.
        2: { pose proof (proj2 (lookup_grows c0 Hl ByEnd) Emn) as Hs. cbn [same_dict] in Hs. unfold ending_dict in *. rewrite Hs, O1 in He'. apply Hk, He'. }
        destruct o; try discriminate.
        -- cbn [step q_ending fst ending_dict with_ending c_ending] in He'. apply dkeys_dtouch_In in He' as [->|He']; [|apply Hk, He'].
           right. exists (OEnding i). auto.
        -- cbn [step] in He'. unfold q_previous in He'. pose proof (@previous_keys (Z.to_nat (m_start m + 1)) c0 (m_start m) e) as Hp.
           destruct (previous_loop (Z.to_nat (m_start m + 1)) c0 (m_start m)). cbn [fst] in *. destruct (Hp He') as [H|H]; [|apply Hk, H].
           right. exists (OPrevious m). split; [exact Ho|]. right. exists m. split; [reflexivity | lia].
      * rewrite O1. exact H5.
Qed.

Lemma furthest_spec l : 0 <= furthest l /\ (forall m, In m l -> m_end m <= furthest l) /\ (furthest l = 0 \/ exists m, In m l /\ m_end m = furthest l).
Proof.
  unfold furthest. induction l as [|x l (H1 & H2 & H3)]; cbn [map fold_right].
  - split; [lia|]. split; [intros m [] | left; reflexivity].
  - split; [lia|]. split.
    + intros m [->|Hm]; [lia|]. specialize (H2 m Hm). lia.
    + destruct (Z.max_dec (m_end x) (fold_right Z.max 0 (map m_end l))) as [E|E]; rewrite E.
      * right. exists x. split; [left; reflexivity | reflexivity].
      * destruct H3 as [H3|(m & Hm & E')]; [left; exact H3 | right; exists m; split; [right; exact Hm | exact E']].
Qed.
Lemma max_end_exact k input ops : acceptable k false [] ops ->
  let top := Z.max (match input with Some str => zlen str | None => 0 end) (furthest (added_since [] ops)) in
  let e := max_end (run (empty_coll k input) ops) in
  e = top \/ (top < e /\ end_asked ops e).
Proof.
  intros Hacc top e. destruct (reach_top input Hacc) as (H1 & H2 & H3 & _).
  destruct (@run_ok (fun _ => True) k ops false (empty_coll k input)) as (_ & [_ Hi] & _); auto; try discriminate; [apply Inv_empty|].
  cbn [c_input empty_coll] in Hi. destruct (furthest_spec (added_since [] ops)) as (F1 & F2 & F3).
  assert (furthest (added_since [] ops) <= c_maxend (run (empty_coll k input) ops)) as Hle.
  { destruct F3 as [-> |(m & Hm & <-)]; [lia|]. rewrite Forall_forall in H1. apply H1, in_map, Hm. }
  assert (c_maxend (run (empty_coll k input) ops) <= furthest (added_since [] ops) \/ end_asked ops (c_maxend (run (empty_coll k input) ops))) as Hor.
  { destruct H3 as [H3|[(m & Hm & E)|H3]]; [left; lia | left; rewrite <- E; apply F2, Hm | right; exact H3]. }
  assert (e = Z.max (match input with Some str => zlen str | None => 0 end) (c_maxend (run (empty_coll k input) ops))) as He.
  { unfold e, max_end. rewrite Hi. destruct input as [[|ch str]|]; [rewrite zlen_nil; lia | reflexivity | lia]. }
  destruct Hor as [Hor|Hor]; [left; unfold top; lia|].
  destruct (Z.leb_spec (c_maxend (run (empty_coll k input) ops)) top) as [Hc|Hc]; [left; unfold top in *; lia | right].
  assert (e = c_maxend (run (empty_coll k input) ops)) as -> by (unfold top in *; lia). split; [exact Hc | exact Hor].
Qed.

(** ** [del matches[i:j]] *)
Definition others_ok P (c : coll) (l : list mtch) : Prop :=
  odict_ok P name_keys (c_named c) l /\ odict_ok P tag_keys (c_tagged c) l
  /\ odict_ok P start_keys (c_starting c) l /\ odict_ok P index_keys (c_indexed c) l.
Lemma others_ok_parts P c m l : others_ok P c (m :: l) ->
  exists n t st ix, remove_all (name_keys m) m (c_named c) = (n, Ok tt) /\ remove_all (tag_keys m) m (c_tagged c) = (t, Ok tt)
    /\ remove_all (start_keys m) m (c_starting c) = (st, Ok tt) /\ remove_all (index_keys m) m (c_indexed c) = (ix, Ok tt)
    /\ forall k i mx d en, others_ok P (Coll k i mx d n t st en ix) l.
Proof.
  intros (D1 & D2 & D3 & D5).
  destruct (@odict_remove _ _ P _ _ m l D1) as (n & En & Hn & _).
  destruct (@odict_remove _ _ P _ _ m l D2) as (t & Et & Ht & _).
  destruct (@odict_remove _ _ P _ _ m l D3) as (st & Es & Hst & _).
  destruct (@odict_remove _ _ P _ _ m l D5) as (ix & Ei & Hix & _).
  exists n, t, st, ix. repeat split; assumption.
Qed.
Lemma shrink_others_ok P c m l : others_ok P c l -> others_ok P (shrink_maxend c m) l.
Proof. unfold others_ok. destruct (shrink_others c m) as (-> & -> & -> & -> & _). auto. Qed.

Lemma end_first m g : remove_first (meq m) (occ end_keys (m_end m) g) = None <-> remove_first (meq m) g = None.
Proof.
  rewrite !remove_first_None. split; intros H x Hx.
  - destruct (meq m x) eqn:E; [|reflexivity]. rewrite <- E. apply H. rewrite occ_end. apply filter_In. split; [exact Hx|].
    unfold ends_at. apply Z.eqb_eq. apply meq_mkey, mkey_end in E. congruence.
  - apply occ_In in Hx as [Hx _]. auto.
Qed.

Lemma remove_match_split P c m l g : others_ok P c (m :: l) -> fam ByEnd c g ->
  match remove_first (meq m) g with
  | Some g' => exists c', remove_match c m = (c', Ok tt) /\ others_ok P c' l /\ fam ByEnd c' g'
  | None => exists c', remove_match c m = (c', Err ValueError)
  end.
Proof.
  intros Ho Hf. pose proof Hf as (d & Ed & Hd). apply others_ok_parts in Ho as (n & t & st & ix & R1 & R2 & R3 & R5 & Hok).
  destruct (remove_first (meq m) g) as [g'|] eqn:Eg.
  - assert (exists c', remove_match c m = (c', Ok tt) /\ others_ok P c' l) as (c' & E & Ho').
    { unfold remove_match. rewrite R1. cbn [c_tagged with_named]. rewrite R2. cbn [c_starting with_tagged with_named]. rewrite R3.
      cbn [c_ending with_starting with_tagged with_named]. rewrite Ed. cbn [remove_all remove_keys end_keys].
      destruct (remove_first (meq m) (dget d (m_end m))) as [x|] eqn:Ex.
      - cbn [c_indexed with_ending with_starting with_tagged with_named]. rewrite R5. eexists. split; [reflexivity|].
        apply shrink_others_ok. apply (Hok _ _ _ _ _).
      - rewrite Hd in Ex. apply (proj1 (end_first m g)) in Ex. rewrite Ex in Eg. discriminate Eg. }
    exists c'. split; [exact E|]. split; [exact Ho'|].
    assert (like_keys ByEnd m g) as Hlk by (intro; discriminate).
    pose proof (fam_remove Hlk E Hf) as H. cbn [note] in H. rewrite Eg in H. exact H.
  - unfold remove_match. rewrite R1. cbn [c_tagged with_named]. rewrite R2. cbn [c_starting with_tagged with_named]. rewrite R3.
    cbn [c_ending with_starting with_tagged with_named]. rewrite Ed. cbn [remove_all remove_keys end_keys].
    rewrite (Hd (m_end m)), (proj2 (end_first m g) Eg). eauto.
Qed.
Lemma remove_matches_split P ms : forall c l g, others_ok P c (ms ++ l) -> fam ByEnd c g ->
  snd (remove_matches c ms) = if removable ms g then Ok tt else Err ValueError.
Proof.
  induction ms as [|m ms IH]; intros c l g Ho Hf; cbn [remove_matches removable]; [reflexivity|].
  pose proof (@remove_match_split P c m (ms ++ l) g Ho Hf) as H. destruct (remove_first (meq m) g) as [g'|].
  - destruct H as (c' & E & Ho' & Hf'). rewrite E. eapply IH; eauto.
  - destruct H as (c' & E). rewrite E. reflexivity.
Qed.
Lemma remove_match_low c m c' : remove_match c m = (c', Ok tt) -> m_end m < c_maxend c -> c_ending c = None -> c_ending c' = None /\ c_maxend c' = c_maxend c.
Proof.
  intros Hr Hlt Hu. apply remove_match_parts in Hr as (n & t & st & en & ix & _ & _ & _ & R4 & _ & ->). rewrite Hu in R4. injection R4 as <-.
  unfold shrink_maxend. cbn [c_maxend]. replace (m_end m >=? c_maxend c) with false by lia. auto.
Qed.
Lemma remove_matches_outcome P ms : forall c l,
  Dok P c (ms ++ l) -> Mok c (ms ++ l) -> c_del c = l -> c_ending c = None ->
  (snd (remove_matches c ms) = Ok tt /\ ~ stuck ms l (c_maxend c)) \/ (snd (remove_matches c ms) = Err ValueError /\ stuck ms l (c_maxend c)).
Proof.
  induction ms as [|m ms IH]; intros c l HD HM Hdel He; cbn [remove_matches].
  - left. split; [reflexivity|]. intros (a & x & b & E & _). destruct a; discriminate.
  - destruct (Z.ltb_spec (m_end m) (c_maxend c)) as [Hlt|Hge].
    + destruct (@remove_match_ok P c m (ms ++ l)) as (c1 & E1 & D1 & M1 & Hd1 & _); auto.
      * destruct HM as [M0 M]. split; [exact M0|]. intros x Hx. apply M. right. exact Hx.
      * intros _ Hx. lia.
      * rewrite E1. destruct (remove_match_low E1 Hlt He) as [He1 Hm1].
        assert (stuck (m :: ms) l (c_maxend c) <-> stuck ms l (c_maxend c1)) as Hs.
        { rewrite Hm1. split.
          - intros (a & x & b & E & Ha & Hx & Hb). destruct a as [|y a]; cbn [app] in E; injection E as -> ->; [lia|].
            exists a, x, b. repeat split; auto. intros z Hz. apply Ha. right; exact Hz.
          - intros (a & x & b & -> & Ha & Hx & Hb). exists (m :: a), x, b. repeat split; auto. intros z [<-|Hz]; [exact Hlt | auto]. }
        rewrite Hs. apply IH; auto. congruence.
    + destruct HD as (D1 & D2 & D3 & D4 & D5).
      destruct (@others_ok_parts P c m (ms ++ l)) as (n & t & st & ix & R1 & R2 & R3 & R5 & Hok); [repeat split; assumption|].
      assert (exists c1, remove_match c m = (c1, Ok tt) /\ others_ok P c1 (ms ++ l)) as (c1 & E1 & Ho1).
      { unfold remove_match. rewrite R1. cbn [c_tagged with_named]. rewrite R2. cbn [c_starting with_tagged with_named]. rewrite R3.
        cbn [c_ending with_starting with_tagged with_named]. rewrite He. cbn [remove_all].
        cbn [c_indexed with_ending with_starting with_tagged with_named]. rewrite R5. eexists. split; [reflexivity|].
        apply shrink_others_ok. apply (Hok _ _ _ _ _). }
      rewrite E1. assert (fam ByEnd c1 l) as Hf.
      { destruct (@unfilled_remove ByEnd c m c1 E1 He) as [H|(_ & _ & H)]; [exfalso | rewrite Hdel in H; exact H].
        cbn [unfilled] in H. apply remove_match_parts in E1 as (n' & t' & st' & en' & ix' & _ & _ & _ & R4 & _ & ->).
        revert H. unfold shrink_maxend. cbn [c_maxend]. replace (m_end m >=? c_maxend c) with true by lia.
        match goal with |- context [match ?x with [] => _ | _ => _ end] => destruct x end; discriminate. }
      rewrite (remove_matches_split Ho1 Hf).
      assert (stuck (m :: ms) l (c_maxend c) <-> removable ms l = false) as Hs.
      { split.
        - intros (a & x & b & E & Ha & Hx & Hb). destruct a as [|y a]; cbn [app] in E; injection E as -> ->; [exact Hb|].
          specialize (Ha y (or_introl eq_refl)). lia.
        - intro H. exists [], m, ms. repeat split; auto. intros y []. }
      rewrite Hs. destruct (removable ms l); [left | right]; split; congruence.
Qed.

Lemma previous_fills c m : 0 <= m_start m -> c_ending (fst (q_previous c m)) <> None.
Proof.
  intro H. unfold q_previous. replace (Z.to_nat (m_start m + 1)) with (S (Z.to_nat (m_start m))) by lia. cbn [previous_loop].
  destruct (q_ending c (m_start m)) as [c1 l] eqn:E. assert (c_ending c1 <> None) as H1 by (unfold q_ending in E; injection E as <- _; discriminate).
  destruct l; [|exact H1]. intro Hn. apply H1. apply (proj1 (@grows_previous (Z.to_nat (m_start m)) c1 (m_start m - 1) ByEnd)), Hn.
Qed.
Lemma unfilled_unasked k input ops : acceptable k false [] ops ->
  c_ending (run (empty_coll k input) ops) = None -> forall e, ~ end_asked ops e.
Proof.
  intro Hacc. revert ops Hacc. apply (@history_ind k input (fun ops c => c_ending c = None -> forall e, ~ end_asked ops e)).
  - intros _ e (o & [] & _).
  - intros pre o Hacc c0 Hc0 IH HI Hd HF HS Hd' Hn e He.
    destruct (@step_ok (fun _ => True) c0 o HI HF (fun _ _ => I) HS) as (_ & _ & _ & _ & _ & S6).
    assert (c_ending c0 = None) as Hn0 by (destruct (c_ending c0); [exfalso; apply S6; [discriminate | exact Hn] | reflexivity]).
    destruct He as (o' & Ho & He). apply in_app_or in Ho as [Ho|[<-|[]]]; [apply (IH Hn0 e); exists o'; auto|].
    destruct He as [->|(m & -> & He)]; [cbn in Hn; discriminate|].
    apply (@previous_fills c0 m); [lia|]. cbn [step] in Hn. destruct (q_previous c0 m). exact Hn.
Qed.
Lemma unfilled_top k input ops : acceptable k false [] ops ->
  c_ending (run (empty_coll k input) ops) = None -> c_maxend (run (empty_coll k input) ops) = furthest (added_since [] ops).
Proof.
  intros Hacc Hn. destruct (reach_top input Hacc) as (H1 & H2 & H3 & _). destruct (furthest_spec (added_since [] ops)) as (F1 & F2 & F3).
  assert (furthest (added_since [] ops) <= c_maxend (run (empty_coll k input) ops)) as Hle.
  { destruct F3 as [-> |(m & Hm & <-)]; [lia|]. rewrite Forall_forall in H1. apply H1, in_map, Hm. }
  destruct H3 as [H3|[(m & Hm & E)|H3]]; [lia | specialize (F2 m Hm); lia|]. exfalso. exact (unfilled_unasked Hacc Hn H3).
Qed.
Lemma remove_matches_del ms : forall c, c_del (fst (remove_matches c ms)) = c_del c.
Proof.
  induction ms as [|m ms IH]; intro c; cbn [remove_matches]; [reflexivity|]. pose proof (remove_match_del c m) as H.
  destruct (remove_match c m) as [c1 [|]]; cbn [fst] in *; [rewrite IH|]; exact H.
Qed.
Lemma delslice_exact k input ops i j : acceptable k false [] ops ->
  let l := list_run [] ops in
  let r := step (run (empty_coll k input) ops) (ODelslice i j) in
  let st := stuck (py_slice l i j) (py_unslice l i j) (furthest (added_since [] ops)) in
  c_del (fst r) = py_unslice l i j
  /\ (snd r = RUnit \/ (snd r = RErr ValueError /\ st))
  /\ (forallb (fun o => negb (may_need ByEnd o)) ops = true -> st -> snd r = RErr ValueError)
  /\ (existsb (asks ByEnd) ops = true -> snd r = RUnit).
Proof.
  intros Hacc l r st.
  destruct (@run_ok (fun _ => True) k ops false (empty_coll k input)) as (HI & He & Hd & _); auto; try discriminate; [apply Inv_empty|].
  cbn [c_del empty_coll] in Hd. set (c := run (empty_coll k input) ops) in *. fold l in Hd.
  assert (c_del (fst r) = py_unslice l i j) as Hc.
  { unfold r. cbn [step unit_out fst]. unfold delslice. rewrite remove_matches_del. cbn [c_del with_del]. rewrite Hd. reflexivity. }
  split; [exact Hc|].
  destruct (unfilled_dec ByEnd c) as [Hu|Hu]; cbn [unfilled] in Hu.
  - destruct HI as (HD & HM & HF). destruct (py_slice_unslice (c_del c) i j) as (a & b & Eu & El).
    assert (Permutation (c_del c) (py_slice (c_del c) i j ++ py_unslice (c_del c) i j)) as Hp.
    { rewrite Eu. rewrite El at 1. rewrite !app_assoc. apply Permutation_app_tail, Permutation_app_comm. }
    assert (c_maxend c = furthest (added_since [] ops)) as Htop by (apply unfilled_top; assumption).
    destruct (@remove_matches_outcome (fun _ => True) (py_slice (c_del c) i j) (with_del c (py_unslice (c_del c) i j)) (py_unslice (c_del c) i j)) as [[H1 H2]|[H1 H2]]; auto.
    + apply (Dok_perm Hp) in HD. exact HD.
    + apply (Mok_perm Hp) in HM. exact HM.
    + cbn [c_maxend with_del] in H2. rewrite Htop, Hd in H2.
      assert (snd r = RUnit) as Hr by (unfold r; cbn [step unit_out snd]; unfold delslice; rewrite H1; reflexivity).
      split; [left; exact Hr|]. split; [intros _ Hs; contradiction | auto].
    + cbn [c_maxend with_del] in H2. rewrite Htop, Hd in H2.
      assert (snd r = RErr ValueError) as Hr by (unfold r; cbn [step unit_out snd]; unfold delslice; rewrite H1; reflexivity).
      split; [right; auto|]. split; [auto|]. intro Hx. exfalso. apply existsb_exists in Hx as (o & Ho & Ha).
      destruct o; try discriminate. apply (unfilled_unasked Hacc Hu (e := i0)). exists (OEnding i0). auto.
  - destruct (@delslice_ok (fun _ => True) c i j HI (or_introl Hu)) as (c' & E & _).
    assert (snd r = RUnit) as Hr by (unfold r; cbn [step unit_out snd]; rewrite E; reflexivity).
    split; [left; exact Hr|]. split; [|auto]. intros Hm _. exfalso. apply Hu.
    destruct (@reach_filed k input ByEnd ops Hacc) as [[H _]|(be & af & E1 & _ & (b & o & E2 & Hmn) & _)]; [discriminate | exact H|].
    rewrite forallb_forall in Hm. specialize (Hm o). rewrite Hmn in Hm. discriminate Hm. rewrite E1, E2. rewrite !in_app_iff. left. right. left. reflexivity.
Qed.
