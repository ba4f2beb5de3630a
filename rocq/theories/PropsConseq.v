(** * Properties C31-C34: the consequences of rules *)
From Verif Require Import Base BaseFacts Match Spec MatchFacts Coll CollFacts CollQuery CollSem CollSem2 SpecColl CollHist CollUniv
  Conseq ConseqFacts PropsLoose PropsColl.
From Coq Require Import ZifyBool.
Set Implicit Arguments.
Unset Strict Implicit.
Open Scope Z_scope.

(** ** C31 RemoveMatch *)
Theorem C31_remove_many : forall k input ops ms,
  acceptable k false [] ops -> no_assignment ops ->
  let c := run (empty_coll k input) ops in
  let l := list_run [] ops in
  exists c' ret,
    remove_then c (Many ms) = (c', Ok (Some (Many ret)))
    (* the first [==] member of each given match, if any, is gone; nothing else *)
    /\ c_del c' = take_out_all l ms
    /\ sublist (c_del c') l
    /\ (forall x, countb (meq x) (c_del c') = (countb (meq x) l - countb (meq x) ms)%nat)
    (* what is returned *)
    /\ sublist ret ms
    /\ (forall x, countb (meq x) ret = Nat.min (countb (meq x) l) (countb (meq x) ms))
    (* the same as removing the returned ones one after the other; lookups follow *)
    /\ c' = run c (map ORemove ret)
    /\ lookups_agree c'.
Proof.
  intros k input ops ms H1 H2 c l. destruct (@reached_ok k input ops H1 H2) as (HI & Hd & _). unfold reached in *. fold c in HI, Hd. fold l in Hd.
  destruct (@remove_many_ok no_ghost ms c HI) as (c' & E & R & HI' & _ & Hd'). rewrite Hd in *.
  exists c', (taken l ms). unfold remove_then. rewrite E. split; [reflexivity|]. split; [exact Hd'|].
  split; [rewrite Hd'; apply take_out_sublist|]. split; [intro x; rewrite Hd'; apply countb_take_out_all|].
  split; [|split; [intro x; apply countb_taken | split; [exact R | apply Inv_agree, HI']]].
  clear. generalize l as l0. clear. induction ms as [|m ms IH]; intro l; simpl; [constructor|]. destruct (remove_first (meq m) l); constructor; apply IH.
Qed.
Theorem C31_remove_one : forall k input ops m,
  acceptable k false [] ops -> no_assignment ops ->
  let c := run (empty_coll k input) ops in
  let l := list_run [] ops in
  exists c',
    remove_then c (One m) = (c', Ok (if existsb (meq m) l then Some (One m) else None))
    /\ c_del c' = take_out l m /\ lookups_agree c'.
Proof.
  intros k input ops m H1 H2 c l. destruct (@reached_ok k input ops H1 H2) as (HI & Hd & _). unfold reached in *. fold c in HI, Hd. fold l in Hd.
  unfold remove_then, remove_one. pose proof (contains_remove_first c m) as Hc. pose proof (@remove_ok no_ghost c m HI) as Hr.
  unfold contains, mem in *. rewrite Hd in *. unfold take_out. rewrite Hc. destruct (remove_first (meq m) l) as [l'|].
  - destruct Hr as (c' & E & HI' & _ & Hd' & _). rewrite E. exists c'. split; [reflexivity|]. split; [exact Hd' | apply Inv_agree, HI'].
  - exists c. split; [reflexivity|]. split; [exact Hd | apply Inv_agree, HI].
Qed.
Example C31_witness :
  let c := run (empty_coll KMatches ex_input) ex_ops in
  list_run [] ex_ops = [ex_a; ex_c; ex_b]
  /\ snd (remove_then c (Many [ex_c; ex_c; ex_a])) = Ok (Some (Many [ex_c; ex_a]))
  /\ c_del (fst (remove_then c (Many [ex_c; ex_c; ex_a]))) = [ex_b].
Proof. repeat split; reflexivity. Qed.

(** ** C32 AppendMatch *)
(** without a name to give *)
Theorem C32_append_partial : forall k input ops ms,
  acceptable k false [] ops -> no_assignment ops -> Forall (fun m => accepts k m = true) ms ->
  let c := run (empty_coll k input) ops in
  let l := list_run [] ops in
  exists c' new,
    append_then None c (Many ms) = (c', Ok tt)
    /\ c_del c' = l ++ new
    /\ sublist new ms
    /\ (forall m, In m ms -> found m (c_del c'))
    /\ (forall a x b y d, c_del c' = a ++ x :: b ++ y :: d -> (length l <= length (a ++ x :: b))%nat -> meq y x = false)
    /\ c' = run c (map OAppend new)
    /\ lookups_agree c'.
Proof.
  intros k input ops ms H1 H2 Ha c l. destruct (@reached_ok k input ops H1 H2) as (HI & Hd & _ & Hk). unfold reached in *. fold c in HI, Hd, Hk. fold l in Hd.
  destruct (@append_many_none [] ms no_ghost c HI) as (c' & E & R & HI' & _ & Hd'); [rewrite Hk; exact Ha | reflexivity|]. rewrite Hd in *.
  exists c', (new_elements meq l ms). unfold append_then, drop_ret. rewrite E. split; [reflexivity|]. split; [exact Hd'|].
  destruct (@C23_extend_safe _ meq meq_refl (fun _ => true) l ms) as (Er & Hf & _ & Hu). rewrite Er in Hf, Hu.
  split; [|split; [|split; [|split; [exact R | apply Inv_agree, HI']]]].
  - clear. generalize l as b. induction ms as [|m ms IH]; intro b; simpl; [constructor|]. destruct (existsb (meq m) b); simpl; constructor; apply IH.
  - intros m Hm. rewrite Hd'. apply Hf, Hm.
  - rewrite Hd'. exact Hu.
Qed.
(** a single match, renamed first: not an object already held or a parent of one *)
Theorem C32_append_one_partial : forall k input ops name m,
  acceptable k false [] ops -> no_assignment ops -> accepts k m = true ->
  (forall x y, In x (all_handed ops) -> ancestor x y -> m_id y <> m_id m) ->
  (forall p y, m_parent m = Some p -> ancestor p y -> m_id y <> m_id m) ->
  let c := run (empty_coll k input) ops in
  let l := list_run [] ops in
  let m' := match name with Some (ch :: n) => set_name m (Some (ch :: n)) | _ => m end in
  exists c',
    append_then name c (One m) = (c', Ok tt)
    /\ c_del c' = (if existsb (meq m') l then l else l ++ [m'])
    /\ lookups_agree c'.
Proof.
  intros k input ops name m H1 H2 Ha Hid Hp c l m'. assert (m' = match renames name with Some n => set_name m (Some n) | None => m end) as M by (destruct name as [[|]|]; reflexivity).
  clearbody m'. subst m'. set (m' := match renames name with Some n => set_name m (Some n) | None => m end). destruct (@reached_ok k input ops H1 H2) as (HI & Hd & _ & Hk).
  pose proof (reached_univ k input ops) as HU. unfold reached in *. fold c in HI, Hd, Hk, HU. fold l in Hd.
  assert (exists c1, Inv no_ghost c1 /\ c_del c1 = l /\ c_kind c1 = k /\
            append_one name c m = (if contains c1 m' then (c1, Ok None) else match append c1 m' with (c2, Err e) => (c2, Err e) | (c2, Ok _) => (c2, Ok (Some m')) end))
    as (c1 & HI1 & Hd1 & Hk1 & E).
  { unfold append_one, m'. destruct (renames name) as [n|]; [|exists c; auto].
    exists (assign (m_id m) (fun x => set_name x (Some n)) c).
    destruct (@assign_noop (m_id m) (fun x => set_name x (Some n)) c (all_handed ops) HU) as [A1 A2].
    { intros x Hx. apply upd_id. intros y Hy. apply (Hid x y); auto. }
    split; [apply A1, HI|]. split; [rewrite A2; exact Hd|]. split; [exact Hk|].
    rewrite upd_self by (try reflexivity; exact Hp). reflexivity. }
  unfold append_then, drop_ret. rewrite E. unfold contains, mem. rewrite Hd1. destruct (existsb (meq m') l).
  - exists c1. split; [reflexivity|]. split; [exact Hd1 | apply Inv_agree, HI1].
  - destruct (@append_ok no_ghost c1 m' HI1) as (c2 & E2 & HI2 & _ & Hd2 & _).
    { rewrite Hk1. unfold m'. destruct (renames name); exact Ha. }
    rewrite E2. exists c2. split; [reflexivity|]. split; [rewrite Hd2, Hd1; reflexivity | apply Inv_agree, HI2].
Qed.
(** Full statement refuted: several matches with a name to give.  The membership test comes
    before the renaming, so two [==] members result. *)
Definition r_a : mtch := set_name (mk_match 11 0 3) (Some (s "a")).
Definition r_b : mtch := set_name (mk_match 12 0 3) (Some (s "b")).
Theorem C32_refuted :
  let c := empty_coll KMatches (Some (s "abcdef")) in
  exists c' x y, append_then (Some (s "n")) c (Many [r_a; r_b]) = (c', Ok tt) /\ c_del c' = [x; y] /\ meq x y = true.
Proof. eexists _, _, _. split; [reflexivity|]. split; reflexivity. Qed.
Example C32_witness :
  let c := run (empty_coll KMatches ex_input) ex_ops in
  c_del (fst (append_then None c (Many [ex_a; r_a; r_b; r_a]))) = [ex_a; ex_c; ex_b; r_a; r_b]
  /\ c_del (fst (append_then (Some (s "b")) c (One r_a))) = [ex_a; ex_c; ex_b; set_name r_a (Some (s "b"))].
Proof. split; reflexivity. Qed.

(** ** C33 and C34 *)
(** objects are told apart: no two [==] ones, and a name of an object names one value *)
Definition distinct_objects (ms : list mtch) : Prop :=
  forall a b, In a ms -> In b ms -> meq a b = true \/ m_id a = m_id b -> a = b.
(** no given match is a parent (or further ancestor) of a member *)
Definition no_parent_of (ms l : list mtch) : Prop :=
  forall x p y m, In x l -> m_parent x = Some p -> ancestor p y -> In m ms -> m_id y <> m_id m.
Definition others (ms l : list mtch) : list mtch := filter (fun x => negb (existsb (meq x) ms)) l.

Lemma no_equal_remove_first l m : no_equal l -> In m l -> remove_first (meq m) l = Some (filter (fun x => negb (meq x m)) l).
Proof.
  intro Hn. induction Hn as [|x l Hx Hn IH]; intro Hm; [contradiction|]. simpl. rewrite Forall_forall in Hx.
  destruct (meq m x) eqn:E.
  - rewrite meq_sym, E. simpl. f_equal. symmetry. apply filter_all. intros y Hy. apply negb_true_iff. specialize (Hx y Hy).
    apply meq_false_mkey in Hx. apply meq_false_mkey. apply meq_mkey in E. congruence.
  - destruct Hm as [->|Hm]; [rewrite meq_refl in E; discriminate|]. rewrite (IH Hm). rewrite meq_sym, E. reflexivity.
Qed.
Lemma no_equal_filter p l : no_equal l -> no_equal (filter p l).
Proof.
  induction 1 as [|x l Hx Hl IH]; simpl; [constructor|]. destruct (p x); [|exact IH]. constructor; [|exact IH].
  rewrite Forall_forall in *. intros y Hy. apply filter_In in Hy as [Hy _]. apply Hx, Hy.
Qed.
Lemma no_equal_eq l x y : no_equal l -> In x l -> In y l -> meq x y = true -> x = y.
Proof.
  induction 1 as [|z l Hz Hl IH]; simpl; [contradiction|]. rewrite Forall_forall in Hz. intros [->|Hx] [->|Hy] E; auto.
  - specialize (Hz y Hy). congruence.
  - specialize (Hz x Hx). rewrite meq_sym in Hz. congruence.
Qed.
Lemma take_members ms : forall l, no_equal l -> NoDup ms -> incl ms l -> take_out_all l ms = others ms l /\ taken l ms = ms.
Proof.
  induction ms as [|m ms IH]; intros l Hn Hnd Hi.
  - split; [|reflexivity]. unfold others. simpl. symmetry. apply filter_all. reflexivity.
  - inversion Hnd; subst. assert (In m l) as Hm by (apply Hi; left; reflexivity).
    unfold take_out_all. simpl. unfold take_out at 2. rewrite (no_equal_remove_first Hn Hm).
    destruct (IH (filter (fun x => negb (meq x m)) l)) as [I1 I2].
    + apply no_equal_filter, Hn.
    + assumption.
    + intros x Hx. apply filter_In. split; [apply Hi; right; exact Hx|]. apply negb_true_iff.
      destruct (meq x m) eqn:E; [|reflexivity]. exfalso. assert (x = m) by (apply (no_equal_eq Hn); auto; apply Hi; right; exact Hx). congruence.
    + fold (take_out_all (filter (fun x => negb (meq x m)) l) ms). rewrite I1, I2. split; [|reflexivity]. unfold others.
      rewrite filter_filter. apply filter_ext. intro x. simpl. destruct (meq x m), (existsb (meq x) ms); reflexivity.
Qed.

Section Modify.
  Variable f : mtch -> mtch.
  Hypothesis f_ok : forall m, m_id (f m) = m_id m /\ m_start (f m) = m_start m /\ m_end (f m) = m_end m /\ m_marker (f m) = m_marker m.
  Hypothesis f_par : forall m, m_id (f m) = m_id m /\ m_parent (f m) = m_parent m.
  Variables (k : kind) (input : option pstr) (ops : list op) (ms : list mtch).
  Hypothesis Hacc : acceptable k false [] ops.
  Hypothesis Hna : no_assignment ops.
  Hypothesis Hdo : distinct_objects (all_handed ops).
  Notation c := (run (empty_coll k input) ops).
  Notation l := (list_run [] ops).
  Hypothesis Hne : no_equal l.
  Hypothesis Hnd : NoDup ms.
  Hypothesis Hin : incl ms l.

  (** in general, references to the modified objects from parents included *)
  Lemma modify_general : exists c', modify_then f c (Many ms) = (c', Ok tt)
    /\ let u := upds f (map m_id ms) in
       c_del c' = map u (others ms l) ++ new_elements meq (map u (others ms l)) (map u ms)
    /\ lookups_agree c'.
  Proof.
    destruct (@reached_ok k input ops Hacc Hna) as (HI & Hd & _ & Hk). unfold reached in *.
    destruct (@remove_many_ok no_ghost ms c HI) as (c1 & E1 & R1 & HI1 & He1 & Hd1). rewrite Hd in *.
    destruct (take_members Hne Hnd Hin) as [T1 T2]. rewrite T1, T2 in *. cbv zeta.
    assert (Uok (fun m => In m (all_handed ops)) c1) as HU1.
    { rewrite R1. apply Uok_run; [|apply (reached_univ k input ops)]. apply Forall_forall. intros x Hx. exfalso. revert Hx. clear.
      induction ms as [|m t IH]; simpl; [contradiction | exact IH]. }
    assert (Exact c1) as HE1.
    { apply (@Inv_Exact c1 (all_handed ops) HI1 HU1). intros a b Ha Hb E. apply Hdo; auto. }
    assert (forall x, In x l -> In x (all_handed ops)) as Hl.
    { pose proof (reached_univ k input ops) as (U0 & _). unfold reached in U0. rewrite Hd, Forall_forall in U0. exact U0. }
    unfold modify_then, remove_then. rewrite E1. destruct ms as [|m0 t] eqn:Em.
    { exists c1. split; [reflexivity|]. split; [|apply Inv_agree, HI1]. simpl. rewrite app_nil_r, map_id. exact Hd1. }
    rewrite <- Em in *. destruct (assign_each_spec f c1 ms) as (A1 & A2 & A3).
    assert (Exact (fst (assign_each f c1 ms))) as HE2.
    { apply assign_each_Exact; [exact f_ok | | exact HE1]. intros x Hx Hi. rewrite Hd1 in Hx. unfold others in Hx. apply filter_In in Hx as [Hx Hb].
      apply in_map_iff in Hi as (y & Ey & Hy). assert (y = x) as -> by (apply Hdo; [apply Hl, Hin, Hy | apply Hl, Hx | auto]).
      apply negb_true_iff in Hb. rewrite existsb_false_iff in Hb. specialize (Hb x Hy). rewrite meq_refl in Hb. discriminate. }
    destruct (assign_each f c1 ms) as [c2 l2]. simpl in A1, A2, A3, HE2.
    destruct (@append_many_none [] l2 no_ghost c2 (Exact_Inv HE2)) as (c3 & E3 & _ & HI3 & _ & Hd3); [|reflexivity|].
    { rewrite A2. apply Forall_forall. intros x Hx. apply in_map_iff in Hx as (y & <- & Hy).
      rewrite (proj1 A3), (proj1 He1). destruct HI as (_ & _ & HF). rewrite Hd, Forall_forall in HF. specialize (HF y (Hin Hy)).
      assert (m_marker (upds f (map m_id ms) y) = m_marker y) as Emk.
      { clear -f_ok. unfold upds. generalize (map m_id ms) as ids. intro ids. revert y. induction ids as [|i ids IH]; intro y; simpl; [reflexivity|].
        rewrite IH. apply (upd_keeps f_ok). }
      unfold accepts in *. rewrite Emk. exact HF. }
    unfold append_then, drop_ret. rewrite E3. exists c3. split; [reflexivity|]. split; [|apply Inv_agree, HI3].
    rewrite Hd3, A1, A2, Hd1. reflexivity.
  Qed.

  Hypothesis Hanc : no_parent_of ms l.
  Lemma modify_simple : exists c', modify_then f c (Many ms) = (c', Ok tt)
    /\ c_del c' = others ms l ++ new_elements meq (others ms l) (map f ms)
    /\ lookups_agree c'.
  Proof.
    destruct modify_general as (c' & E & Hd' & Hl). exists c'. split; [exact E|]. split; [|exact Hl]. cbv zeta in Hd'. rewrite Hd'. clear Hd' E Hl c'.
    pose proof (reached_univ k input ops) as (U0 & _). destruct (@reached_ok k input ops Hacc Hna) as (_ & Hd & _). rewrite Hd, Forall_forall in U0.
    assert (map (upds f (map m_id ms)) (others ms l) = others ms l) as ->.
    { transitivity (map (fun x => x) (others ms l)); [|apply map_id]. apply map_ext_in. intros x Hx. unfold others in Hx. apply filter_In in Hx as [Hx Hb].
      apply upds_id. intros y Hy Hi. apply in_map_iff in Hi as (m & Em & Hm). inversion Hy as [|? p ? Hp Hp']; subst.
      - assert (m = y) as -> by (apply Hdo; [apply U0, Hin, Hm | apply U0, Hx | auto]). apply negb_true_iff in Hb.
        rewrite existsb_false_iff in Hb. specialize (Hb y Hm). rewrite meq_refl in Hb. discriminate.
      - apply (Hanc Hx Hp Hp' Hm). congruence. }
    assert (map (upds f (map m_id ms)) ms = map f ms) as ->; [|reflexivity].
    apply map_ext_in. intros m Hm. apply upds_self; [exact f_par | | apply in_map, Hm |].
    - clear Hm m Hanc. assert (forall t, incl t ms -> NoDup t -> NoDup (map m_id t)) as G; [|apply G; [apply incl_refl | exact Hnd]].
      induction t as [|x t IH]; intros Hi Ht; simpl; [constructor|]. inversion Ht; subst. constructor; [|apply IH; [intros y Hy; apply Hi; right; exact Hy | assumption]].
      intro C. apply in_map_iff in C as (y & Ey & Hy).
      assert (y = x) by (apply Hdo; [apply U0, Hin, Hi; right; exact Hy | apply U0, Hin, Hi; left; reflexivity | auto]). congruence.
    - intros p y Hp Hy Hi. apply in_map_iff in Hi as (m2 & Em & Hm2). apply (Hanc (Hin Hm) Hp Hy Hm2). congruence.
  Qed.
End Modify.
Lemma modify_one f c m : mbool m = Ok true -> modify_then f c (One m) = modify_then f c (Many [m]).
Proof.
  intro Hb. unfold modify_then, remove_then, remove_many, remove_one. destruct (contains c m); [|reflexivity].
  destruct (remove c m) as [c1 [[]|e]]; [|reflexivity]. simpl. rewrite Hb. unfold assign_each. simpl.
  unfold append_one. simpl. destruct (contains (assign (m_id m) f c1) (upd (m_id m) f m)); [reflexivity|].
  destruct (append (assign (m_id m) f c1) (upd (m_id m) f m)) as [c2 [[]|e]]; reflexivity.
Qed.

Theorem C33_rename_partial : forall k input ops ms n,
  acceptable k false [] ops -> no_assignment ops -> distinct_objects (all_handed ops) ->
  let c := run (empty_coll k input) ops in
  let l := list_run [] ops in
  no_equal l -> NoDup ms -> incl ms l -> no_parent_of ms l -> n <> [] ->
  exists c',
    rename_then (Some n) c (Many ms) = (c', Ok tt)
    /\ (forall m, ms = [m] -> mbool m = Ok true -> rename_then (Some n) c (One m) = (c', Ok tt))
    (* the others in order, then the renamed ones, except those [==] to one already there *)
    /\ c_del c' = others ms l ++ new_elements meq (others ms l) (map (fun m => set_name m (Some n)) ms)
    /\ lookups_agree c'
    (* every renamed match is there and found under its new name *)
    /\ (forall m, In m ms -> found (set_name m (Some n)) (c_del c')
          /\ exists r, snd (step c' (ONamed [n])) = RList r /\ found (set_name m (Some n)) r).
Proof.
  intros k input ops ms n H1 H2 H3 c l H4 H5 H6 H7 Hn.
  destruct (@modify_simple (fun m => set_name m (Some n)) (fun m => conj eq_refl (conj eq_refl (conj eq_refl eq_refl))) (fun m => conj eq_refl eq_refl)
              k input ops ms H1 H2 H3 H4 H5 H6 H7) as (c' & E & Hd & Hl).
  exists c'. split; [exact E|]. split; [intros m -> Hb; unfold rename_then; rewrite modify_one by exact Hb; exact E|].
  split; [exact Hd|]. split; [exact Hl|]. intros m Hm.
  assert (found (set_name m (Some n)) (c_del c')) as Hf.
  { destruct (@C23_extend_safe _ meq meq_refl (fun _ => true) (others ms l) (map (fun m => set_name m (Some n)) ms)) as (Er & Hf & _). rewrite Er in Hf.
    rewrite Hd. apply Hf. apply in_map_iff. exists m. auto. }
  split; [exact Hf|]. destruct Hl as (L & _). destruct (L n Hn) as (r & Er & (r' & P & F)). exists r. split; [exact Er|].
  destruct Hf as (y & Hy & Ey). assert (In y r') as Hr.
  { eapply Permutation_in; [exact P|]. apply filter_In. split; [exact Hy|]. unfold name_is. apply meq_mkey, mkey_name in Ey. simpl in Ey. rewrite <- Ey. apply opt_pstr_eqb_eq. reflexivity. }
  clear -F Hr Ey. induction F as [|a b r r' Hab F IH]; [contradiction|]. destruct Hr as [->|Hr].
  - exists a. split; [left; reflexivity|]. apply meq_mkey. apply meq_mkey in Hab, Ey. congruence.
  - destruct (IH Hr) as (z & Hz & Ez). exists z. split; [right; exact Hz | exact Ez].
Qed.

(** the lookups also agree when some given match is a parent of another member *)
Theorem C33_rename_lookups_partial : forall k input ops ms n,
  acceptable k false [] ops -> no_assignment ops -> distinct_objects (all_handed ops) ->
  no_equal (list_run [] ops) -> NoDup ms -> incl ms (list_run [] ops) ->
  exists c', rename_then n (run (empty_coll k input) ops) (Many ms) = (c', Ok tt) /\ lookups_agree c'.
Proof.
  intros k input ops ms n H1 H2 H3 H4 H5 H6.
  destruct (@modify_general (fun m => set_name m n) (fun m => conj eq_refl (conj eq_refl (conj eq_refl eq_refl))) k input ops ms H1 H2 H3 H4 H5 H6) as (c' & E & _ & Hl).
  exists c'. auto.
Qed.
(** Full statement refuted.
    1. A single match of length 0 is falsy: it is removed and not put back.
    2. Two [==] members: the first one is removed, the given one is renamed while still a
       member and is not filed again: named() answers under the old name. *)
Definition r_e : mtch := set_name (mk_match 1 2 2) (Some (s "old")).
Definition r_x : mtch := set_name (mk_match 1 0 3) (Some (s "old")).
Definition r_y : mtch := set_tags (set_name (mk_match 2 0 3) (Some (s "old"))) [s "t"].
Theorem C33_refuted :
  (let c := run (empty_coll KMatches (Some (s "abcdef"))) [OAppend r_e] in
   exists c', rename_then (Some (s "new")) c (One r_e) = (c', Ok tt) /\ c_del c' = [])
  /\ (let c := run (empty_coll KMatches (Some (s "abcdef"))) [OExtend [r_x; r_y]; ONamed [s "old"]] in
      let r_y' := set_name r_y (Some (s "new")) in
      exists c', rename_then (Some (s "new")) c (Many [r_y]) = (c', Ok tt) /\ c_del c' = [r_y']
        /\ snd (step c' (ONamed [s "old"])) = RList [r_y'] /\ snd (step c' (ONamed [s "new"])) = RList []).
Proof.
  split; [eexists; split; reflexivity|]. eexists. split; [reflexivity|]. repeat split; reflexivity.
Qed.
Example C33_witness :
  let ops := [OExtend [r_a; ex_b]; ONamed [s "a"]; OAppend r_b] in
  acceptable KMatches false [] ops /\ no_assignment ops /\ no_equal (list_run [] ops)
  /\ incl [r_a] (list_run [] ops) /\ no_parent_of [r_a] (list_run [] ops)
  /\ c_del (fst (rename_then (Some (s "c")) (run (empty_coll KMatches ex_input) ops) (Many [r_a])))
     = [ex_b; r_b; set_name r_a (Some (s "c"))].
Proof.
  cbv zeta. split; [repeat split; simpl; repeat constructor|]. split; [reflexivity|].
  split; [simpl; repeat constructor; vm_compute; reflexivity|]. split; [intros x [<-|[]]; simpl; auto|].
  split; [|reflexivity]. intros x p y m Hx Hp. simpl in Hx. destruct Hx as [<-|[<-|[<-|[]]]]; discriminate.
Qed.

(** ** C34 *)
Lemma meq_tags m ts x : meq (set_tags m ts) x = meq m x.
Proof.
  destruct (meq m x) eqn:E; [apply meq_mkey; apply meq_mkey in E; rewrite <- E | apply meq_false_mkey; apply meq_false_mkey in E; intro C; apply E; rewrite <- C];
  rewrite (mkey_unfold m), (mkey_unfold (set_tags m ts)); reflexivity.
Qed.
Lemma new_elements_fresh (f : mtch -> mtch) ms : forall b,
  (forall m x, In m ms -> meq (f m) x = meq m x) ->
  (forall m x, In m ms -> In x b -> meq m x = false) -> no_equal ms ->
  new_elements meq b (map f ms) = map f ms.
Proof.
  induction ms as [|m ms IH]; intros b Hf Hb Hn; simpl; [reflexivity|]. inversion Hn as [|? ? Hm Hn']; subst. rewrite Forall_forall in Hm.
  assert (existsb (meq (f m)) b = false) as ->.
  { apply existsb_false_iff. intros x Hx. rewrite Hf by (left; reflexivity). apply Hb; [left; reflexivity | exact Hx]. }
  simpl. f_equal. apply IH; auto.
  - intros; apply Hf; right; assumption.
  - intros y x Hy Hx. apply in_app_or in Hx as [Hx|[<-|[]]]; [apply Hb; [right|]; assumption|].
    rewrite meq_sym, Hf by (left; reflexivity). apply Hm, Hy.
Qed.
Lemma tags_then (g : mtch -> list pstr) : forall k input ops ms,
  acceptable k false [] ops -> no_assignment ops -> distinct_objects (all_handed ops) ->
  let c := run (empty_coll k input) ops in
  let l := list_run [] ops in
  let f := fun m => set_tags m (g m) in
  no_equal l -> NoDup ms -> incl ms l -> no_parent_of ms l ->
  exists c',
    modify_then f c (Many ms) = (c', Ok tt)
    /\ (forall m, ms = [m] -> mbool m = Ok true -> modify_then f c (One m) = (c', Ok tt))
    /\ c_del c' = others ms l ++ map f ms
    /\ lookups_agree c'.
Proof.
  intros k input ops ms H1 H2 H3 c l f H4 H5 H6 H7.
  destruct (@modify_simple f (fun m => conj eq_refl (conj eq_refl (conj eq_refl eq_refl))) (fun m => conj eq_refl eq_refl)
              k input ops ms H1 H2 H3 H4 H5 H6 H7) as (c' & E & Hd & Hl).
  exists c'. split; [exact E|]. split; [intros m -> Hb; rewrite modify_one by exact Hb; exact E|]. split; [|exact Hl].
  rewrite Hd. f_equal. apply new_elements_fresh; auto.
  - intros m x _. apply meq_tags.
  - intros m x Hm Hx. unfold others in Hx. apply filter_In in Hx as [_ Hx]. apply negb_true_iff in Hx. rewrite existsb_false_iff in Hx.
    rewrite meq_sym. apply Hx, Hm.
  - clear -H4 H5 H6. induction ms as [|m ms IH]; [constructor|]. inversion H5; subst. constructor; [|apply IH; [assumption|intros x Hx; apply H6; right; exact Hx]].
    apply Forall_forall. intros x Hx. destruct (meq m x) eqn:E; [|reflexivity]. exfalso.
    assert (m = x) by (apply (no_equal_eq H4); [apply H6; left; reflexivity | apply H6; right; exact Hx | exact E]). congruence.
Qed.
Theorem C34_append_tags_partial : forall k input ops ms ts,
  acceptable k false [] ops -> no_assignment ops -> distinct_objects (all_handed ops) ->
  let c := run (empty_coll k input) ops in
  let l := list_run [] ops in
  no_equal l -> NoDup ms -> incl ms l -> no_parent_of ms l ->
  exists c',
    append_tags_then ts c (Many ms) = (c', Ok tt)
    /\ (forall m, ms = [m] -> mbool m = Ok true -> append_tags_then ts c (One m) = (c', Ok tt))
    /\ c_del c' = others ms l ++ map (fun m => set_tags m (m_tags m ++ ts)) ms
    /\ lookups_agree c'.
Proof. intros k input ops ms ts. exact (@tags_then (fun m => m_tags m ++ ts) k input ops ms). Qed.
(** for each tag of [ts] in turn its first occurrence, if any, is gone *)
Theorem C34_remove_tags_partial : forall k input ops ms ts,
  acceptable k false [] ops -> no_assignment ops -> distinct_objects (all_handed ops) ->
  let c := run (empty_coll k input) ops in
  let l := list_run [] ops in
  no_equal l -> NoDup ms -> incl ms l -> no_parent_of ms l ->
  exists c' (g : mtch -> list pstr),
    remove_tags_then ts c (Many ms) = (c', Ok tt)
    /\ (forall m, ms = [m] -> mbool m = Ok true -> remove_tags_then ts c (One m) = (c', Ok tt))
    /\ c_del c' = others ms l ++ map (fun m => set_tags m (g m)) ms
    /\ (forall m, sublist (g m) (m_tags m)
          /\ forall t, countb (pstr_eqb t) (g m) = (countb (pstr_eqb t) (m_tags m) - countb (pstr_eqb t) ts)%nat)
    /\ lookups_agree c'.
Proof.
  intros k input ops ms ts H1 H2 H3 c l H4 H5 H6 H7.
  destruct (@tags_then (fun m => fold_left del_tag ts (m_tags m)) k input ops ms H1 H2 H3 H4 H5 H6 H7) as (c' & E & E1 & Hd & Hl).
  exists c', (fun m => fold_left del_tag ts (m_tags m)). split; [exact E|]. split; [exact E1|]. split; [exact Hd|]. split; [|exact Hl].
  intro m. generalize (m_tags m) as tags. clear. induction ts as [|t0 ts IH]; intro tags; simpl; [split; [apply sublist_refl | intro; rewrite Nat.sub_0_r; reflexivity]|].
  destruct (IH (del_tag tags t0)) as [I1 I2]. split.
  - eapply sublist_trans; [exact I1|]. unfold del_tag. destruct (remove_first (pstr_eqb t0) tags) eqn:E; [eapply remove_first_sublist, E | apply sublist_refl].
  - intro t. rewrite I2, (countb_cons _ t0 ts). unfold del_tag. change pstr_eqb with (@eqb pstr _). destruct (remove_first (eqb t0) tags) as [l'|] eqn:E.
    + apply remove_first_Some in E as (a & z & b & -> & Hz & _ & ->). apply eqb_eq in Hz. subst z. rewrite !countb_app, !countb_cons. destruct (eqb t t0); lia.
    + destruct (eqb t t0) eqn:Et; [|lia]. apply eqb_eq in Et. subst t0. replace (countb (eqb t) tags) with 0%nat; [lia|].
      rewrite remove_first_index in E. destruct (index_of (eqb t) tags) eqn:Ei; [discriminate|]. unfold countb.
      rewrite (proj2 (filter_nil_iff _ _)); [reflexivity|]. exact (proj1 (index_of_None _ _) Ei).
Qed.
(** Full statement refuted, as C33: a single empty match is lost, and with two [==] members
    the tags of the given one change while it is a member, the lookup does not follow. *)
Theorem C34_refuted :
  (let c := run (empty_coll KMatches (Some (s "abcdef"))) [OAppend r_e] in
   exists c', append_tags_then [s "u"] c (One r_e) = (c', Ok tt) /\ c_del c' = [])
  /\ (let c := run (empty_coll KMatches (Some (s "abcdef"))) [OExtend [r_x; r_y]; OTagged (s "t")] in
      let r_y' := set_tags r_y [s "t"; s "u"] in
      exists c', append_tags_then [s "u"] c (Many [r_y]) = (c', Ok tt) /\ c_del c' = [r_y']
        /\ snd (step c' (OTagged (s "u"))) = RList []).
Proof.
  split; [eexists; split; reflexivity|]. eexists. split; [reflexivity|]. repeat split; reflexivity.
Qed.
Example C34_witness :
  let ops := [OExtend [r_a; ex_b]; OTagged (s "u"); OAppend r_b] in
  let c := run (empty_coll KMatches ex_input) ops in
  let c' := fst (append_tags_then [s "u"; s "v"] c (Many [r_a])) in
  c_del c' = [ex_b; r_b; set_tags r_a [s "u"; s "v"]]
  /\ snd (step c' (OTagged (s "u"))) = RList [set_tags r_a [s "u"; s "v"]]
  /\ c_del (fst (remove_tags_then [s "u"] c' (One (set_tags r_a [s "u"; s "v"])))) = [ex_b; r_b; set_tags r_a [s "v"]].
Proof. repeat split; reflexivity. Qed.

Print Assumptions C31_remove_many. Print Assumptions C32_append_partial. Print Assumptions C33_rename_partial.
Print Assumptions C34_append_tags_partial. Print Assumptions C34_remove_tags_partial.
