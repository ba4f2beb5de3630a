(** * Removals in another order leave collections that no call tells apart *)
From Coq Require Import Permutation ZifyBool.
From Verif Require Import Base BaseFacts Match MatchFacts Coll CollFacts CollCards Conseq Processors Topo Rules Rebulk Play Twin.
Set Implicit Arguments.
Unset Strict Implicit.
Open Scope Z_scope.

Definition at_end (k : Z) (l : list mtch) : list mtch := filter (fun m => eqb k (m_end m)) l.
Lemma build_at_end l k : dget (build_ending l) k = at_end k l.
Proof. rewrite build_ending_get. unfold end_keys, at_end. apply occ_single. Qed.

(** the effect of [shrink_maxend] on the dictionary of ends and the maximum *)
Definition eshrink (e : option (mdict Z)) (M : Z) (l : list mtch) (m : mtch) : option (mdict Z) * Z :=
  if m_end m >=? M then
    let d := dtouch (match e with Some d => d | None => build_ending l end) (m_end m) in
    (Some d, match dget d (m_end m) with [] => zmax_list (dkeys d) | _ => M end)
  else (e, M).
Lemma shrink_eshrink k i M l n t s e x m :
  shrink_maxend (Coll k i M l n t s e x) m = let '(e', M') := eshrink e M l m in Coll k i M' l n t s e' x.
Proof.
  unfold shrink_maxend, eshrink, ending_dict. cbn [c_maxend c_ending c_del]. destruct (m_end m >=? M); [|reflexivity]. cbv zeta.
  destruct e as [d|]; destruct (dget (dtouch _ (m_end m)) (m_end m)); reflexivity.
Qed.
Definition erem (e : option (mdict Z)) (M : Z) (l : list mtch) (m : mtch) : option (option (mdict Z) * Z) :=
  match remove_all (end_keys m) m e with (e1, Ok _) => Some (eshrink e1 M l m) | _ => None end.

(** with the dictionary built *)
Definition smax (d : mdict Z) (e M : Z) : Z := if (e >=? M) && (match dget d e with [] => true | _ => false end) then zmax_list (dkeys d) else M.
Lemma prim_get m (d d1 : mdict Z) k : prim k m d = Some d1 ->
  remove_first (meq m) (dget d k) = Some (dget d1 k) /\ (forall k', k' <> k -> dget d1 k' = dget d k') /\ dkeys d1 = dkeys d /\ In k (dkeys d).
Proof.
  intro H. pose proof (@prims_keys _ _ [k] m d d1) as Hk. cbn [prims] in Hk. rewrite H in Hk.
  unfold prim in H. destruct (remove_first (meq m) (dget d k)) as [l|] eqn:E; [|discriminate]. injection H as <-.
  rewrite dget_dset, eqb_refl. split; [reflexivity|]. split.
  - intros k' N. rewrite dget_dset. destruct (eqb k' k) eqn:Ek; [apply eqb_eq in Ek; congruence|reflexivity].
  - split; [apply Hk; reflexivity|]. apply dget_In_keys. intro X. rewrite X in E. discriminate.
Qed.
Lemma erem_Some d M l m : erem (Some d) M l m = match prim (m_end m) m d with Some d1 => Some (Some d1, smax d1 (m_end m) M) | None => None end.
Proof.
  unfold erem, remove_all, end_keys. rewrite remove_keys_prims. cbn [prims].
  destruct (prim (m_end m) m d) as [d1|] eqn:E; [|reflexivity]. unfold eshrink, smax.
  destruct (prim_get E) as (_ & _ & Ek & Hi).
  assert (dtouch d1 (m_end m) = d1) as Et.
  { unfold dtouch. destruct (dfind d1 (m_end m)) eqn:Ef; [reflexivity|]. apply dfind_None in Ef. rewrite Ek in Ef. contradiction. }
  destruct (m_end m >=? M); [|reflexivity]. cbv zeta. rewrite Et. destruct (dget d1 (m_end m)); reflexivity.
Qed.
Lemma erem_None M l m : erem None M l m = Some (eshrink None M l m).
Proof. reflexivity. Qed.

Lemma remove_first_nonempty m (l l' : list mtch) : remove_first (meq m) l = Some l' -> l <> [].
Proof. intros H ->. discriminate. Qed.
Lemma smax_comm (d d1 d1' d2 : mdict Z) a b M :
  prim (m_end a) a d = Some d1 -> prim (m_end b) b d1 = Some d2 -> prim (m_end b) b d = Some d1' -> prim (m_end a) a d1' = Some d2 ->
  smax d2 (m_end b) (smax d1 (m_end a) M) = smax d2 (m_end a) (smax d1' (m_end b) M).
Proof.
  intros A B C D. apply prim_get in A as (A1 & A2 & A3 & A4), B as (B1 & B2 & B3 & B4), C as (C1 & C2 & C3 & C4), D as (D1 & D2 & D3 & D4).
  assert (dkeys d2 = dkeys d) as K2 by congruence.
  unfold smax. rewrite A3, C3, K2. set (K := zmax_list (dkeys d)).
  destruct (Z.eq_dec (m_end a) (m_end b)) as [E|N].
  - rewrite E in *. apply remove_first_nonempty in B1, D1. destruct (dget d1 (m_end b)); [congruence|]. destruct (dget d1' (m_end b)); [congruence|].
    rewrite !andb_false_r. reflexivity.
  - rewrite <- (B2 (m_end a)) by exact N. rewrite <- (D2 (m_end b)) by congruence.
    pose proof (zmax_ge A4) as La. pose proof (zmax_ge C4) as Lb. fold K in La, Lb.
    destruct (dget d2 (m_end a)), (dget d2 (m_end b));
      destruct (m_end a >=? M) eqn:Ea, (m_end b >=? M) eqn:Eb; cbn [andb]; rewrite ?andb_true_r, ?andb_false_r, ?Ea, ?Eb; try reflexivity;
      try (destruct (m_end b >=? K); reflexivity); try (destruct (m_end a >=? K); reflexivity);
      try (destruct (m_end b >=? K), (m_end a >=? K); reflexivity).
Qed.

(** from a collection whose dictionary of ends is not built *)
Section From_none.
  Variables (l l1 l2 : list mtch) (a b : mtch) (M : Z).
  Hypothesis Ha : take (meq a) l = Some (a, l1).
  Hypothesis Hb : take (meq b) l1 = Some (b, l2).
  Definition ends_of := map m_end l.
  Lemma at_end_a k : k <> m_end a -> at_end k l = at_end k l1.
  Proof. intro N. apply (@take_filter_other _ (meq a) _ _ a); [apply eqb_neq, N|exact Ha]. Qed.
  Lemma at_end_b k : k <> m_end b -> at_end k l1 = at_end k l2.
  Proof. intro N. apply (@take_filter_other _ (meq b) _ _ b); [apply eqb_neq, N|exact Hb]. Qed.
  Lemma at_end_first : remove_first (meq b) (at_end (m_end b) l1) = Some (at_end (m_end b) l2).
  Proof.
    rewrite take_remove. unfold at_end. rewrite (@take_filter _ (meq b) _ _ b l2); [reflexivity| |exact Hb].
    intros x E. apply meq_mkey in E. rewrite (mkey_unfold b), (mkey_unfold x) in E. injection E as _ E _ _ _. rewrite E. apply eqb_refl.
  Qed.
  Lemma ends_l k : In k ends_of <-> k = m_end a \/ k = m_end b \/ In k (map m_end l2).
  Proof.
    unfold ends_of. rewrite !in_map_iff. split.
    - intros (x & <- & H). apply (take_In Ha) in H as [->|H]; [auto|]. apply (take_In Hb) in H as [->|H]; [auto|]. right; right. exists x; auto.
    - intros [->|[->|(x & <- & H)]]; [exists a|exists b|exists x]; (split; [reflexivity|]); apply (take_In Ha); [auto|right; apply (take_In Hb); auto|right; apply (take_In Hb); auto].
  Qed.
  Lemma ends_l1 k : In k ends_of <-> k = m_end a \/ In k (map m_end l1).
  Proof.
    unfold ends_of. rewrite !in_map_iff. split.
    - intros (x & <- & H). apply (take_In Ha) in H as [->|H]; [auto|]. right. exists x; auto.
    - intros [->|(x & <- & H)]; [exists a|exists x]; (split; [reflexivity|]); apply (take_In Ha); auto.
  Qed.

  Definition goes (m : mtch) : bool := (M <=? m_end m) && (match at_end (m_end m) l2 with [] => true | _ => false end).
  Definition outcome (r : option (option (mdict Z) * Z)) : Prop :=
    exists e2 M2, r = Some (e2, M2) /\
      if (M <=? m_end a) || (M <=? m_end b) then
        (exists d, e2 = Some d /\ (forall k, dget d k = at_end k l2) /\ (forall k, M <= k -> (In k (dkeys d) <-> In k ends_of)))
        /\ M2 = (if goes a || goes b then zmax_list ends_of else M)
      else e2 = None /\ M2 = M.
  Lemma two_from_none e1 M1 : erem None M l1 a = Some (e1, M1) -> outcome (erem e1 M1 l2 b).
  Proof.
    rewrite erem_None. unfold eshrink. rewrite Z.geb_leb. destruct (M <=? m_end a) eqn:Ea.
    - intro H. injection H as <- <-. set (d := dtouch (build_ending l1) (m_end a)).
      assert (forall k, dget d k = at_end k l1) as Gd by (intro k; unfold d; rewrite dget_dtouch; apply build_at_end).
      assert (forall k, In k (dkeys d) <-> In k ends_of) as Kd.
      { intro k. unfold d. rewrite dkeys_dtouch_In, build_ending_keys, ends_l1, in_map_iff. split.
        - intros [->|(x & A & B)]; [auto|]. right. exists x; auto.
        - intros [->|(x & A & B)]; [auto|]. right. exists x; auto. }
      rewrite (Gd (m_end a)). rewrite erem_Some. destruct (prim (m_end b) b d) as [d1|] eqn:E.
      2:{ unfold prim in E. rewrite Gd, at_end_first in E. discriminate. }
      destruct (prim_get E) as (P1 & P2 & P3 & P4). rewrite Gd, at_end_first in P1. injection P1 as P1.
      assert (forall k, dget d1 k = at_end k l2) as Gd1.
      { intro k. destruct (Z.eq_dec k (m_end b)) as [->|N]; [symmetry; exact P1|]. rewrite (P2 k N), Gd. apply at_end_b, N. }
      eexists _, _. split; [reflexivity|]. rewrite Ea. cbn [orb]. split.
      { exists d1. split; [reflexivity|]. split; [exact Gd1|]. intros k _. rewrite P3. apply Kd. }
      assert (zmax_list (dkeys d) = zmax_list ends_of) as Ez.
      { apply zmax_agree with (M := M) (i := m_end a); [lia| | |intros k _; apply Kd]; [apply Kd|]; apply ends_l; auto. }
      assert (m_end b <= zmax_list ends_of) as Lb by (apply zmax_ge, ends_l; auto).
      assert (m_end a <= zmax_list ends_of) as La by (apply zmax_ge, ends_l; auto).
      unfold smax, goes. rewrite P3, Ez, Gd1, Ea. destruct (Z.eq_dec (m_end a) (m_end b)) as [N|N].
      + rewrite N in *. assert (at_end (m_end b) l1 <> []) as Ne by (eapply remove_first_nonempty, at_end_first).
        destruct (at_end (m_end b) l1); [congruence|]. destruct (at_end (m_end b) l2); cbn [andb orb]; rewrite ?andb_true_r, ?andb_false_r; [|reflexivity].
        rewrite Z.geb_leb, Ea. reflexivity.
      + rewrite (@at_end_b (m_end a) N). destruct (at_end (m_end a) l2); cbn [andb orb].
        * destruct (at_end (m_end b) l2); rewrite ?andb_true_r, ?andb_false_r; [|reflexivity].
          destruct (m_end b >=? zmax_list ends_of); reflexivity.
        * rewrite Z.geb_leb. reflexivity.
    - intro H. injection H as <- <-. rewrite erem_None. unfold eshrink. rewrite Z.geb_leb. unfold outcome, goes. rewrite Ea. cbn [orb andb].
      destruct (M <=? m_end b) eqn:Eb; [|eexists _, _; split; [reflexivity|]; split; reflexivity].
      set (d := dtouch (build_ending l2) (m_end b)).
      assert (forall k, dget d k = at_end k l2) as Gd by (intro k; unfold d; rewrite dget_dtouch; apply build_at_end).
      assert (forall k, M <= k -> (In k (dkeys d) <-> In k ends_of)) as Kd.
      { intros k Hk. unfold d. rewrite dkeys_dtouch_In, build_ending_keys, ends_l, in_map_iff. split.
        - intros [->|(x & A & B)]; [auto|]. right; right. exists x; auto.
        - intros [->|[->|(x & A & B)]]; [exfalso; lia|auto|]. right. exists x; auto. }
      eexists _, _. split; [reflexivity|]. split.
      { exists d. split; [reflexivity|]. split; [exact Gd|exact Kd]. }
      cbv zeta. fold d. rewrite Gd. destruct (at_end (m_end b) l2); cbn [andb]; [|reflexivity].
      apply zmax_agree with (M := M) (i := m_end b); [lia| | |]; [apply Kd; [lia|]; apply ends_l; auto|apply ends_l; auto|]. intros k Hk. apply Kd. lia.
  Qed.
End From_none.

Lemma outcome_sym l l2 a b M r : outcome l l2 b a M r -> outcome l l2 a b M r.
Proof. intros (e2 & M2 & -> & H). exists e2, M2. split; [reflexivity|]. rewrite orb_comm, (orb_comm (goes l2 M a)). exact H. Qed.
Lemma outcome_agree l l2 a b M r r' : In a l -> In b l -> outcome l l2 a b M r -> outcome l l2 a b M r' ->
  exists e M2 e', r = Some (e, M2) /\ r' = Some (e', M2) /\ ends_agree M2 e e'.
Proof.
  intros Ia Ib (e & M2 & -> & H) (e' & M2' & -> & H'). exists e, M2, e'. split; [reflexivity|].
  destruct ((M <=? m_end a) || (M <=? m_end b)) eqn:E.
  - destruct H as [(d & -> & G & K) ->], H' as [(d' & -> & G' & K') ->]. split; [reflexivity|]. split; [intro k; rewrite G, G'; reflexivity|].
    intros k Hk. assert (M <= k); [|rewrite K, K' by assumption; tauto].
    assert (m_end a <= zmax_list (ends_of l)) as La by (apply zmax_ge, in_map, Ia).
    assert (m_end b <= zmax_list (ends_of l)) as Lb by (apply zmax_ge, in_map, Ib).
    destruct (goes l2 M a || goes l2 M b) eqn:Eg; lia.
  - destruct H as [-> ->], H' as [-> ->]. split; [reflexivity|exact I].
Qed.

(** removing two objects from the dictionary of ends, in either order *)
Lemma erem_comm l l1 l1' l2 a b e M e1 M1 e2 M2 :
  take (meq a) l = Some (a, l1) -> take (meq b) l1 = Some (b, l2) -> take (meq b) l = Some (b, l1') -> take (meq a) l1' = Some (a, l2) ->
  erem e M l1 a = Some (e1, M1) -> erem e1 M1 l2 b = Some (e2, M2) ->
  exists e1' M1' e2', erem e M l1' b = Some (e1', M1') /\ erem e1' M1' l2 a = Some (e2', M2) /\ ends_agree M2 e2 e2'.
Proof.
  intros A B C D. destruct e as [d|].
  - rewrite erem_Some. destruct (prim (m_end a) a d) as [d1|] eqn:E1; [|discriminate]. intro H. injection H as <- <-.
    rewrite erem_Some. destruct (prim (m_end b) b d1) as [d2|] eqn:E2; [|discriminate]. intro H. injection H as <- <-.
    destruct (prim_comm E1 E2) as (d1' & E3 & E4). eexists _, _, _. rewrite erem_Some, E3. split; [reflexivity|]. rewrite erem_Some, E4.
    rewrite (smax_comm M E1 E2 E3 E4). split; [reflexivity|apply ends_agree_refl].
  - intros H H'. pose proof (two_from_none A B H) as O. rewrite H' in O.
    rewrite erem_None. destruct (eshrink None M l1' b) as [e1' M1'] eqn:E. exists e1', M1'.
    assert (erem None M l1' b = Some (e1', M1')) as H2 by (rewrite erem_None, E; reflexivity).
    pose proof (outcome_sym (two_from_none C D H2)) as O'.
    destruct (@outcome_agree _ _ _ _ _ _ _ (proj2 (take_true A)) (proj2 (take_true C)) O O') as (x & y & z & X & Y & Z).
    injection X as <- <-. exists z. split; [reflexivity|]. split; [exact Y|exact Z].
Qed.

(** ** one removal of the conflict solver's list *)
Definition rm1 (c : coll) (x : mtch) : coll * res unit :=
  match take (meq x) (c_del c) with None => (c, Ok tt) | Some (o, l) => remove_match (with_del c l) o end.
Fixpoint rms (c : coll) (xs : list mtch) : coll * res unit :=
  match xs with
  | [] => (c, Ok tt)
  | x :: r => match rm1 c x with (c1, Ok _) => rms c1 r | (c1, Err e) => (c1, Err e) end
  end.
Lemma take_index {A} (p : A -> bool) l :
  take p l = match index_of p l with Some n => match nth_error l n with Some x => Some (x, remove_nth n l) | None => None end | None => None end.
Proof.
  induction l as [|y l IH]; simpl; [reflexivity|]. destruct (p y); [reflexivity|]. rewrite IH.
  destruct (index_of p l) as [n|]; [|reflexivity]. cbn [nth_error remove_nth]. destruct (nth_error l n); reflexivity.
Qed.
Lemma rm1_eq c x : rm1 c x = if contains c x then remove c x else (c, Ok tt).
Proof.
  unfold rm1, contains, remove, seq_index. rewrite take_index.
  destruct (index_of (meq x) (c_del c)) as [n|] eqn:E.
  - destruct (@index_of_Some _ _ _ _ E) as (y & Hy & Ey & _). rewrite Hy.
    assert (mem meq x (c_del c) = true) as ->.
    { unfold mem. apply existsb_exists. exists y. split; [eapply nth_error_In, Hy|exact Ey]. }
    unfold delitem. rewrite py_pos_nat by (apply nth_error_Some; congruence). rewrite Hy. reflexivity.
  - assert (mem meq x (c_del c) = false) as ->; [|reflexivity].
    unfold mem. apply not_true_iff_false. intro X. apply existsb_exists in X as (y & Hy & Ey).
    pose proof (remove_first_index (meq x) (c_del c)) as R. rewrite E in R. rewrite (proj1 (remove_first_None _ _) R y Hy) in Ey. discriminate.
Qed.
Lemma rms_eq xs : forall c, drop_ret (remove_then c (Many xs)) = rms c xs.
Proof.
  unfold remove_then, drop_ret. induction xs as [|x xs IH]; intro c; cbn [remove_many rms]; [reflexivity|]. rewrite rm1_eq.
  destruct (contains c x); [|apply IH]. destruct (remove c x) as [c1 [u|e]]; [|reflexivity].
  rewrite <- IH. destruct (remove_many c1 xs) as [c2 [r|e]]; reflexivity.
Qed.

Lemma remove_match_ok c m c' : remove_match c m = (c', Ok tt) <->
  exists n t s e x M, remove_all (name_keys m) m (c_named c) = (n, Ok tt) /\ remove_all (tag_keys m) m (c_tagged c) = (t, Ok tt)
    /\ remove_all (start_keys m) m (c_starting c) = (s, Ok tt) /\ erem (c_ending c) (c_maxend c) (c_del c) m = Some (e, M)
    /\ remove_all (index_keys m) m (c_indexed c) = (x, Ok tt) /\ c' = Coll (c_kind c) (c_input c) M (c_del c) n t s e x.
Proof.
  unfold remove_match, erem. cbv zeta.
  destruct (remove_all (name_keys m) m (c_named c)) as [n [[]|er]]; [|split; [discriminate|intros (?&?&?&?&?&?&?&_); congruence]].
  cbn [with_named c_tagged]. destruct (remove_all (tag_keys m) m (c_tagged c)) as [t [[]|er]]; [|split; [discriminate|intros (?&?&?&?&?&?&_&?&_); congruence]].
  cbn [with_tagged with_named c_starting]. destruct (remove_all (start_keys m) m (c_starting c)) as [s [[]|er]]; [|split; [discriminate|intros (?&?&?&?&?&?&_&_&?&_); congruence]].
  cbn [with_starting with_tagged with_named c_ending]. destruct (remove_all (end_keys m) m (c_ending c)) as [e [[]|er]]; [|split; [discriminate|intros (?&?&?&?&?&?&_&_&_&?&_); congruence]].
  cbn [with_ending with_starting with_tagged with_named c_indexed]. destruct (remove_all (index_keys m) m (c_indexed c)) as [x [[]|er]]; [|split; [discriminate|intros (?&?&?&?&?&?&_&_&_&_&?&_); congruence]].
  unfold with_indexed, with_ending, with_starting, with_tagged, with_named. cbn [c_kind c_input c_maxend c_del c_named c_tagged c_starting c_ending c_indexed].
  rewrite shrink_eshrink. destruct (eshrink e (c_maxend c) (c_del c) m) as [e' M']. split.
  - intro H. injection H as <-. exists n, t, s, e', x, M'. repeat split.
  - intros (n0 & t0 & s0 & e0 & x0 & M0 & A & B & C & D & E & ->). congruence.
Qed.
Lemma remove_match_err c m c' e : remove_match c m = (c', Err e) -> e = ValueError.
Proof.
  unfold remove_match. cbv zeta.
  destruct (remove_all (name_keys m) m (c_named c)) as [n [[]|er]] eqn:E; [|intro H; apply remove_all_err in E; congruence]. clear E.
  destruct (remove_all (tag_keys m) m _) as [t [[]|er]] eqn:E; [|intro H; apply remove_all_err in E; congruence]. clear E.
  destruct (remove_all (start_keys m) m _) as [s [[]|er]] eqn:E; [|intro H; apply remove_all_err in E; congruence]. clear E.
  destruct (remove_all (end_keys m) m _) as [en [[]|er]] eqn:E; [|intro H; apply remove_all_err in E; congruence]. clear E.
  destruct (remove_all (index_keys m) m _) as [x [[]|er]] eqn:E; [|intro H; apply remove_all_err in E; congruence]. discriminate.
Qed.

Lemma rm1_twin x c c' : twin c c' -> trel (rm1 c x) (rm1 c' x).
Proof.
  intro H. unfold rm1. rewrite <- (twin_del H). destruct (take (meq x) (c_del c)) as [[o l]|]; [|split; [exact H|reflexivity]].
  apply remove_match_twin, with_del_twin, H.
Qed.
Lemma rms_twin xs : forall c c', twin c c' -> trel (rms c xs) (rms c' xs).
Proof.
  induction xs as [|x xs IH]; intros c c' H; cbn [rms]; [split; [exact H|reflexivity]|].
  destruct (rm1_twin x H) as [A B]. destruct (rm1 c x) as [c1 r], (rm1 c' x) as [c1' r']. cbn [fst snd] in A, B. subst r'.
  destruct r; [apply IH, A | split; [exact A|reflexivity]].
Qed.
Lemma rm1_err c x c' e : rm1 c x = (c', Err e) -> e = ValueError.
Proof. unfold rm1. destruct (take (meq x) (c_del c)) as [[o l]|]; [|discriminate]. apply remove_match_err. Qed.
Lemma rms_err xs : forall c c' e, rms c xs = (c', Err e) -> e = ValueError.
Proof.
  induction xs as [|x xs IH]; intros c c' e; cbn [rms]; [discriminate|]. destruct (rm1 c x) as [c1 [u|er]] eqn:E; [apply IH|].
  intro H. injection H as _ <-. eapply rm1_err, E.
Qed.

Lemma take_self x l o r : take (meq x) l = Some (o, r) -> take (meq o) l = Some (o, r).
Proof.
  intro H. rewrite <- H. apply take_ext. intro y. symmetry. apply meq_trans_eq. apply (take_true H).
Qed.
(** two removals that succeed succeed in the other order, with the same result for any caller *)
Lemma rm_swap c x y c1 c2 : rm1 c x = (c1, Ok tt) -> rm1 c1 y = (c2, Ok tt) ->
  exists c1' c2', rm1 c y = (c1', Ok tt) /\ rm1 c1' x = (c2', Ok tt) /\ twin c2 c2'.
Proof.
  destruct (meq x y) eqn:Exy.
  { assert (forall c, rm1 c x = rm1 c y) as S.
    { intro c0. unfold rm1. rewrite (@take_ext _ (meq x) (meq y)); [reflexivity|]. intro z. apply meq_trans_eq, Exy. }
    intros H H'. exists c1, c2. rewrite <- S. split; [exact H|]. rewrite S. split; [exact H'|apply twin_refl]. }
  assert (meq y x = false) as Eyx.
  { apply not_true_iff_false. intro E. apply meq_mkey in E. assert (meq x y = true) by (apply meq_mkey; congruence). congruence. }
  pose proof (fun z => @meq_classes x y z Exy) as D. pose proof (fun z => @meq_classes y x z Eyx) as D'.
  unfold rm1 at 1. destruct (take (meq x) (c_del c)) as [[a l1]|] eqn:Ta.
  2:{ intro H. injection H as <-. intro H. exists c2, c2. split; [exact H|]. split; [|apply twin_refl].
      unfold rm1 in *. destruct (take (meq y) (c_del c)) as [[b l2]|] eqn:Tb; [|injection H as <-; rewrite Ta; reflexivity].
      apply remove_match_ok in H as (n & t & s & e & i & M & _ & _ & _ & _ & _ & ->). cbn [c_del with_del].
      rewrite (take_none' D' Tb Ta). reflexivity. }
  intro H. pose proof H as H0. apply remove_match_ok in H as (n & t & s & e & i & M & An & At & As & Ae & Ai & ->).
  unfold rm1 at 1. cbn [with_del c_del c_named c_tagged c_starting c_ending c_indexed c_maxend c_kind c_input] in *.
  destruct (take (meq y) l1) as [[b l2]|] eqn:Tb.
  2:{ intro H. injection H as <-. pose proof (take_none D Ta Tb) as Ty. eexists c, _. split; [unfold rm1; rewrite Ty; reflexivity|].
      unfold rm1. rewrite Ta, H0. split; [reflexivity|apply twin_refl]. }
  intro H. apply remove_match_ok in H as (n2 & t2 & s2 & e2 & i2 & M2 & Bn & Bt & Bs & Be & Bi & ->).
  cbn [with_del c_del c_named c_tagged c_starting c_ending c_indexed c_maxend c_kind c_input] in *.
  destruct (take_comm D Ta Tb) as (l1' & Tb' & Ta').
  destruct (remove_all_comm An Bn) as (n' & Cn & Dn). destruct (remove_all_comm At Bt) as (t' & Ct & Dt).
  destruct (remove_all_comm As Bs) as (s' & Cs & Ds). destruct (remove_all_comm Ai Bi) as (i' & Ci & Di).
  destruct (erem_comm (take_self Ta) (take_self Tb) (take_self Tb') (take_self Ta') Ae Be) as (e' & M' & e2' & Ce & De & Ag).
  exists (Coll (c_kind c) (c_input c) M' l1' n' t' s' e' i'), (Coll (c_kind c) (c_input c) M2 l2 n2 t2 s2 e2' i2). split; [|split].
  - unfold rm1. rewrite Tb'. apply remove_match_ok. exists n', t', s', e', i', M'. cbn [with_del c_del c_named c_tagged c_starting c_ending c_indexed c_maxend c_kind c_input]. repeat split; assumption.
  - unfold rm1. cbn [c_del]. rewrite Ta'. apply remove_match_ok. exists n2, t2, s2, e2', i2, M2. cbn [with_del c_del c_named c_tagged c_starting c_ending c_indexed c_maxend c_kind c_input]. repeat split; assumption.
  - exists e2'. split; [reflexivity|exact Ag].
Qed.

(** a list of removals in another order: both fail with ValueError, or both succeed and leave
    collections that no call tells apart *)
Definition alike (r r' : coll * res unit) : Prop :=
  match r, r' with (c, Ok _), (c', Ok _) => twin c c' | (_, Err e), (_, Err e') => e = e' | _, _ => False end.
Lemma rms_perm xs ys : Permutation xs ys -> forall c, alike (rms c xs) (rms c ys).
Proof.
  assert (forall c, alike c c) as R by (intros [c [u|e]]; simpl; [apply twin_refl|reflexivity]).
  assert (forall a b c, alike a b -> alike b c -> alike a c) as T.
  { intros [a [u|e]] [b [v|f]] [c [w|g]]; simpl; try tauto; [apply twin_trans|congruence]. }
  assert (forall a b, trel a b -> alike a b) as X.
  { intros [a r] [b r'] [A B]. cbn [fst snd] in *. subst. destruct r'; [exact A|reflexivity]. }
  induction 1 as [|x xs ys _ IH|x y xs|xs ys zs _ IH1 _ IH2]; intro c; [apply R| | |eapply T; [apply IH1|apply IH2]].
  - cbn [rms]. destruct (rm1 c x) as [c1 [u|e]]; [apply IH|reflexivity].
  - (* y :: x :: xs against x :: y :: xs *)
    cbn [rms]. destruct (rm1 c y) as [c1 [[]|e]] eqn:Ey.
    + destruct (rm1 c1 x) as [c2 [[]|e]] eqn:Ex.
      * destruct (rm_swap Ey Ex) as (c1' & c2' & A & B & W). rewrite A, B. apply X, rms_twin, W.
      * destruct (rm1 c x) as [c1' [[]|e']] eqn:Ex'; [|apply rm1_err in Ex, Ex'; cbn; congruence].
        destruct (rm1 c1' y) as [c2' [[]|e']] eqn:Ey'; [|apply rm1_err in Ex, Ey'; cbn; congruence].
        destruct (rm_swap Ex' Ey') as (d1 & d2 & A & B & _). rewrite Ey in A. injection A as <-. rewrite Ex in B. discriminate.
    + destruct (rm1 c x) as [c1' [[]|e']] eqn:Ex'; [|apply rm1_err in Ey, Ex'; cbn; congruence].
      destruct (rm1 c1' y) as [c2' [[]|e']] eqn:Ey'; [|apply rm1_err in Ey, Ey'; cbn; congruence].
      destruct (rm_swap Ex' Ey') as (d1 & d2 & A & B & _). rewrite Ey in A. discriminate.
Qed.
