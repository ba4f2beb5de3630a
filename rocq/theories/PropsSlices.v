(** * C123, C124: slices with a step; what may be assigned to a slice *)
From Verif Require Import Base BaseFacts Match Spec MatchFacts Coll CollFacts CollQuery CollSem CollSem2 SpecColl CollHist CollUniv CollMore
  SpecFiled CollFiled CollFiled2 Conseq ConseqFacts PropsLoose PropsColl Slices SpecSlices SliceFacts.
From Coq Require Import ZifyBool.
From Coq Require String. Export Coq.Strings.String.StringSyntax.
Set Implicit Arguments.
Unset Strict Implicit.
Open Scope Z_scope.

Section Walk.
  Variables (l : list mtch) (i j : option Z) (st : Z).
  Hypothesis Hst : st <> 0.
  Let ps := taken_positions (zlen l) i j st.
  Lemma walk_is : slice_walk (zlen l) i j st = ps.
  Proof. apply slice_walk_taken; [unfold zlen; lia | exact Hst]. Qed.
  Lemma ps_in p : In p ps -> 0 <= p < zlen l. Proof. apply taken_in. Qed.
  Lemma ps_nodup : NoDup ps. Proof. apply taken_NoDup. Qed.
End Walk.

Lemma delstep_outcome P c i j st : Inv P c -> st <> 0 ->
  let ps := taken_positions (zlen (c_del c)) i j st in
  c_del (fst (delstep c i j st)) = without (c_del c) ps
  /\ exists seg, reads (c_del c) ps seg
  /\ ((c_ending c <> None \/ Forall (fun x => m_end x < c_maxend c) (removelast seg)) ->
      exists c', delstep c i j st = (c', Ok tt) /\ Inv P c' /\ same_env c c'
        /\ c_maxend c <= c_maxend c' /\ (c_ending c <> None -> c_ending c' <> None))
  /\ (c_ending c = None ->
      (snd (delstep c i j st) = Ok tt /\ ~ stuck seg (without (c_del c) ps) (c_maxend c))
      \/ (snd (delstep c i j st) = Err ValueError /\ stuck seg (without (c_del c) ps) (c_maxend c))).
Proof.
  intros (HD & HM & HF) Hst ps. unfold delstep. replace (st =? 0) with false by lia. rewrite walk_is by exact Hst. fold ps. cbv zeta.
  rewrite <- drop_without.
  assert (Permutation (c_del c) (pick_at (c_del c) ps ++ drop_at 0 ps (c_del c))) as Hp by (apply pick_at_perm; [apply ps_nodup | apply ps_in]).
  split; [rewrite remove_matches_del; reflexivity|]. exists (pick_at (c_del c) ps). split; [apply pick_reads, ps_in|].
  apply (Dok_perm Hp) in HD. apply (Mok_perm Hp) in HM. split.
  - intro He. destruct (@remove_matches_ok P (pick_at (c_del c) ps) (with_del c (drop_at 0 ps (c_del c))) (drop_at 0 ps (c_del c)))
      as (c' & E & D & M & Hdel & Hev & Hm & Hen); auto.
    exists c'. split; [exact E|]. split; [|split; [exact Hev | split; [exact Hm | exact Hen]]].
    destruct Hev as [Hk _]. split; [rewrite Hdel; exact D|]. split; [rewrite Hdel; exact M|].
    rewrite Hdel, Hk. apply (Forall_perm Hp) in HF. rewrite Forall_app in HF. apply HF.
  - intro Hu. exact (@remove_matches_outcome P (pick_at (c_del c) ps) (with_del c (drop_at 0 ps (c_del c))) (drop_at 0 ps (c_del c)) HD HM eq_refl Hu).
Qed.

Lemma setstep_ok P c i j st ms : Inv P c -> Forall (fun m => accepts (c_kind c) m = true) ms -> (forall m, P m) ->
  let r := setstep c i j st (SList ms) in
  Inv P (fst r) /\ same_env c (fst r) /\ list_does (c_del c) (XSet i j st ms) (c_del (fst r)) (snd (unit_out r))
  /\ c_maxend c <= c_maxend (fst r) /\ (c_ending c <> None -> c_ending (fst r) <> None).
Proof.
  intros HI Ha HP r. subst r. unfold setstep, assign_list, list_does.
  destruct (st =? 0) eqn:E0; [cbn [fst snd unit_out]; split; [exact HI|]; split; [apply same_env_refl|]; split; [auto|]; split; [lia|auto]|].
  destruct (st =? 1) eqn:E1.
  - destruct (@setslice_ok P c i j ms HI Ha) as (c' & a & b & E & HI' & He & _ & _ & _ & Hm & Hen).
    { apply Forall_forall. intros m _. apply HP. }
    pose proof E as E'. unfold setslice in E. cbv zeta in E |- *. rewrite E. cbn [fst snd unit_out].
    split; [exact HI'|]. split; [exact He|]. split; [|split; assumption]. split; [|reflexivity].
    destruct (@step_ok P c (OSetslice i j ms) HI Ha (fun _ => HP) I) as (_ & _ & H & _). cbn [step unit_out] in H. rewrite E' in H. exact H.
  - rewrite walk_is by lia. set (ps := taken_positions (zlen (c_del c)) i j st). cbv zeta.
    destruct (zlen ps =? zlen ms) eqn:El; [|cbn [fst snd unit_out]; split; [exact HI|]; split; [apply same_env_refl|]; split; [auto|]; split; [lia|auto]].
    assert (length ps = length ms) as Hl by (unfold zlen in El; lia).
    assert (stored (c_del c) ps ms (store_at (c_del c) ps ms)) as Hs by (apply store_stored; [apply ps_nodup | apply ps_in | exact Hl]).
    destruct HI as (HD & HM & HF).
    assert (Permutation (c_del c) (pick_at (c_del c) ps ++ drop_at 0 ps (c_del c))) as Hp by (apply pick_at_perm; [apply ps_nodup | apply ps_in]).
    assert (Permutation (store_at (c_del c) ps ms) (ms ++ drop_at 0 ps (c_del c))) as Hq by (apply stored_perm with (2 := ps_in (l := c_del c) (i := i) (j := j) (st := st)); [apply ps_nodup | exact Hl | exact Hs]).
    apply (Dok_perm Hp) in HD. apply (Mok_perm Hp) in HM. apply (Forall_perm Hp) in HF. rewrite Forall_app in HF.
    destruct (@add_matches_ok P ms (with_del c (store_at (c_del c) ps ms)) (drop_at 0 ps (c_del c))) as (c' & E & D & M & Hdel & He & Hm & Hen).
    + exact Ha.
    + refine (Dok_ghosts _ HD). apply Forall_forall. intros m _. apply HP.
    + destruct HM as [M0 M]. split; [exact M0|]. intros z Hz. apply M. apply in_or_app; right; exact Hz.
    + rewrite E. cbn [fst snd unit_out]. cbn [c_del with_del] in Hdel. rewrite Hdel.
      split; [|split; [exact He | split; [split; [exact Hs | reflexivity] | split; [exact Hm | exact Hen]]]].
      destruct He as [Hk _]. split; [rewrite Hdel; eapply Dok_perm; [symmetry; exact Hq | exact D]|].
      split; [rewrite Hdel; eapply Mok_perm; [symmetry; exact Hq | exact M]|].
      rewrite Hdel, Hk. eapply Forall_perm; [symmetry; exact Hq|]. apply Forall_app. split; [exact Ha | apply HF].
Qed.

(** a plain list does one thing *)
Lemma list_does_det l x l1 r1 l2 r2 : list_does l x l1 r1 -> list_does l x l2 r2 -> l1 = l2.
Proof.
  unfold list_does. destruct x as [o | i j st | i j st ms].
  - intros [-> _] [-> _]. reflexivity.
  - destruct (st =? 0); intros [-> _] [-> _]; reflexivity.
  - destruct (st =? 0); [intros [-> _] [-> _]; reflexivity|]. destruct (st =? 1); [intros [-> _] [-> _]; reflexivity|]. cbv zeta.
    destruct (zlen (taken_positions (zlen l) i j st) =? zlen ms) eqn:E; [|intros [-> _] [-> _]; reflexivity].
    intros [H1 _] [H2 _]. refine (stored_unique _ H1 H2). apply Z.eqb_eq in E. apply Nat2Z.inj. exact E.
Qed.

Lemma below_maxend P c seg : Inv P c -> furthest_last (c_del c) seg -> Forall (fun x => m_end x < c_maxend c) (removelast seg).
Proof. intros (_ & [_ HM] & _) H. apply Forall_forall. intros x Hx. destruct (H x Hx) as (y & Hy & Hlt). specialize (HM y Hy). lia. Qed.
Lemma xstep_ok P k c x asked : c_kind c = k -> Inv P c -> (asked = true -> c_ending c <> None) ->
  xacceptable k asked (c_del c) [x] -> (xassigns x = false \/ forall m, P m) ->
  Inv P (fst (xstep c x)) /\ same_env c (fst (xstep c x)) /\ list_does (c_del c) x (c_del (fst (xstep c x))) (snd (xstep c x))
  /\ c_maxend c <= c_maxend (fst (xstep c x))
  /\ (match x with XOp (OEnding _) => true | _ => asked end = true -> c_ending (fst (xstep c x)) <> None).
Proof.
  intros Hk HI Hasked (A1 & A2 & _) Hna. rewrite <- Hk in A1. destruct x as [o | i j st | i j st ms]; cbn [xstep list_does xhanded xassigns] in *.
  - destruct (@step_ok P c o HI A1) as (S1 & S2 & S3 & S4 & S5 & S6).
    + intro Ha. destruct Hna as [Hna|Hna]; [congruence | exact Hna].
    + destruct o; auto. destruct A2 as [A2|A2]; [left; auto | right; eapply furthest_below; [exact HI | exact A2]].
    + split; [exact S1|]. split; [exact S2|]. split; [split; assumption|]. split; [exact S5|]. destruct o; auto.
      intros _. cbn [step]. unfold q_ending. cbn. discriminate.
  - destruct (st =? 0) eqn:E0.
    + unfold delstep. rewrite E0. cbn [fst snd unit_out]. split; [exact HI|]. split; [apply same_env_refl|]. split; [auto|]. split; [lia | auto].
    + destruct (@delstep_outcome P c i j st HI ltac:(lia)) as (Hd & seg & Hr & Hok & _).
      destruct Hok as (c' & E & HI' & He & Hm & Hen).
      { destruct A2 as [A2|A2]; [left; auto | right; apply (below_maxend HI (A2 _ Hr))]. }
      rewrite E in *. cbn [fst snd unit_out] in *. split; [exact HI'|]. split; [exact He|]. split; [auto|]. split; [exact Hm | auto].
  - destruct Hna as [Hna|Hna]; [discriminate Hna|].
    destruct (@setstep_ok P c i j st ms HI A1 Hna) as (S1 & S2 & S3 & S4 & S5).
    destruct (setstep c i j st (SList ms)) as [c' r] eqn:E. cbn [fst snd unit_out] in *. auto 10.
Qed.
Lemma xrun_ok P k xs : forall asked c, c_kind c = k -> Inv P c -> (asked = true -> c_ending c <> None) ->
  xacceptable k asked (c_del c) xs -> (forallb (fun x => negb (xassigns x)) xs = true \/ forall m, P m) ->
  Inv P (xrun c xs) /\ same_env c (xrun c xs) /\ list_history (c_del c) xs (c_del (xrun c xs)).
Proof.
  induction xs as [|x xs IH]; intros asked c Hk HI Hasked Hacc Hna.
  - split; [exact HI|]. split; [apply same_env_refl | constructor].
  - destruct Hacc as (A1 & A2 & A3). cbn [forallb] in Hna.
    destruct (@xstep_ok P k c x asked Hk HI Hasked) as (S1 & S2 & S3 & _ & S5).
    { split; [exact A1|]. split; [exact A2 | intros; exact I]. }
    { destruct Hna as [Hna|Hna]; [left; destruct (xassigns x); [discriminate Hna | reflexivity] | right; exact Hna]. }
    destruct (IH (match x with XOp (OEnding _) => true | _ => asked end) (fst (xstep c x))) as (I1 & I2 & I3).
    + destruct S2 as [-> _]. exact Hk.
    + exact S1.
    + exact S5.
    + exact (A3 _ _ S3).
    + destruct Hna as [Hna|Hna]; [left; apply andb_prop in Hna; apply Hna | right; exact Hna].
    + unfold xrun. cbn [fold_left]. split; [exact I1|]. split; [eapply same_env_trans; eassumption|]. econstructor; [exact S3 | exact I3].
Qed.

(** ** C123 *)
(** Contents: after any acceptable history of calls, slices with a step included, the collection
    holds what a plain list holds, and the last call returned what it returns on a list. *)
Theorem C123_like_a_list : forall k input xs x,
  xacceptable k false [] (xs ++ [x]) ->
  let c := xrun (empty_coll k input) xs in
  exists l, list_history [] xs l /\ c_del c = l
    /\ list_does l x (c_del (fst (xstep c x))) (snd (xstep c x)).
Proof.
  intros k input xs x H c.
  assert (forall asked l, xacceptable k asked l (xs ++ [x]) -> xacceptable k asked l xs) as Hpre.
  { clear. induction xs as [|y xs IH]; intros asked l H; [exact I|]. destruct H as (A & B & C). split; [exact A|]. split; [exact B|]. intros l' o Hd. apply IH, (C _ _ Hd). }
  assert (forall asked l0 l, xacceptable k asked l0 (xs ++ [x]) -> list_history l0 xs l -> exists asked', xacceptable k asked' l [x]
    /\ forall c, (asked = true -> c_ending c <> None) -> c_del c = l0 -> c_kind c = k -> Inv (fun _ => True) c -> (asked' = true -> c_ending (xrun c xs) <> None)) as Hlast.
  { clear. induction xs as [|y xs IH]; intros asked l0 l H Hh; inversion Hh as [|? ? l1 o1 ? ? Hd1 Hh1]; subst.
    - exists asked. split; [exact H|]. intros c Hc _ _ _. exact Hc.
    - destruct H as (A & B & C). destruct (IH _ _ _ (C _ _ Hd1) Hh1) as (asked' & H & Hx). exists asked'. split; [exact H|].
      intros c Hc Hd Hk HI Ha. refine (Hx (fst (xstep c y)) _ _ _ _ Ha);
      destruct (@xstep_ok (fun _ => True) k c y asked Hk HI Hc) as (S1 & S2 & S3 & _ & S5); auto; subst l0;
        try (split; [exact A|]; split; [exact B | intros; exact I]).
      + exact (list_does_det S3 Hd1).
      + destruct S2 as [-> _]. exact Hk. }
  destruct (@xrun_ok (fun _ => True) k xs false (empty_coll k input) eq_refl) as (R1 & R2 & R3); [apply Inv_empty | discriminate | exact (Hpre _ _ H) | right; intros; exact I|].
  exists (c_del c). split; [exact R3|]. split; [reflexivity|].
  destruct (Hlast _ _ _ H R3) as (asked' & Ha & Hx).
  destruct (@xstep_ok (fun _ => True) k c x asked') as (_ & _ & S3 & _); auto.
  - destruct R2 as [R2 _]. exact R2.
  - apply Hx; auto; [discriminate | apply Inv_empty].
Qed.
(** Lookups: without assignments, every lookup agrees with the contents. *)
Theorem C123_lookups : forall k input xs,
  xacceptable k false [] xs -> forallb (fun x => negb (xassigns x)) xs = true ->
  lookups_agree (xrun (empty_coll k input) xs).
Proof.
  intros k input xs H Hn. apply Inv_agree.
  destruct (@xrun_ok no_ghost k xs false (empty_coll k input) eq_refl) as (R1 & _); [apply Inv_empty | discriminate | exact H | left; exact Hn | exact R1].
Qed.
(** Reading: the members at the positions, in the order of the walk, in a new collection whose
    lookups agree; step 0 is refused. *)
Theorem C123_read : forall input xs i j st,
  xacceptable KMatches false [] xs ->
  let c := xrun (empty_coll KMatches input) xs in
  if st =? 0 then snd (getstep c i j st) = Err ValueError
  else exists c', getstep c i j st = (c', Ok tt)
       /\ reads (c_del c) (taken_positions (zlen (c_del c)) i j st) (c_del c')
       /\ lookups_agree c'.
Proof.
  intros input xs i j st H c. unfold getstep. destruct (st =? 0) eqn:E0; [reflexivity|].
  destruct (@xrun_ok (fun _ => True) KMatches xs false (empty_coll KMatches input) eq_refl) as ((_ & _ & HF) & [Hk _] & _); [apply Inv_empty | discriminate | exact H | right; intros; exact I|].
  fold c in HF, Hk. rewrite walk_is by lia. set (ps := taken_positions (zlen (c_del c)) i j st).
  set (part := pick_at (c_del c) ps).
  assert (Permutation (c_del c) (part ++ drop_at 0 ps (c_del c))) as Hp by (apply pick_at_perm; [apply ps_nodup | apply ps_in]).
  assert (acceptable KMatches false [] [OExtend part]) as Ha.
  { cbn [acceptable handed]. split; [|auto]. apply (Forall_perm Hp) in HF. apply Forall_app in HF as [HF _]. rewrite Hk in HF. exact HF. }
  destruct (@reached_ok KMatches None [OExtend part] Ha eq_refl) as (HI & Hd' & _). unfold reached in HI, Hd'. cbn [run fold_left step fst] in HI, Hd'.
  destruct (@refines_list KMatches None [] (OExtend part) Ha) as (_ & _ & H3). specialize (H3 eq_refl). cbn [run fold_left step snd list_step list_run] in H3.
  destruct (extend (empty_coll KMatches None) part) as [c' [[]|e]] eqn:E; cbn [fst snd unit_out] in HI, Hd', H3 |- *; [|discriminate].
  exists c'. split; [reflexivity|]. split; [|apply Inv_agree; exact HI]. rewrite Hd'. cbn [list_run fold_left list_step fst app].
  apply pick_reads, ps_in.
Qed.
(** Deleting, with no condition on the call itself: the members always leave the list; the call
    raises only in the case told in C83 ([stuck]), does raise then if no call made before could have
    filled the register of ends, and never once [ending] was called. *)
Theorem C123_delete : forall k input ops i j st,
  acceptable k false [] ops -> st <> 0 ->
  let l := list_run [] ops in
  let ps := taken_positions (zlen l) i j st in
  let r := xstep (run (empty_coll k input) ops) (XDel i j st) in
  c_del (fst r) = without l ps
  /\ exists seg, reads l ps seg
     /\ (snd r = RUnit \/ (snd r = RErr ValueError /\ stuck seg (without l ps) (furthest (added_since [] ops))))
     /\ (forallb (fun o => negb (may_need ByEnd o)) ops = true -> stuck seg (without l ps) (furthest (added_since [] ops)) -> snd r = RErr ValueError)
     /\ (existsb (asks ByEnd) ops = true -> snd r = RUnit).
Proof.
  intros k input ops i j st Hacc Hst l ps r.
  destruct (@run_ok (fun _ => True) k ops false (empty_coll k input)) as (HI & He & Hd & _); auto; try discriminate; [apply Inv_empty|].
  cbn [c_del empty_coll] in Hd. set (c := run (empty_coll k input) ops) in *. fold l in Hd.
  destruct (@delstep_outcome (fun _ => True) c i j st HI Hst) as (Hc & seg & Hr & Hok & Hout). rewrite Hd in Hc, Hr, Hout. fold ps in Hc, Hr, Hout.
  assert (snd r = match snd (delstep c i j st) with Ok _ => RUnit | Err e => RErr e end) as Er.
  { unfold r. cbn [xstep]. destruct (delstep c i j st) as [c' [[]|e]]; reflexivity. }
  split. { unfold r. cbn [xstep]. destruct (delstep c i j st) as [c' [[]|e]]; exact Hc. }
  exists seg. split; [exact Hr|].
  destruct (unfilled_dec ByEnd c) as [Hu|Hu]; cbn [unfilled] in Hu.
  - assert (c_maxend c = furthest (added_since [] ops)) as Htop by (apply unfilled_top; assumption). rewrite Htop in Hout.
    destruct (Hout Hu) as [[H1 H2]|[H1 H2]]; rewrite H1 in Er.
    + split; [left; exact Er|]. split; [intros _ Hs; contradiction | auto].
    + split; [right; auto|]. split; [auto|]. intro Hx. exfalso. apply existsb_exists in Hx as (o & Ho & Ha).
      destruct o; try discriminate. apply (unfilled_unasked Hacc Hu (e := i0)). exists (OEnding i0). auto.
  - destruct (Hok (or_introl Hu)) as (c' & E & _). rewrite E in Er. cbn [snd] in Er.
    split; [left; exact Er|]. split; [|auto]. intros Hm _. exfalso. apply Hu.
    destruct (@reach_filed k input ByEnd ops Hacc) as [[H _]|(be & af & E1 & _ & (b & o & E2 & Hmn) & _)]; [discriminate | exact H|].
    rewrite forallb_forall in Hm. specialize (Hm o). rewrite Hmn in Hm. discriminate Hm. rewrite E1, E2. rewrite !in_app_iff. left. right. left. reflexivity.
Qed.
(** Two special cases: without a step the plain slices; [l[::-1]] is the list reversed. *)
Lemma pick_range {A} (l : list A) : forall n a b, n = Z.to_nat (b - a) -> 0 <= a ->
  pick_at l (zrange a b) = firstn n (skipn (Z.to_nat a) l).
Proof.
  induction n as [|n IH]; intros a b En Ha.
  - rewrite zrange_nil by lia. reflexivity.
  - rewrite zrange_cons by lia. cbn [pick_at flat_map]. fold (pick_at l (zrange (a + 1) b)). rewrite IH by lia.
    replace (Z.to_nat (a + 1)) with (S (Z.to_nat a)) by lia.
    destruct (nth_error l (Z.to_nat a)) as [x|] eqn:E.
    + apply nth_error_split in E as (u & v & -> & Hu). rewrite <- Hu.
      assert (skipn (length u) (u ++ x :: v) = x :: v) as -> by (rewrite skipn_app, Nat.sub_diag, skipn_all; reflexivity).
      assert (skipn (S (length u)) (u ++ x :: v) = v) as ->.
      { replace (S (length u)) with (length (u ++ [x])) by (rewrite app_length; cbn [length]; lia).
        replace (u ++ x :: v) with ((u ++ [x]) ++ v) by (rewrite <- app_assoc; reflexivity).
        rewrite skipn_app, Nat.sub_diag, skipn_all. reflexivity. }
      reflexivity.
    + apply nth_error_None in E. rewrite !skipn_all2 by lia. destruct n; reflexivity.
Qed.
Lemma drop_range {A} (l : list A) : forall k a b, k <= a -> drop_at k (zrange a b) l = firstn (Z.to_nat (a - k)) l ++ skipn (Z.to_nat (Z.max a b - k)) l.
Proof.
  induction l as [|x l IH]; intros k a b H; cbn [drop_at]; [rewrite firstn_nil, skipn_nil; reflexivity|].
  destruct (existsb (Z.eqb k) (zrange a b)) eqn:E.
  - apply existsb_eqb, in_zrange in E. assert (k = a) as -> by lia. rewrite Z.sub_diag. cbn [Z.to_nat firstn app].
    rewrite (@drop_at_ext A l (a + 1) (zrange a b) (zrange (a + 1) b)) by (intros p Hp; rewrite !in_zrange; lia).
    rewrite IH by lia. rewrite Z.sub_diag. cbn [Z.to_nat firstn app].
    replace (Z.to_nat (Z.max a b - a)) with (S (Z.to_nat (Z.max (a + 1) b - (a + 1)))) by lia. reflexivity.
  - assert (~ (a <= k < b)) as Hk by (rewrite <- in_zrange, <- existsb_eqb, E; discriminate).
    destruct (Z.eq_dec k a) as [->|Hne].
    + replace (Z.to_nat (a - a)) with 0%nat by lia. replace (Z.to_nat (Z.max a b - a)) with 0%nat by lia. cbn [firstn skipn app]. f_equal.
      rewrite zrange_nil by lia. clear. generalize (a + 1). induction l as [|y l IH]; intro k; cbn [drop_at existsb]; [reflexivity | f_equal; apply IH].
    + rewrite IH by lia. replace (Z.to_nat (a - k)) with (S (Z.to_nat (a - (k + 1)))) by lia.
      replace (Z.to_nat (Z.max a b - k)) with (S (Z.to_nat (Z.max a b - (k + 1)))) by lia. reflexivity.
Qed.
Lemma taken_one n i j : 0 <= n ->
  taken_positions n i j 1 = zrange (match i with None => 0 | Some i => py_clip n i end) (match j with None => n | Some j => py_clip n j end).
Proof.
  intro Hn. unfold taken_positions, taken_up. cbn [Z.ltb Z.compare]. apply sorted_same; [apply filter_sorted, zrange_sorted | apply zrange_sorted|].
  intro p. rewrite filter_In, !in_zrange, Z.mod_1_r. unfold real, py_clip. destruct i as [i|], j as [j|];
    repeat match goal with |- context [if ?x <? 0 then _ else _] => destruct (x <? 0) eqn:? end; lia.
Qed.
Theorem C123_step_one : forall c i j, getstep c i j 1 = getslice c i j /\ delstep c i j 1 = delslice c i j /\ forall ms, setstep c i j 1 (SList ms) = setslice c i j ms.
Proof.
  intros c i j. unfold getstep, delstep, getslice, delslice. cbn [Z.eqb]. rewrite !slice_walk_taken, !taken_one by (unfold zlen; lia).
  set (a := match i with None => 0 | Some i => py_clip (zlen (c_del c)) i end). set (b := match j with None => zlen (c_del c) | Some j => py_clip (zlen (c_del c)) j end).
  assert (0 <= a) as Ha by (unfold a, py_clip, zlen; destruct i as [i|]; [destruct (i <? 0) eqn:E|]; lia).
  assert (pick_at (c_del c) (zrange a b) = py_slice (c_del c) i j) as ->.
  { unfold py_slice. fold a b. apply pick_range; [reflexivity | exact Ha]. }
  assert (drop_at 0 (zrange a b) (c_del c) = py_unslice (c_del c) i j) as ->.
  { unfold py_unslice. fold a b. rewrite drop_range by exact Ha. rewrite !Z.sub_0_r. reflexivity. }
  split; [reflexivity|]. split; [reflexivity|]. intro ms. reflexivity.
Qed.
Theorem C123_reversed : forall input xs,
  xacceptable KMatches false [] xs ->
  let c := xrun (empty_coll KMatches input) xs in
  exists c', getstep c None None (-1) = (c', Ok tt) /\ c_del c' = rev (c_del c) /\ lookups_agree c'.
Proof.
  intros input xs H c. destruct (@C123_read input xs None None (-1) H) as (c' & E & R & L). fold c in E, R.
  exists c'. split; [exact E|]. split; [|exact L]. refine (reads_unique R _).
  assert (taken_positions (zlen (c_del c)) None None (-1) = rev (zrange 0 (zlen (c_del c)))) as ->.
  { unfold taken_positions, taken_down. cbn [Z.ltb Z.compare]. f_equal. apply filter_all. intros p Hp. apply in_zrange in Hp. rewrite Z.mod_1_r. lia. }
  assert (reads (c_del c) (rev (zrange 0 (zlen (c_del c)))) (pick_at (c_del c) (rev (zrange 0 (zlen (c_del c)))))) as Hr.
  { apply pick_reads. intros p Hp. apply in_rev, in_zrange in Hp. exact Hp. }
  replace (rev (c_del c)) with (pick_at (c_del c) (rev (zrange 0 (zlen (c_del c))))); [exact Hr|].
  assert (forall (l : list mtch) ps, pick_at l (rev ps) = rev (pick_at l ps)) as Hrev.
  { clear. intros l ps. unfold pick_at. induction ps as [|p ps IH]; [reflexivity|]. cbn [rev flat_map]. rewrite flat_map_app, IH. cbn [flat_map]. rewrite rev_app_distr, app_nil_r.
    destruct (nth_error l (Z.to_nat p)); reflexivity. }
  rewrite Hrev. f_equal. rewrite (@pick_range _ _ (length (c_del c)) 0 (zlen (c_del c))) by (unfold zlen; lia). apply firstn_all.
Qed.
Example C123_example :
  let ms := [mk_match 1 0 5; mk_match 2 1 3; mk_match 3 2 9; mk_match 4 3 4; mk_match 5 6 8] in
  let xs := [XOp (OExtend ms); XOp (OEnding 3); XDel None None (-2)] in
  xacceptable KMatches false [] xs
  /\ c_del (xrun (empty_coll KMatches ex_input) xs) = [mk_match 2 1 3; mk_match 4 3 4]
  /\ c_del (fst (getstep (run (empty_coll KMatches ex_input) [OExtend ms]) (Some 3) (Some (-5)) (-2))) = [mk_match 4 3 4; mk_match 2 1 3]
  /\ snd (xstep (run (empty_coll KMatches ex_input) [OExtend ms]) (XSet None None 2 [mk_match 6 0 1])) = RErr ValueError
  /\ c_del (fst (xstep (run (empty_coll KMatches ex_input) [OExtend ms]) (XSet (Some 1) None 3 [mk_match 6 0 1; mk_match 7 0 2])))
     = [mk_match 1 0 5; mk_match 6 0 1; mk_match 3 2 9; mk_match 4 3 4; mk_match 7 0 2].
Proof.
  intros ms xs. split; [|repeat split; reflexivity]. subst xs. cbn [xacceptable xhanded handed].
  split; [repeat constructor|]. split; [exact I|]. intros l1 r1 _. split; [constructor|]. split; [exact I|]. intros l2 r2 _.
  split; [constructor|]. split; [left; reflexivity | intros; exact I].
Qed.

(** ** C124: what may stand on the right of a slice assignment *)
(** every member is found by the lookups that concern it (others may be found too) *)
Definition finds_members (c : coll) : Prop :=
  (forall n, n <> [] -> exists r g, snd (step c (ONamed [n])) = RList r /\ same_members r (filter (name_is n) (g ++ c_del c)))
  /\ (forall t, exists r g, snd (step c (OTagged t)) = RList r /\ same_members r (tagged_members t (g ++ c_del c)))
  /\ (forall i, exists r g, snd (step c (OStarting i)) = RList r /\ same_members r (filter (starts_at i) (g ++ c_del c)))
  /\ (forall i, exists r g, snd (step c (OEnding i)) = RList r /\ same_members r (filter (ends_at i) (g ++ c_del c)))
  /\ (forall i, exists r g, snd (step c (OAtIndex i)) = RList r /\ same_members r (filter (coversb i) (g ++ c_del c))).
Lemma Inv_finds c : Inv (fun _ => True) c -> finds_members c.
Proof.
  intros (HD & _). split; [|split; [|split; [|split]]]; [intros n Hn | intro n | intro n | intro n | intro n].
  - destruct (named_dict_ok HD) as (g & _ & Hok). eexists; exists g. split; [rewrite lookup_answer by reflexivity; reflexivity|].
    apply perm_same_members. simpl. rewrite app_nil_r, <- occ_name by exact Hn. apply Hok.
  - destruct (tagged_dict_ok HD) as (g & _ & Hok). eexists; exists g. split; [rewrite lookup_answer by reflexivity; reflexivity|].
    apply perm_same_members. rewrite <- occ_tag. apply Hok.
  - destruct (starting_dict_ok HD) as (g & _ & Hok). eexists; exists g. split; [rewrite lookup_answer by reflexivity; reflexivity|].
    apply perm_same_members. rewrite <- occ_start. apply Hok.
  - destruct (@ending_dict_ok (fun _ => True) c (c_del c)) as (g & _ & Hok); [apply HD | reflexivity |].
    eexists; exists g. split; [rewrite lookup_answer by reflexivity; reflexivity|].
    apply perm_same_members. rewrite <- occ_end. apply Hok.
  - destruct (indexed_dict_ok HD) as (g & _ & Hok). eexists; exists g. split; [rewrite lookup_answer by reflexivity; reflexivity|].
    apply perm_same_members. rewrite <- occ_at. apply Hok.
Qed.
Lemma Dok_agree c : Dok no_ghost c (c_del c) -> lookups_agree c.
Proof.
  intro HD. split; [|split; [|split; [|split]]]; [intros n Hn | intro n | intro n | intro n | intro n].
  - destruct (named_dict_ok HD) as (g & Hg & Hok). rewrite (ghost_nil Hg) in Hok. eexists. split; [rewrite lookup_answer by reflexivity; reflexivity|].
    apply perm_same_members. simpl. rewrite app_nil_r, <- occ_name by exact Hn. apply Hok.
  - destruct (tagged_dict_ok HD) as (g & Hg & Hok). rewrite (ghost_nil Hg) in Hok. eexists. split; [rewrite lookup_answer by reflexivity; reflexivity|].
    apply perm_same_members. rewrite <- occ_tag. apply Hok.
  - destruct (starting_dict_ok HD) as (g & Hg & Hok). rewrite (ghost_nil Hg) in Hok. eexists. split; [rewrite lookup_answer by reflexivity; reflexivity|].
    apply perm_same_members. rewrite <- occ_start. apply Hok.
  - destruct (@ending_dict_ok no_ghost c (c_del c)) as (g & Hg & Hok); [apply HD | reflexivity |]. rewrite (ghost_nil Hg) in Hok.
    eexists. split; [rewrite lookup_answer by reflexivity; reflexivity|].
    apply perm_same_members. rewrite <- occ_end. apply Hok.
  - destruct (indexed_dict_ok HD) as (g & Hg & Hok). rewrite (ghost_nil Hg) in Hok. eexists. split; [rewrite lookup_answer by reflexivity; reflexivity|].
    apply perm_same_members. rewrite <- occ_at. apply Hok.
Qed.
Lemma assign_list_does l i j st ms :
  match assign_list l i j st ms with
  | Some l' => list_does l (XSet i j st ms) l' RUnit /\ incl l' (l ++ ms)
  | None => list_does l (XSet i j st ms) l (RErr ValueError)
  end.
Proof.
  unfold assign_list, list_does. destruct (st =? 0) eqn:E0; [auto|]. destruct (st =? 1) eqn:E1.
  - split; [auto|]. intros x Hx. rewrite !in_app_iff in *. destruct Hx as [Hx|[Hx|Hx]]; [left | auto | left].
    + rewrite <- (firstn_skipn (Z.to_nat match i with Some i0 => py_clip (zlen l) i0 | None => 0 end) l). apply in_or_app. left. exact Hx.
    + rewrite <- (firstn_skipn (Z.to_nat (Z.max match i with Some i0 => py_clip (zlen l) i0 | None => 0 end match j with Some j0 => py_clip (zlen l) j0 | None => zlen l end)) l). apply in_or_app. right. exact Hx.
  - rewrite walk_is by lia. cbv zeta. destruct (zlen (taken_positions (zlen l) i j st) =? zlen ms) eqn:E; [|auto].
    assert (length (taken_positions (zlen l) i j st) = length ms) as Hl by (apply Nat2Z.inj, Z.eqb_eq, E).
    assert (stored l (taken_positions (zlen l) i j st) ms (store_at l (taken_positions (zlen l) i j st) ms)) as Hs
      by (apply store_stored; [apply ps_nodup | apply ps_in | exact Hl]).
    split; [auto|]. intros x Hx.
    apply (Permutation_in _ (stored_perm (ps_nodup _ _ _ _) (@ps_in l i j st) Hl Hs)) in Hx. rewrite in_app_iff in *. destruct Hx as [Hx|Hx]; [auto|]. left.
    rewrite drop_without in Hx. unfold without in Hx. apply in_map_iff in Hx as ([p y] & <- & Hy). apply filter_In in Hy as [Hy _]. apply in_combine_r in Hy. exact Hy.
Qed.
(** From a list (any iterable that can be walked twice) and from the collection itself: the
    contents of a list, and every member is found. *)
Theorem C124_walked_again : forall k input ops i j st src,
  acceptable k false [] ops ->
  let c := run (empty_coll k input) ops in
  let ms := match src with SList ms | SIter ms => ms | SSelf => c_del c end in
  (match src with SIter _ => False | _ => True end) -> Forall (fun m => accepts k m = true) ms ->
  let r := setstep c i j st src in
  list_does (list_run [] ops) (XSet i j st ms) (c_del (fst r)) (snd (unit_out r)) /\ finds_members (fst r).
Proof.
  intros k input ops i j st src Hacc c ms Hsrc Hms r.
  destruct (@run_ok (fun _ => True) k ops false (empty_coll k input)) as (HI & [Hk _] & Hd & _); [reflexivity | apply Inv_empty | discriminate | exact Hacc | right; intros; exact I |].
  fold c in HI, Hk, Hd. cbn [c_del empty_coll c_kind] in Hd, Hk. rewrite <- Hd.
  assert (forall m, (fun _ : mtch => True) m) as HP by (intros; exact I). rewrite <- Hk in Hms.
  destruct src as [ms' | ms' |]; [| contradiction |].
  - destruct (@setstep_ok (fun _ => True) c i j st ms' HI Hms HP) as (S1 & _ & S3 & _). split; [exact S3 | apply Inv_finds, S1].
  - subst r. unfold setstep. pose proof (assign_list_does (c_del c) i j st (c_del c)) as H. subst ms.
    destruct (assign_list (c_del c) i j st (c_del c)) as [l'|]; cbn [fst snd unit_out]; [|split; [exact H | apply Inv_finds, HI]].
    destruct H as [H Hin]. destruct HI as (HD & HM & HF).
    assert (Forall (fun m => accepts (c_kind c) m = true) l') as Hl'.
    { apply Forall_forall. intros x Hx. apply Hin in Hx. rewrite in_app_iff in Hx. rewrite Forall_forall in HF. apply HF. tauto. }
    destruct (@add_matches_ok (fun _ => True) l' (with_del c l') []) as (c' & E & D & M & Hdel & [Hk' _] & _).
    + exact Hl'.
    + rewrite <- (app_nil_r (c_del c)) in HD. refine (Dok_ghosts _ HD). apply Forall_forall. intros; exact I.
    + destruct HM as [M0 _]. split; [exact M0|]. intros m [].
    + rewrite E. cbn [fst snd unit_out]. cbn [c_del with_del] in Hdel. rewrite Hdel. split; [exact H|].
      rewrite app_nil_r in D, M. unfold finds_members. apply (Inv_finds (c := c')).
      split; [rewrite Hdel; exact D|]. split; [rewrite Hdel; exact M|].
      rewrite Hdel, Hk'. exact Hl'.
Qed.
(** Full statement (any iterable) refuted for iterators, which the list assignment exhausts: the
    matches are in the list but unknown to the lookups made before, so that deleting one of them
    raises; even a marker gets in.  Assigned to a slice of itself, the collection lists its members
    twice in its lookups. *)
Theorem C124_iterator_refuted :
  let c := run (empty_coll KMatches ex_input) [OAppend ex_a; ONamed [s "foo"]] in
  let r := setstep c (Some 1) None 1 (SIter [ex_c]) in
  snd r = Ok tt /\ c_del (fst r) = [ex_a; ex_c]
  /\ snd (step (fst r) (ONamed [s "foo"])) = RList [ex_a]
  /\ snd (step (fst (setstep c (Some 1) None 1 (SList [ex_c]))) (ONamed [s "foo"])) = RList [ex_a; ex_c]
  /\ snd (step (fst r) (ODelitem 1)) = RErr ValueError
  /\ (let k := set_marker ex_c true in
      snd (setstep c (Some 1) None 1 (SIter [k])) = Ok tt /\ c_del (fst (setstep c (Some 1) None 1 (SIter [k]))) = [ex_a; k]
      /\ snd (setstep c (Some 1) None 1 (SList [k])) = Err AssertionError)
  /\ snd (step (fst (setstep c None None 1 SSelf)) (ONamed [s "foo"])) = RList [ex_a; ex_a].
Proof. repeat split; reflexivity. Qed.
(** What holds for iterators: the contents of a list; as long as nothing was looked up nor deleted,
    every lookup agrees; but a lookup of a family asked before answers as if nothing had been assigned. *)
Theorem C124_iterator_partial : forall k input ops i j st ms,
  acceptable k false [] ops -> Forall (fun m => accepts k m = true) ms ->
  let c := run (empty_coll k input) ops in
  let r := setstep c i j st (SIter ms) in
  list_does (list_run [] ops) (XSet i j st ms) (c_del (fst r)) (snd (unit_out r))
  /\ (forallb is_build ops = true -> lookups_agree (fst r))
  /\ (forall f o o', asks f o = true -> asks f o' = true ->
        let c1 := fst (step c o) in
        snd (step (fst (setstep c1 i j st (SIter ms))) o') = snd (step c1 o')).
Proof.
  intros k input ops i j st ms Hacc Hms c r.
  destruct (@run_ok (fun _ => True) k ops false (empty_coll k input)) as (HI & [Hk _] & Hd & _); [reflexivity | apply Inv_empty | discriminate | exact Hacc | right; intros; exact I |].
  fold c in HI, Hk, Hd. cbn [c_del empty_coll c_kind] in Hd, Hk. rewrite <- Hd.
  split; [|split].
  - subst r. unfold setstep. pose proof (assign_list_does (c_del c) i j st ms) as H. destruct (assign_list (c_del c) i j st ms) as [l'|]; [apply H | exact H].
  - intro Hb. assert (unbuilt c) as (U1 & U2 & U3 & U4 & U5) by (apply unbuilt_run; [exact Hb | repeat split]).
    subst r. unfold setstep. pose proof (assign_list_does (c_del c) i j st ms) as H.
    destruct (assign_list (c_del c) i j st ms) as [l'|]; cbn [fst add_matches].
    + apply Dok_agree. unfold Dok, with_del. cbn [c_named c_tagged c_starting c_ending c_indexed]. rewrite U1, U2, U3, U4, U5. repeat split.
    + apply Inv_agree, unbuilt_Inv; [repeat split; assumption | exact HI].
  - intros f o o' Ho Ho' c1. pose proof (@asks_fills f c o Ho) as Hf. fold c1 in Hf.
    unfold setstep. destruct (assign_list (c_del c1) i j st ms) as [l'|]; cbn [fst add_matches]; [|reflexivity].
    assert (is_lookup o' = true) as Hl by (destruct f, o'; try discriminate Ho'; reflexivity).
    destruct (is_keys o') eqn:Ek.
    + destruct f, o'; try discriminate Ho'; try discriminate Ek; cbn [step]; unfold q_names, q_tags, named_dict, tagged_dict; cbn [snd];
      cbn [unfilled] in Hf; cbn [c_named c_tagged with_del snd];
      match goal with |- context [match ?x with Some _ => _ | None => _ end] => destruct x; [reflexivity | exfalso; apply Hf; reflexivity] end.
    + rewrite !lookup_answer by assumption.
      destruct f, o'; try discriminate Ho'; try discriminate Ek; cbn [answer]; unfold vname, vtag, vstart, vend, vat, named_dict, tagged_dict, starting_dict, ending_dict, indexed_dict;
      cbn [unfilled] in Hf; cbn [c_named c_tagged c_starting c_ending c_indexed with_del];
      match goal with |- context [match ?x with Some _ => _ | None => _ end] => destruct x; [reflexivity | exfalso; apply Hf; reflexivity] end.
Qed.
Example C124_example :
  let ops := [OExtend [ex_a; ex_b]; OSetitem 0 ex_c] in
  acceptable KMatches false [] ops /\ forallb is_build ops = true
  /\ c_del (fst (setstep (run (empty_coll KMatches ex_input) ops) None (Some 1) 1 (SIter [ex_a; ex_b]))) = [ex_a; ex_b; ex_b]
  /\ snd (step (fst (setstep (run (empty_coll KMatches ex_input) ops) None (Some 1) 1 (SIter [ex_a]))) (ONamed [s "foo"])) = RList [ex_a]
  /\ c_del (fst (setstep (run (empty_coll KMatches ex_input) ops) (Some 0) (Some 0) 1 SSelf)) = [ex_c; ex_b; ex_c; ex_b].
Proof. repeat split; simpl; repeat constructor. Qed.
