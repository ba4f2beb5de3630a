(** * C102: what RemoveMatch and the removal of private matches leave, over every history *)
From Verif Require Import Base BaseFacts Match Spec MatchFacts Coll CollFacts CollQuery CollSem CollSem2 SpecColl CollHist CollUniv
  Conseq ConseqFacts PropsLoose PropsColl PropsConseq Processors ProcFacts PropsProc.
From Coq Require Import ZifyBool.
Export Coq.Strings.String.StringSyntax.
Set Implicit Arguments.
Unset Strict Implicit.
Open Scope Z_scope.

(** each member with those standing before it *)
Fixpoint befores (a l : list mtch) : list (list mtch * mtch) :=
  match l with [] => [] | x :: r => (a, x) :: befores (a ++ [x]) r end.
Definition how_many (x : mtch) (l : list mtch) : nat := length (filter (meq x) l).
(** Of the members [==] to one another, as many go as there are [==] matches in [ms]: the first
    ones.  A member stays iff at least that many stand before it. *)
Definition left_over (ms l : list mtch) : list mtch :=
  map snd (filter (fun bx => Nat.leb (how_many (snd bx) ms) (how_many (snd bx) (fst bx))) (befores [] l)).

Lemma how_many_meq x y l : meq x y = true -> how_many x l = how_many y l.
Proof.
  intro E. unfold how_many. f_equal. apply filter_ext. intro z. apply meq_mkey in E.
  destruct (meq y z) eqn:Ez; [apply meq_mkey; apply meq_mkey in Ez; congruence | apply meq_false_mkey; apply meq_false_mkey in Ez; congruence].
Qed.
Lemma take_out_all_cons x l ms :
  take_out_all (x :: l) ms = match remove_first (meq x) ms with Some ms' => take_out_all l ms' | None => x :: take_out_all l ms end.
Proof.
  destruct (remove_first (meq x) ms) as [ms'|] eqn:E.
  - apply remove_first_Some in E as (a & m & b & -> & Hm & _ & ->).
    rewrite (@take_out_all_perm _ (m :: a ++ b)); [|symmetry; apply Permutation_middle]. unfold take_out_all. cbn [fold_left]. f_equal.
    unfold take_out. cbn [remove_first]. assert (meq m x = true) as -> by (apply meq_mkey; apply meq_mkey in Hm; congruence). reflexivity.
  - revert l E. induction ms as [|m ms IH]; intros l E; [reflexivity|]. cbn [remove_first] in E. destruct (meq x m) eqn:Em; [discriminate|].
    destruct (remove_first (meq x) ms) eqn:E2; [discriminate|]. unfold take_out_all. cbn [fold_left].
    assert (take_out (x :: l) m = x :: take_out l m) as ->.
    { unfold take_out. cbn [remove_first]. assert (meq m x = false) as -> by (apply meq_false_mkey; apply meq_false_mkey in Em; congruence).
      destruct (remove_first (meq m) l); reflexivity. }
    fold (take_out_all (x :: take_out l m) ms). rewrite IH by reflexivity. reflexivity.
Qed.
Lemma how_many_remove x y ms ms' : remove_first (meq x) ms = Some ms' -> how_many y ms' = (how_many y ms - (if meq y x then 1 else 0))%nat.
Proof.
  intro E. apply remove_first_Some in E as (a & m & b & -> & Hm & _ & ->). unfold how_many. rewrite !filter_app, !app_length. cbn [filter].
  assert (meq y m = meq y x) as ->.
  { apply meq_mkey in Hm. destruct (meq y x) eqn:E; [apply meq_mkey; apply meq_mkey in E; congruence | apply meq_false_mkey; apply meq_false_mkey in E; congruence]. }
  destruct (meq y x); cbn [length]; lia.
Qed.
Lemma take_out_all_left ms l : take_out_all l ms = left_over ms l.
Proof.
  unfold left_over. assert (forall seen m0, (forall y, how_many y m0 = how_many y ms - how_many y seen)%nat ->
    take_out_all l m0 = map snd (filter (fun bx => Nat.leb (how_many (snd bx) ms) (how_many (snd bx) (fst bx))) (befores seen l))) as G;
    [|apply G; intro; unfold how_many; cbn; lia].
  induction l as [|x l IH]; intros seen m0 H.
  - cbn. clear. induction m0 as [|m m0 IH]; [reflexivity|]. exact IH.
  - rewrite take_out_all_cons. cbn [befores filter fst snd]. pose proof (H x) as Hx.
    assert (forall y, how_many y (seen ++ [x]) = how_many y seen + (if meq y x then 1 else 0))%nat as Hs.
    { intro y. unfold how_many. rewrite filter_app, app_length. cbn [filter]. destruct (meq y x); reflexivity. }
    destruct (remove_first (meq x) m0) as [m1|] eqn:E.
    + assert (Nat.leb (how_many x ms) (how_many x seen) = false) as ->.
      { apply Nat.leb_gt. apply remove_first_Some in E as (a & m & b & -> & Hm & _ & ->). unfold how_many at 1 in Hx.
        rewrite filter_app, app_length in Hx. cbn [filter] in Hx. rewrite Hm in Hx. cbn [length] in Hx. lia. }
      apply IH. intro y. rewrite Hs, (how_many_remove _ E), H. lia.
    + assert (how_many x m0 = 0%nat) as H0.
      { unfold how_many. assert (filter (meq x) m0 = []) as ->; [|reflexivity]. apply filter_nil_iff. intros z Hz.
        destruct (meq x z) eqn:Ez; [|reflexivity]. exfalso. clear -E Hz Ez. induction m0 as [|w m0 IH]; [destruct Hz|]. cbn [remove_first] in E.
        destruct (meq x w) eqn:Ew; [discriminate|]. destruct (remove_first (meq x) m0); [discriminate|]. destruct Hz as [-> |Hz]; [congruence | auto]. }
      assert (Nat.leb (how_many x ms) (how_many x seen) = true) as -> by (apply Nat.leb_le; lia).
      cbn [map snd]. f_equal. apply IH. intro y. rewrite Hs, H. destruct (meq y x) eqn:Ey; [|lia].
      rewrite !(how_many_meq _ Ey). lia.
Qed.

(** The given matches that are found, in order: one is not found once all the [==] members are gone. *)
Definition found_in (l ms : list mtch) : list mtch :=
  map snd (filter (fun bx => Nat.ltb (how_many (snd bx) (fst bx)) (how_many (snd bx) l)) (befores [] ms)).
Lemma taken_found l ms : taken l ms = found_in l ms.
Proof.
  unfold found_in. assert (forall seen l0, (forall y, how_many y l0 = how_many y l - how_many y seen)%nat ->
    taken l0 ms = map snd (filter (fun bx => Nat.ltb (how_many (snd bx) (fst bx)) (how_many (snd bx) l)) (befores seen ms))) as G;
    [|apply G; intro; unfold how_many; cbn; lia].
  induction ms as [|m ms IH]; intros seen l0 H; [reflexivity|]. cbn [taken befores filter fst snd]. pose proof (H m) as Hm.
  assert (forall y, how_many y (seen ++ [m]) = how_many y seen + (if meq y m then 1 else 0))%nat as Hs.
  { intro y. unfold how_many. rewrite filter_app, app_length. cbn [filter]. destruct (meq y m); reflexivity. }
  destruct (remove_first (meq m) l0) as [l1|] eqn:E.
  - assert (Nat.ltb (how_many m seen) (how_many m l) = true) as ->.
    { apply Nat.ltb_lt. apply remove_first_Some in E as (a & z & b & -> & Hz & _ & ->). unfold how_many at 1 in Hm.
      rewrite filter_app, app_length in Hm. cbn [filter] in Hm. rewrite Hz in Hm. cbn [length] in Hm. lia. }
    cbn [map snd]. f_equal. apply IH. intro y. rewrite Hs, (how_many_remove _ E), H. lia.
  - assert (how_many m l0 = 0%nat) as H0.
    { unfold how_many. assert (filter (meq m) l0 = []) as ->; [|reflexivity]. apply filter_nil_iff. intros z Hz.
      destruct (meq m z) eqn:Ez; [|reflexivity]. exfalso. clear -E Hz Ez. induction l0 as [|w l0 IH]; [destruct Hz|]. cbn [remove_first] in E.
      destruct (meq m w) eqn:Ew; [discriminate|]. destruct (remove_first (meq m) l0); [discriminate|]. destruct Hz as [-> |Hz]; [congruence | auto]. }
    assert (Nat.ltb (how_many m seen) (how_many m l) = false) as -> by (apply Nat.ltb_ge; lia).
    apply IH. intro y. rewrite Hs, H. destruct (meq y m) eqn:Ey; [|lia]. rewrite !(how_many_meq _ Ey). lia.
Qed.

Lemma acceptable_removes k ops ms : forall asked l, acceptable k asked l ops -> acceptable k asked l (ops ++ map ORemove ms).
Proof.
  induction ops as [|o ops IH]; intros asked l H; cbn [app].
  - revert asked l H. induction ms as [|m ms IH]; intros asked l _; cbn [map acceptable]; [exact I|]. split; [constructor|]. split; [exact I|]. apply IH. exact I.
  - cbn [acceptable] in *. destruct H as (H1 & H2 & H3). auto.
Qed.
(** RemoveMatch given a list: the state is the one reached by removing those found one by one, so
    that all that is said of histories goes on holding. *)
Theorem C102_remove_match : forall k input ops ms,
  acceptable k false [] ops ->
  let l := list_run [] ops in
  let ops' := ops ++ map ORemove (found_in l ms) in
  remove_then (run (empty_coll k input) ops) (Many ms) = (run (empty_coll k input) ops', Ok (Some (Many (found_in l ms))))
  /\ acceptable k false [] ops'
  /\ list_run [] ops' = left_over ms l.
Proof.
  intros k input ops ms H l ops'. destruct (@run_ok (fun _ => True) k ops false (empty_coll k input)) as (HI & _ & Hd & _); auto; try discriminate; [apply Inv_empty|].
  destruct (remove_many_ok ms HI) as (c' & E & R & _ & _ & Hd'). rewrite Hd in *. cbn [empty_coll c_del] in *. fold l in E, R, Hd'.
  rewrite taken_found in E, R. unfold remove_then. rewrite E. unfold ops'. rewrite run_app, <- R. split; [reflexivity|].
  assert (acceptable k false [] (ops ++ map ORemove (found_in l ms))) as Ha by (apply acceptable_removes; exact H).
  split; [exact Ha|]. destruct (@run_ok (fun _ => True) k (ops ++ map ORemove (found_in l ms)) false (empty_coll k input)) as (_ & _ & Hd2 & _); auto; try discriminate;
    [apply Inv_empty|]. cbn [empty_coll c_del] in Hd2. rewrite <- Hd2, run_app, <- R, Hd', take_out_all_left. reflexivity.
Qed.
(** The removal of private matches: of the members [==] to one another, as many go as are private,
    the first ones. *)
Theorem C102_private_removed : forall k input ops,
  acceptable k false [] ops ->
  let l := list_run [] ops in
  let ops' := ops ++ map ORemove (filter m_private l) in
  private_rule (run (empty_coll k input) ops) = (run (empty_coll k input) ops', Ok tt)
  /\ acceptable k false [] ops'
  /\ list_run [] ops' = left_over (filter m_private l) l.
Proof.
  intros k input ops H l ops'. destruct (@C102_remove_match k input ops (filter m_private l) H) as (E & Ha & El). fold l in E, Ha, El.
  assert (found_in l (filter m_private l) = filter m_private l) as Ef.
  { unfold found_in. assert (forall a p, (forall y, how_many y a + how_many y p <= how_many y l)%nat ->
      map snd (filter (fun bx => Nat.ltb (how_many (snd bx) (fst bx)) (how_many (snd bx) l)) (befores a p)) = p) as G.
    { intros a p. revert a. induction p as [|x p IH]; intros a Hc; [reflexivity|]. cbn [befores filter fst snd].
      assert (Nat.ltb (how_many x a) (how_many x l) = true) as ->.
      { apply Nat.ltb_lt. specialize (Hc x). unfold how_many at 2 in Hc. cbn [filter] in Hc. rewrite meq_refl in Hc. cbn [length] in Hc. lia. }
      cbn [map snd]. f_equal. apply IH. intro y. specialize (Hc y). unfold how_many in *. rewrite filter_app, app_length. cbn [filter] in *. destruct (meq y x); cbn [length] in *; lia. }
    apply G. intro y. unfold how_many. cbn [filter length]. clear. induction l as [|x l IH]; [cbn; lia|]. cbn [filter]. destruct (m_private x); cbn [filter]; destruct (meq y x); cbn [length]; lia. }
  rewrite Ef in *. unfold private_rule. destruct (@run_ok (fun _ => True) k ops false (empty_coll k input)) as (_ & _ & Hd & _); auto; try discriminate; [apply Inv_empty|].
  rewrite Hd. cbn [empty_coll c_del]. fold l. rewrite E. split; [reflexivity|]. split; assumption.
Qed.
(** a public match goes in the place of the private one it equals; an assignment was made before *)
Example C102_example :
  let pub := mk_match 1 0 3 in let priv := set_private (mk_match 2 0 3) true in let other := mk_match 3 4 5 in
  let ops := [OExtend [other; pub; other; priv; pub]; OStarting 0; OSetitem 0 priv] in
  acceptable KMatches false [] ops
  /\ left_over (filter m_private (list_run [] ops)) (list_run [] ops) = [other; priv; pub]
  /\ c_del (fst (private_rule (run (empty_coll KMatches None) ops))) = [other; priv; pub]
  /\ snd (remove_then (run (empty_coll KMatches None) ops) (Many [pub; other; other; pub])) = Ok (Some (Many [pub; other; pub])).
Proof. split; [simpl; repeat constructor|]. repeat split; vm_compute; reflexivity. Qed.
Print Assumptions C102_remove_match.
Print Assumptions C102_private_removed.
