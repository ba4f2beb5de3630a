(** * The lookups made of several others, over every history: C84, C85

    C07 and C09 to C12 suppose that no item was assigned, that matches are not empty, that the range
    is well formed...  Here is what these lookups answer in all cases. *)
From Verif Require Import Base BaseFacts Match Spec MatchFacts Coll CollFacts CollQuery CollSem CollSem2 SpecColl
  CollHist CollUniv CollOrder CollMore SpecFiled CollFiled CollFiled2 PropsColl PropsFiled SpecDerived.
From Coq Require Import ZifyBool.
Export Coq.Strings.String.StringSyntax.
Set Implicit Arguments.
Unset Strict Implicit.
Open Scope Z_scope.

Lemma existsb_filter {A} (p q : A -> bool) l : existsb q (filter p l) = existsb (fun x => p x && q x) l.
Proof. induction l as [|x l IH]; [reflexivity|]. cbn [filter existsb]. destruct (p x); cbn [existsb andb]; rewrite IH; reflexivity. Qed.

Section Scan.
  Variables (c0 : coll) (keep : mtch -> bool) (input seps : option pstr) (st b : Z).
  Variables (cov starts : Z -> bool).
  Hypothesis Hstarts : forall i, existsb keep (vstart c0 i) = starts i.
  Hypothesis Hb : b <= max_end c0.
  Hypothesis Hbad : holes_bad input seps = false.
  Let sep := separator_at input seps.
  Let trim (h : Z * Z) := (Z.max (fst h) st, if (snd h =? b) && starts (b - 1) then b - 1 else snd h).

  Lemma sep_closed i : sep_close input seps None i = Ok false.
  Proof. unfold sep_close. destruct seps as [[|]|]; reflexivity. Qed.
  Lemma sep_open h i : 0 <= i -> sep_close input seps (Some h) i = match sep i with Some x => Ok x | None => Err IndexError end.
  Proof.
    intro Hi. unfold sep, sep_close, separator_at. unfold holes_bad in Hbad. destruct seps as [[|s0 sr]|]; try reflexivity.
    destruct input as [[|i0 ir]|]; try discriminate. unfold sep_at, py_nth, py_pos.
    destruct (i <? 0) eqn:E; [lia|]. cbv zeta.
    destruct ((0 <=? i) && (i <? zlen (i0 :: ir))) eqn:E2.
    - destruct (nth_error (i0 :: ir) (Z.to_nat i)); reflexivity.
    - assert (nth_error (i0 :: ir) (Z.to_nat i) = None) as -> by (apply nth_error_None; unfold zlen in E2; lia). reflexivity.
  Qed.
  Lemma fin_open : Z.min (first_pos (vstart c0) keep (zrange (b - 1) (max_end c0)) (max_end c0)) b
    = (if starts (b - 1) then b - 1 else b).
  Proof.
    rewrite zrange_cons by lia. cbn [first_pos]. rewrite Hstarts. destruct (starts (b - 1)); [lia|].
    destruct (first_pos_spec (vstart c0) keep (zrange (b - 1 + 1) (max_end c0)) (max_end c0)) as [(x & i & y & H1 & _ & H2 & _)|[H1 _]]; [|lia].
    rewrite H2. assert (In i (zrange (b - 1 + 1) (max_end c0))) as Hi by (rewrite H1; apply in_or_app; right; left; reflexivity).
    apply in_zrange in Hi. lia.
  Qed.

  Definition closes (ret : list (Z * Z)) (r : res (list (Z * Z))) : res (list (Z * Z)) := res_map (fun l => rev ret ++ map trim l) r.

  Lemma scan_both n :
    (forall i ret last, Z.to_nat (b - i) = n -> 0 <= i ->
       exists r, scanned cov sep b i r
         /\ holes_fin c0 keep b (holes_pure cov input seps st (zrange i b) ret None last) = closes ret r)
    /\ (forall o j ret, Z.to_nat (b - j) = n -> 0 <= o -> o < j <= b -> (forall k, o <= k < j -> cov k = false) -> (forall k, o < k < j -> sep k = Some false) ->
       exists r, scanned cov sep b o r
         /\ holes_fin c0 keep b (holes_pure cov input seps st (zrange j b) ret (Some (Z.max o st)) (j - 1)) = closes ret r).
  Proof.
    induction n as [n IH] using lt_wf_ind. split.
    - intros i ret last Hn Hi. destruct (Z.leb_spec b i) as [H|H].
      + exists (Ok []). split; [constructor; exact H|]. rewrite zrange_nil by exact H. cbn. rewrite app_nil_r. reflexivity.
      + rewrite zrange_cons by exact H. cbn [holes_pure]. rewrite sep_closed. destruct (cov i) eqn:Ec.
        * destruct (IH (Z.to_nat (b - (i + 1)))) as [IH1 _]; [lia|]. destruct (IH1 (i + 1) ret i) as (r & R1 & R2); [lia|lia|].
          exists r. split; [apply scan_covered; assumption | exact R2].
        * destruct (IH (Z.to_nat (b - (i + 1)))) as [_ IH2]; [lia|].
          destruct (IH2 i (i + 1) ret) as (r & R1 & R2); [lia | lia | lia | intros k Hk; replace k with i by lia; exact Ec | intros k Hk; lia |].
          exists r. split; [exact R1|]. replace (i + 1 - 1) with i in R2 by lia. exact R2.
    - intros o j ret Hn H0 Hj Hc Hs. destruct (Z.eq_dec j b) as [->|Hne].
      + exists (Ok [(o, b)]). split.
        * replace (Ok [(o, b)]) with (res_map (cons (o, b)) (Ok [])) by reflexivity.
          apply scan_hole; [lia | exact Hc | exact Hs | left; reflexivity | constructor; lia].
        * rewrite zrange_nil by lia. cbn [holes_pure holes_fin]. rewrite fin_open.
          unfold closes, trim. cbn [res_map map rev fst snd]. rewrite Z.eqb_refl. cbn [andb]. reflexivity.
      + rewrite zrange_cons by lia. cbn [holes_pure]. rewrite sep_open by lia. destruct (sep j) as [x|] eqn:Ex.
        * assert ((j = b \/ sep j = Some true \/ (sep j = Some false /\ cov j = true)) ->
            exists r, scanned cov sep b o r
              /\ holes_fin c0 keep b (holes_pure cov input seps st (zrange (j + 1) b) ((Z.max o st, j) :: ret) None j) = closes ret r) as G.
          { intros Hor. destruct (IH (Z.to_nat (b - (j + 1)))) as [IH1 _]; [lia|].
            destruct (IH1 (j + 1) ((Z.max o st, j) :: ret) j) as (r & R1 & R2); [lia|lia|].
            exists (res_map (cons (o, j)) r). split; [apply scan_hole; [lia | exact Hc | exact Hs | exact Hor | exact R1]|].
            assert (trim (o, j) = (Z.max o st, j)) as Et by (unfold trim; cbn [fst snd]; replace (j =? b) with false by lia; reflexivity).
            rewrite R2. destruct r as [l|e]; [|reflexivity]. unfold closes. cbn [res_map map rev]. rewrite Et, <- app_assoc. reflexivity. }
          destruct x.
          { apply G. right; left; exact Ex. }
          { destruct (cov j) eqn:Ec; [apply G; right; right; split; [exact Ex | reflexivity]|].
            destruct (IH (Z.to_nat (b - (j + 1)))) as [_ IH2]; [lia|].
            destruct (IH2 o (j + 1) ret) as (r & R1 & R2); [lia|lia|lia| | |].
            - intros k Hk. destruct (Z.eq_dec k j) as [->|]; [exact Ec | apply Hc; lia].
            - intros k Hk. destruct (Z.eq_dec k j) as [->|]; [exact Ex | apply Hs; lia].
            - exists r. split; [exact R1|]. replace (j + 1 - 1) with j in R2 by lia. exact R2. }
        * exists (Err IndexError). split; [|reflexivity]. apply scan_raise with j; [lia | exact Hc | exact Hs | exact Ex].
  Qed.
End Scan.

(** The answer of the scan is determined. *)
Lemma scanned_fun cov sep b : forall i r r', scanned cov sep b i r -> scanned cov sep b i r' -> r = r'.
Proof.
  intros i r r' H. revert r'.
  assert (forall i j j', i < j <= b -> i < j' <= b -> (forall k, i <= k < j -> cov k = false) -> (forall k, i < k < j -> sep k = Some false) ->
    (j' = b \/ sep j' = Some true \/ (sep j' = Some false /\ cov j' = true)) -> j <= j') as G.
  { intros a j j' Hj Hj' Hc Hs Ho. destruct (Z.leb_spec j j') as [|Hlt]; [assumption|]. exfalso.
    destruct Ho as [Ho|[Ho|[Ho1 Ho2]]]; [lia | rewrite Hs in Ho by lia; discriminate | rewrite Hc in Ho2 by lia; discriminate]. }
  induction H as [i Hi|i r Hi Hc H IH|i j r Hj Hc Hs Ho H IH|i j Hj Hc Hs Ho]; intros r' H'.
  - inversion H'; subst; [reflexivity | lia | lia | lia].
  - inversion H' as [| |? j' ? Hj' Hc' |? j' Hj' Hc']; subst; [lia | apply IH; assumption | rewrite Hc' in Hc by lia; discriminate | rewrite Hc' in Hc by lia; discriminate].
  - inversion H' as [? Hb|? ? ? Hc'|? j' r1 Hj' Hc' Hs' Ho' H1|? j' Hj' Hc' Hs' Ho']; subst; [lia | rewrite Hc in Hc' by lia; discriminate | |].
    + assert (j = j') as <- by (pose proof (@G i j j'); pose proof (@G i j' j); intuition lia). f_equal. apply IH; assumption.
    + exfalso. destruct (Z.lt_total j j') as [L|[<-|L]].
      * destruct Ho as [Ho|[Ho|[Ho1 Ho2]]]; [lia | rewrite Hs' in Ho by lia; discriminate | rewrite Hc' in Ho2 by lia; discriminate].
      * destruct Ho as [Ho|[Ho|[Ho1 Ho2]]]; [lia | congruence | congruence].
      * rewrite Hs in Ho' by lia. discriminate.
  - inversion H' as [? Hb|? ? ? Hc'|? j' r1 Hj' Hc' Hs' Ho' H1|? j' Hj' Hc' Hs' Ho']; subst; [lia | rewrite Hc in Hc' by lia; discriminate | | reflexivity].
    exfalso. destruct (Z.lt_total j j') as [L|[<-|L]].
    + rewrite Hs' in Ho by lia. discriminate.
    + destruct Ho' as [Ho'|[Ho'|[Ho1 Ho2]]]; [lia | congruence | congruence].
    + destruct Ho' as [Ho'|[Ho'|[Ho1 Ho2]]]; [lia | rewrite Hs in Ho' by lia; discriminate | rewrite Hc in Ho2 by lia; discriminate].
Qed.

(** in any state, with the positions covered and those where a match starts *)
Lemma holes_any c st en keep seps (cov starts : Z -> bool) :
  (forall i, existsb keep (vstart c i) = starts i) -> (forall i, existsb keep (vat c i) = cov i) ->
  holes_of (c_input c) seps cov starts st (match en with None => max_end c | Some e => Z.min (max_end c) e end) (snd (step c (OHoles st en keep seps))).
Proof.
  intros Es Ec. set (e := match en with None => _ | _ => _ end).
  rewrite (@lookup_answer c (OHoles st en keep seps)) by reflexivity. cbn [answer]. unfold holes_ans, holes_of. set (input := c_input c).
  replace (given seps && negb (given input)) with (holes_bad input seps) by (unfold holes_bad, given; destruct seps as [[|]|], input as [[|]|]; reflexivity).
  destruct (holes_bad input seps) eqn:Hbad; [reflexivity|].
  set (from := first_pos (vstart c) keep (rev (zrange 0 st)) 0).
  assert ((greatest starts 0 st from \/ nowhere starts 0 st /\ from = 0) /\ 0 <= from) as [Hfrom H0].
  { destruct (first_pos_spec (vstart c) keep (rev (zrange 0 st)) 0) as [(x & i & y & H1 & H2 & H3 & H4)|[H1 H2]].
    - assert (zrange 0 st = rev y ++ i :: rev x) as Hz by (rewrite <- (rev_involutive (zrange 0 st)), H1, rev_app_distr; cbn [rev]; rewrite <- app_assoc; reflexivity).
      apply zrange_split_inv in Hz as (_ & Hy & Hi). fold from in H3. rewrite H3. split; [|lia]. left. split; [exact Hi|]. split; [rewrite <- Es; exact H2|].
      intros j Hj. rewrite <- Es. apply H4. apply in_rev. rewrite Hy. apply in_zrange. lia.
    - fold from in H1. rewrite H1. split; [|lia]. right. split; [|reflexivity]. intros j Hj. rewrite <- Es. apply H2. rewrite <- in_rev. apply in_zrange. exact Hj. }
  change (range_end c en) with e.
  destruct (@scan_both c keep input seps st e cov starts Es) with (n := Z.to_nat (e - from)) as [S _]; [unfold e; destruct en; lia | exact Hbad|].
  destruct (S from [] st eq_refl H0) as (r & R1 & R2). exists from, r. split; [exact Hfrom|]. split; [exact R1|].
  assert (forall is ret h last, holes_pure (fun i => existsb keep (vat c i)) input seps st is ret h last = holes_pure cov input seps st is ret h last) as Ep.
  { induction is as [|i is IH]; intros ret h last; [reflexivity|]. cbn [holes_pure]. rewrite Ec. destruct (sep_close input seps h i) as [[]|], h; rewrite ?IH; reflexivity. }
  rewrite Ep, R2. destruct r; reflexivity.
Qed.

(** ** C84: [holes], for every history, range and separators *)
Theorem C84_holes : forall k input ops st en keep seps,
  acceptable k false [] ops ->
  let c := run (empty_coll k input) ops in
  let e := match en with None => max_end c | Some e => Z.min (max_end c) e end in
  exists gs gi, holds ByStart ops gs /\ holds ByIndex ops gi
    /\ holes_told input seps gs gi keep st e (snd (step c (OHoles st en keep seps))).
Proof.
  intros k input ops st en keep seps Hacc c e.
  destruct (@answers_filed k input ByStart ops Hacc) as (gs & Hgs & Hss); [discriminate|].
  destruct (@answers_filed k input ByIndex ops Hacc) as (gi & Hgi & Hsi); [discriminate|].
  exists gs, gi. split; [exact Hgs|]. split; [exact Hgi|]. fold c in Hss, Hsi. cbn [shows] in Hss, Hsi.
  destruct (@run_ok (fun _ => True) k ops false (empty_coll k input)) as (_ & [_ Hin] & _); auto; try discriminate; [apply Inv_empty|].
  fold c in Hin. cbn [c_input empty_coll] in Hin. unfold holes_told. rewrite <- Hin. apply holes_any.
  - intro i. rewrite Hss, occ_start, existsb_filter. reflexivity.
  - intro i. rewrite Hsi, occ_at, existsb_filter. reflexivity.
Qed.
(** the answer is determined by the registers *)
Theorem C84_determined : forall input seps gs gi keep st e a a',
  holes_told input seps gs gi keep st e a -> holes_told input seps gs gi keep st e a' -> a = a'.
Proof.
  intros input seps gs gi keep st e a a'. unfold holes_told, holes_of. destruct (given seps && negb (given input)); [congruence|].
  set (starts := fun i => existsb (fun m => starts_at i m && keep m) gs).
  intros (f & r & Hf & Hr & ->) (f' & r' & Hf' & Hr' & ->).
  assert (f = f') as <-.
  { destruct Hf as [(F1 & F2 & F3)|[F1 ->]], Hf' as [(G1 & G2 & G3)|[G1 ->]].
    - destruct (Z.lt_total f f') as [L|[L|L]]; [rewrite F3 in G2 by lia; discriminate | exact L | rewrite G3 in F2 by lia; discriminate].
    - rewrite G1 in F2 by lia. discriminate.
    - rewrite F1 in G2 by lia. discriminate.
    - reflexivity. }
  rewrite (scanned_fun Hr Hr'). reflexivity.
Qed.
(** a replaced match still covers its text; separators; an empty hole; text missing; a range beyond the text *)
Example C84_example :
  let ops := [OExtend [ex_a; ex_b]; OAtIndex 0; OSetitem 0 ex_c] in
  let c := run (empty_coll KMatches ex_input) ops in
  let all := fun _ : mtch => true in
  acceptable KMatches false [] ops
  /\ list_run [] ops = [ex_c; ex_b]
  /\ snd (step c (OHoles 0 None all None)) = RSpans [(8, 10)]
  /\ snd (step (run (empty_coll KMatches ex_input) [OExtend [ex_c; ex_b]]) (OHoles 0 None all None)) = RSpans [(0, 3); (8, 10)]
  /\ snd (step (run (empty_coll KMatches ex_input) [OAppend ex_b]) (OHoles 0 None all (Some (s "bc")))) = RSpans [(0, 1); (2, 3); (6, 10)]
  /\ snd (step (run (empty_coll KMatches ex_input) [OAppend ex_b]) (OHoles 8 (Some 5) all None)) = RSpans []
  /\ snd (step (run (empty_coll KMatches ex_input) [OAppend ex_b]) (OHoles 2 None all (Some (s "b")))) = RSpans [(2, 1); (2, 3); (6, 10)]
  /\ snd (step (run (empty_coll KMatches None) [OAppend ex_b]) (OHoles 0 None all (Some (s "b")))) = RErr AssertionError
  /\ snd (step (run (empty_coll KMatches (Some (s "abcde"))) [OAppend (mk_match 4 9 10)]) (OHoles 0 None all (Some (s "b")))) = RErr IndexError
  /\ snd (step (run (empty_coll KMatches ex_input) [OAppend (mk_match 4 9 9)]) (OHoles 3 None all None)) = RSpans [(3, 9)].
Proof. cbv zeta. repeat split; try (vm_compute; reflexivity); simpl; repeat constructor. Qed.

(** ** C85: [previous], [next], [conflicting], [at_span] and the chains, for every history *)
Lemma chain_add_distinct : forall l seen, chain_add seen l = seen ++ distinct seen l.
Proof.
  unfold chain_add. induction l as [|m l IH]; intro seen; cbn [fold_left distinct]; [symmetry; apply app_nil_r|].
  change (mem meq m seen) with (existsb (meq m) seen). destruct (existsb (meq m) seen); [apply IH|].
  rewrite IH, <- app_assoc. reflexivity.
Qed.
Lemma prev_spec (v : Z -> list mtch) p : (forall i, p i = match v i with [] => false | _ => true end) -> forall n cur, Z.of_nat n = Z.max 0 (cur + 1) ->
  (nowhere p 0 (cur + 1) /\ prev_pure v n cur = []) \/ exists i, greatest p 0 (cur + 1) i /\ prev_pure v n cur = v i.
Proof.
  intro Hp. induction n as [|n IH]; intros cur Hn; cbn [prev_pure].
  - left. split; [intros j Hj; lia | reflexivity].
  - destruct (v cur) as [|x l] eqn:E.
    + assert (p cur = false) as Hc by (rewrite Hp, E; reflexivity).
      destruct (IH (cur - 1)) as [[H1 H2]|(i & (H1 & H2 & H3) & H4)]; [lia| |].
      * left. split; [|exact H2]. intros j Hj. destruct (Z.eq_dec j cur) as [->|]; [exact Hc | apply H1; lia].
      * right. exists i. split; [|exact H4]. split; [lia|]. split; [exact H2|]. intros j Hj. destruct (Z.eq_dec j cur) as [->|]; [exact Hc | apply H3; lia].
    + right. exists cur. split; [|symmetry; exact E]. split; [lia|]. split; [rewrite Hp, E; reflexivity | intros; lia].
Qed.
Lemma next_spec (v : Z -> list mtch) p : (forall i, p i = match v i with [] => false | _ => true end) -> forall n cur b, Z.of_nat n = Z.max 0 (b - cur) ->
  (nowhere p cur b /\ next_pure v n cur = []) \/ exists i, least p cur b i /\ next_pure v n cur = v i.
Proof.
  intro Hp. induction n as [|n IH]; intros cur b Hn; cbn [next_pure].
  - left. split; [intros j Hj; lia | reflexivity].
  - destruct (v cur) as [|x l] eqn:E.
    + assert (p cur = false) as Hc by (rewrite Hp, E; reflexivity).
      destruct (IH (cur + 1) b) as [[H1 H2]|(i & (H1 & H2 & H3) & H4)]; [lia| |].
      * left. split; [|exact H2]. intros j Hj. destruct (Z.eq_dec j cur) as [->|]; [exact Hc | apply H1; lia].
      * right. exists i. split; [|exact H4]. split; [lia|]. split; [exact H2|]. intros j Hj. destruct (Z.eq_dec j cur) as [->|]; [exact Hc | apply H3; lia].
    + right. exists cur. split; [|symmetry; exact E]. split; [lia|]. split; [rewrite Hp, E; reflexivity | intros; lia].
Qed.
Lemma walk_spec v input pred seps : forall is ch,
  exists r, walked (fun i => filter pred (v i)) (separator input seps) is r
    /\ chain_pure v input pred seps is ch = res_map (chain_add ch) r.
Proof.
  induction is as [|i is IH]; intro ch; cbn [chain_pure].
  - exists (Ok []). split; [constructor | reflexivity].
  - destruct (filter pred (v i)) as [|x l] eqn:E.
    + change (sep_at input seps i) with (separator input seps i). destruct (separator input seps i) as [[]|e] eqn:Es.
      * destruct (IH ch) as (r & R1 & R2). exists r. split; [apply walk_separator; assumption | exact R2].
      * exists (Ok []). split; [apply walk_stop; assumption | reflexivity].
      * exists (Err e). split; [apply walk_raise; assumption | reflexivity].
    + destruct (IH (chain_add ch (x :: l))) as (r & R1 & R2). exists (res_map (app (x :: l)) r). split.
      * rewrite <- E. apply walk_matches; [rewrite E; discriminate | exact R1].
      * rewrite R2. destruct r as [r|e]; [|reflexivity]. cbn [res_map]. f_equal. unfold chain_add. rewrite fold_left_app. reflexivity.
Qed.
Lemma chain_pure_ext v v' input pred seps : (forall i, v i = v' i) -> forall is ch,
  chain_pure v input pred seps is ch = chain_pure v' input pred seps is ch.
Proof.
  intro H. induction is as [|i is IH]; intro ch; [reflexivity|]. cbn [chain_pure]. rewrite H. destruct (filter pred (v' i)); [|apply IH].
  destruct (sep_at input seps i) as [[]|]; [apply IH | reflexivity | reflexivity].
Qed.
Lemma walked_fun v sep is r r' : walked v sep is r -> walked v sep is r' -> r = r'.
Proof.
  intro H. revert r'. induction H as [|i is r Hv H IH|i is r Hv Hs H IH|i is Hv Hs|i is e Hv Hs]; intros r' H'; inversion H'; subst; try congruence;
    first [apply IH; assumption | f_equal; apply IH; assumption].
Qed.

Theorem C85_previous : forall k input ops m,
  acceptable k false [] ops ->
  exists ge, holds ByEnd ops ge
    /\ let ends i := existsb (ends_at i) ge in
       exists r, snd (step (run (empty_coll k input) ops) (OPrevious m)) = RList r
         /\ ((nowhere ends 0 (m_start m + 1) /\ r = [])
             \/ exists i, greatest ends 0 (m_start m + 1) i /\ r = filter (ends_at i) ge).
Proof.
  intros k input ops m Hacc. destruct (@answers_filed k input ByEnd ops Hacc) as (g & Hg & Hs); [discriminate|].
  exists g. split; [exact Hg|]. cbv zeta. rewrite lookup_answer by reflexivity. cbn [answer]. eexists. split; [reflexivity|].
  set (c := run (empty_coll k input) ops) in *. cbn [shows] in Hs.
  assert (forall i, vend c i = filter (ends_at i) g) as Hv by (intro i; rewrite Hs; apply occ_end).
  destruct (@prev_spec (vend c) (fun i => existsb (ends_at i) g)) with (n := Z.to_nat (m_start m + 1)) (cur := m_start m) as [H|(i & H1 & H2)]; [|lia|left; exact H|right].
  - intro i. rewrite Hv. pose proof (filter_nil_existsb (ends_at i) g) as F. destruct (filter (ends_at i) g), (existsb (ends_at i) g); cbn in F; congruence.
  - exists i. split; [exact H1|]. rewrite H2. apply Hv.
Qed.
(** [next] looks no further than the furthest end ever added (or asked for). *)
Theorem C85_next : forall k input ops m,
  acceptable k false [] ops ->
  exists gs top, holds ByStart ops gs /\ furthest (added_since [] ops) <= top <= max_end (run (empty_coll k input) ops)
    /\ let starts i := existsb (starts_at i) gs in
       exists r, snd (step (run (empty_coll k input) ops) (ONext m)) = RList r
         /\ ((nowhere starts (m_start m + 1) (top + 1) /\ r = [])
             \/ exists i, least starts (m_start m + 1) (top + 1) i /\ r = filter (starts_at i) gs).
Proof.
  intros k input ops m Hacc. destruct (@answers_filed k input ByStart ops Hacc) as (g & Hg & Hs); [discriminate|].
  set (c := run (empty_coll k input) ops) in *. exists g, (c_maxend c). split; [exact Hg|]. split.
  { destruct (reach_top input Hacc) as (H1 & H2 & _). fold c in H1, H2. destruct (furthest_spec (added_since [] ops)) as (_ & _ & F3). split.
    - destruct F3 as [-> |(x & Hx & <-)]; [lia|]. rewrite Forall_forall in H1. apply H1, in_map, Hx.
    - unfold max_end. destruct (c_input c) as [[|]|]; lia. }
  cbv zeta. rewrite lookup_answer by reflexivity. cbn [answer]. eexists. split; [reflexivity|]. cbn [shows] in Hs.
  assert (forall i, vstart c i = filter (starts_at i) g) as Hv by (intro i; rewrite Hs; apply occ_start).
  destruct (@next_spec (vstart c) (fun i => existsb (starts_at i) g)) with (n := Z.to_nat (c_maxend c - m_start m)) (cur := m_start m + 1) (b := c_maxend c + 1) as [H|(i & H1 & H2)]; [|lia|left; exact H|right].
  - intro i. rewrite Hv. pose proof (filter_nil_existsb (starts_at i) g) as F. destruct (filter (starts_at i) g), (existsb (starts_at i) g); cbn in F; congruence.
  - exists i. split; [exact H1|]. rewrite H2. apply Hv.
Qed.
(** [conflicting] and [at_span]: in order of position, then of the register, without repetition;
    [conflicting(m)] raises unless a match [==] to [m] is filed at a position of [m]. *)
Theorem C85_conflicting : forall k input ops m,
  acceptable k false [] ops ->
  exists gi, holds ByIndex ops gi
    /\ snd (step (run (empty_coll k input) ops) (OConflicting m))
       = match remove_first (meq m) (distinct [] (flat_map (fun i => filter (coversb i) gi) (zrange (m_start m) (m_end m)))) with
         | Some r => RList r
         | None => RErr ValueError
         end.
Proof.
  intros k input ops m Hacc. destruct (@answers_filed k input ByIndex ops Hacc) as (g & Hg & Hs); [discriminate|].
  exists g. split; [exact Hg|]. rewrite lookup_answer by reflexivity. cbn [answer]. cbn [shows] in Hs. rewrite chain_add_distinct. cbn [app].
  rewrite (flat_map_ext (vat (run (empty_coll k input) ops)) (fun i => filter (coversb i) g)); [reflexivity|]. intro i. rewrite Hs. apply occ_at.
Qed.
Theorem C85_at_span : forall k input ops sp,
  acceptable k false [] ops ->
  exists gi, holds ByIndex ops gi
    /\ snd (step (run (empty_coll k input) ops) (OAtSpan sp))
       = RList (filter (coversb (fst sp)) gi ++ distinct (filter (coversb (fst sp)) gi) (filter (coversb (snd sp - 1)) gi)).
Proof.
  intros k input ops sp Hacc. destruct (@answers_filed k input ByIndex ops Hacc) as (g & Hg & Hs); [discriminate|].
  exists g. split; [exact Hg|]. rewrite lookup_answer by reflexivity. cbn [answer]. cbn [shows] in Hs. rewrite chain_add_distinct, !Hs, !occ_at. reflexivity.
Qed.
(** the chains, whatever the text, the separators and the positions *)
Theorem C85_chains : forall k input ops,
  acceptable k false [] ops ->
  let c := run (empty_coll k input) ops in
  exists gi, holds ByIndex ops gi
    /\ (forall p seps en pred,
          let e := match en with None => max_end c | Some e => Z.min (max_end c) e end in
          exists r, walked (fun i => filter pred (filter (coversb i) gi)) (separator input seps) (zrange p e) r
            /\ snd (step c (OChainAfter p seps en pred)) = match r with Ok l => RList (distinct [] l) | Err x => RErr x end)
    /\ (forall p seps st pred,
          exists r, walked (fun i => filter pred (filter (coversb i) gi)) (separator input seps) (rev (zrange st (Z.min (max_end c) p))) r
            /\ snd (step c (OChainBefore p seps st pred)) = match r with Ok l => RList (distinct [] l) | Err x => RErr x end).
Proof.
  intros k input ops Hacc c. destruct (@answers_filed k input ByIndex ops Hacc) as (g & Hg & Hs); [discriminate|].
  exists g. split; [exact Hg|]. cbn [shows] in Hs. fold c in Hs.
  assert (forall i, vat c i = filter (coversb i) g) as Hv by (intro i; rewrite Hs; apply occ_at).
  destruct (@run_ok (fun _ => True) k ops false (empty_coll k input)) as (_ & [_ Hin] & _); auto; try discriminate; [apply Inv_empty|].
  fold c in Hin. cbn [c_input empty_coll] in Hin.
  split; intros p seps en pred; [intro e|]; rewrite (@lookup_answer c _) by reflexivity; cbn [answer]; rewrite Hin.
  - change (range_end c en) with e. rewrite (@chain_pure_ext _ _ input pred seps Hv).
    destruct (@walk_spec (fun i => filter (coversb i) g) input pred seps (zrange p e) []) as (r & R1 & R2). exists r. split; [exact R1|].
    rewrite R2. destruct r as [l|x]; [|reflexivity]. cbn [res_map]. rewrite chain_add_distinct. reflexivity.
  - rewrite (@chain_pure_ext _ _ input pred seps Hv).
    match goal with |- context [chain_pure _ _ _ _ ?is []] => destruct (@walk_spec (fun i => filter (coversb i) g) input pred seps is []) as (r & R1 & R2) end.
    exists r. split; [exact R1|]. rewrite R2. destruct r as [l|x]; [|reflexivity]. cbn [res_map]. rewrite chain_add_distinct. reflexivity.
Qed.
Theorem C85_chains_determined : forall v sep is r r', walked v sep is r -> walked v sep is r' -> r = r'.
Proof. exact walked_fun. Qed.
(** after an assignment *)
Example C85_example :
  let ops := [OExtend [ex_a; ex_b]; OAtIndex 0; OStarting 0; OEnding 1; OSetitem 0 ex_c] in
  let c := run (empty_coll KMatches ex_input) ops in
  acceptable KMatches false [] ops
  /\ list_run [] ops = [ex_c; ex_b]
  /\ snd (step c (OPrevious ex_c)) = RList [ex_a]
  /\ snd (step c (ONext ex_a)) = RList [ex_b]
  /\ snd (step c (OConflicting ex_b)) = RList [ex_c]
  /\ snd (step c (OAtSpan (0, 6))) = RList [ex_a; ex_b; ex_c]
  /\ snd (step c (OChainAfter 0 (s "x") None (fun _ => true))) = RList [ex_a; ex_b; ex_c]
  /\ snd (step c (OChainBefore 10 (s "hij") 0 (fun _ => true))) = RList [ex_c; ex_b; ex_a]
  /\ snd (step (run (empty_coll KMatches None) ops) (OChainAfter 0 (s "x") None (fun m => m_id m =? 2)%nat)) = RErr TypeError
  /\ snd (step c (OChainAfter (-11) (s "x") None (fun _ => true))) = RErr IndexError.
Proof. cbv zeta. repeat split; try (vm_compute; reflexivity); simpl; repeat constructor. Qed.

Print Assumptions C84_holes.
Print Assumptions C84_determined.
Print Assumptions C85_next.
Print Assumptions C85_chains.
