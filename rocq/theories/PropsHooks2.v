(** * C142: the processors of a chain *)
From Coq Require String. Export Coq.Strings.String.StringSyntax.
From Verif Require Import Base BaseFacts Match Coll Loose MatchFacts RulesFacts Pattern PatternFacts PropsLoose PropsPattern Chain SpecChain ChainFacts ChainSem PropsChain PropsHooks PropsChain2.
Set Implicit Arguments.
Unset Strict Implicit.
Open Scope string_scope.
Open Scope list_scope.
Open Scope Z_scope.

(** ** Specification *)
(** [P] is the stage [m'] of a chain match with the options of the chain applied to it and to its children *)
Definition stage_as (p : popts) (i : nat) (m' P : mtch) : Prop :=
  settings p i false m' P /\ m_id P = m_id m' /\ m_parent P = m_parent m'
  /\ Forall2 (fun c c' => settings p i true c c' /\ m_id c' = m_id c /\ m_children c' = m_children c) (m_children m') (m_children P).
(** the [k]-th stage (the repetitions of the last part given up from the last one, C79) is the first accepted *)
Definition first_accepted (p : popts) (i : nat) (m : mtch) (nums : list nat) (k : nat) (m' : mtch) : Prop :=
  (k <= length nums)%nat /\ given_up m (firstn k nums) m' /\ accepts p i m' /\ forall j m'', (j < k)%nat -> given_up m (firstn j nums) m'' -> rejects p i m''.
Definition all_refused (p : popts) (i : nat) (m : mtch) (nums : list nat) : Prop :=
  forall j m'', (j <= length nums)%nat -> given_up m (firstn j nums) m'' -> rejects p i m''.
(** a child is validated (the parent it shows meanwhile is left open) *)
Definition child_accepted (p : popts) (c : mtch) : Prop := exists q, accepted p true (set_parent c q).
Definition child_refused (p : popts) (c : mtch) : Prop := exists q, ~ accepted p true (set_parent c q).
(** what the chain gets as far as the last processor: nothing, or a configured match *)
Inductive reaches (p : popts) (i : nat) (m : mtch) : option mtch -> Prop :=
| no_stage nums : give_up_order m nums -> all_refused p i m nums -> reaches p i m None
| bad_child nums k m' P : give_up_order m nums -> first_accepted p i m nums k m' -> stage_as p i m' P -> Exists (child_refused p) (m_children P) -> reaches p i m None
| good_stage nums k m' P : give_up_order m nums -> first_accepted p i m nums k m' -> stage_as p i m' P -> Forall (child_accepted p) (m_children P) -> reaches p i m (Some P).
Inductive chain_worked (p : popts) (i : nat) (m1 : mtch) : list mtch -> Prop :=
| chain_refused : reaches p i m1 None -> chain_worked p i m1 []
| chain_stopped P : reaches p i m1 (Some P) -> halts (po_post p) P -> chain_worked p i m1 []
| chain_kept P m4 m5 : reaches p i m1 (Some P) -> answers (po_post p) P (Same m4) -> 0 < mlen m4 -> seen_again m4 m5 -> chain_worked p i m1 (chosen p m5)
| chain_exchanged P m4 : reaches p i m1 (Some P) -> answers (po_post p) P (Other m4) -> 0 < mlen m4 -> chain_worked p i m1 (chosen p m4).
(** children without children (or not validated), equal ones in the same repetition *)
Definition simple_children (p : popts) (m : mtch) : Prop :=
  equal_together m /\ (~ subject p true (po_validate_all p) \/ Forall (fun c => m_children c = []) (m_children m)).
(** what is produced for the [i]-th chain [m] *)
Inductive chain_hooked (p : popts) (i : nat) (m : mtch) : list mtch -> Prop :=
| chain_stopped_before : halts (po_pre p) m -> chain_hooked p i m []
| chain_went_on m1 outs : (answers (po_pre p) m (Same m1) \/ answers (po_pre p) m (Other m1)) -> 0 < mlen m1 ->
    (simple_children p m1 -> chain_worked p i m1 outs) -> chain_hooked p i m outs.

(** ** Proofs *)
Lemma set_parent_id m : set_parent m (m_parent m) = m.
Proof. destruct m; reflexivity. Qed.
Lemma children_validated p i parent : forall todo done cs ok,
  (~ subject p true (po_validate_all p) \/ Forall (fun c => m_children c = []) todo) ->
  process_children (chain_process_match p) parent i done todo = (cs, ok) ->
  (ok = true -> exists l, cs = done ++ l /\ Forall2 (fun c c' => exists q, c' = set_parent (configure p i true c) q) todo l /\ Forall (child_accepted p) l)
  /\ (ok = false -> Exists (fun c => child_refused p (configure p i true c)) todo).
Proof.
  induction todo as [|c r IH]; intros done cs ok NS H; cbn [process_children] in H.
  - injection H as <- <-. split; [|discriminate]. intros _. exists []. rewrite app_nil_r. repeat constructor.
  - assert (~ subject p true (po_validate_all p) \/ Forall (fun c => m_children c = []) r) as NS' by (destruct NS as [|NS]; [auto|right; now inversion NS]).
    set (c1 := configure p i true (relink (parent :: done) c)).
    assert (exists q, c1 = set_parent (configure p i true c) q) as (q & Eq). { unfold c1, relink. rewrite configure_set_parent. eauto. }
    unfold chain_process_match in H at 1. rewrite process_match_eq in H. fold c1 in H.
    destruct (process_validator p c1 true) eqn:V.
    + apply IH in H; [|exact NS']. destruct H as [H1 H2]. split.
      * intro E. destruct (H1 E) as (l & -> & F & G). exists (c1 :: l). rewrite <- app_assoc. split; [reflexivity|]. split; [constructor; eauto|].
        constructor; [|exact G]. exists (m_parent c1). apply validator_accepted. rewrite set_parent_id. exact V.
      * intro E. right. auto.
    + destruct NS as [NS|NS].
      { exfalso. assert (accepted p true c1) as A by (intro X; contradiction). apply validator_accepted in A. congruence. }
      assert (m_children c1 = []) as C. { unfold c1. rewrite configure_children. unfold relink. cbn [m_children set_parent]. now inversion NS. }
      rewrite C in H. cbn [rev] in H. injection H as <- <-. split; [discriminate|]. intros _. left. exists q. intro A. apply validator_accepted in A. rewrite <- Eq in A. congruence.
Qed.
Lemma stage_children p i (a l : list mtch) : Forall2 (fun c c' => exists q, c' = set_parent (configure p i true c) q) a l ->
  Forall2 (fun c c' => settings p i true c c' /\ m_id c' = m_id c /\ m_children c' = m_children c) a l.
Proof.
  intro F. induction F as [|c c' a l (q & ->) F IH]; constructor; auto. split; [apply configure_settings|]. cbn [m_id m_children set_parent]. rewrite configure_id, configure_children. auto.
Qed.
Lemma set_parents p i (a l l' : list mtch) : Forall2 (fun c c' => exists q, c' = set_parent (configure p i true c) q) a l ->
  Forall2 (fun x y => exists q, y = set_parent x q) l l' -> Forall2 (fun c c' => exists q, c' = set_parent (configure p i true c) q) a l'.
Proof.
  intro F. revert l'. induction F as [|c c' a l (q & ->) F IH]; intros l' G; inversion G as [|? y ? l2 (q2 & ->) G2]; subst; constructor; auto.
  exists q2. destruct (configure p i true c); reflexivity.
Qed.
Lemma child_accepted_parent p (l l' : list mtch) : Forall2 (fun x y => exists q, y = set_parent x q) l l' -> Forall (child_accepted p) l -> Forall (child_accepted p) l'.
Proof.
  intro F. induction F as [|x y l l' (q & ->) F IH]; intro A; inversion A as [|? ? (q' & A1) A2]; subst; constructor; auto. exists q'. revert A1. destruct x; auto.
Qed.
Lemma stage_settings p i m' cs : settings p i false m' (set_children (configure p i false m') cs) /\ m_id (set_children (configure p i false m') cs) = m_id m'
  /\ m_parent (set_children (configure p i false m') cs) = m_parent m'.
Proof.
  pose proof (@configure_settings p i false m' (m_parent (configure p i false m'))) as [A B C D E].
  split; [|split; [apply configure_id|apply configure_parent]]. constructor; [exact A|exact B|exact C|exact D|exact E].
Qed.
Lemma chain_matches_hooked p i m raw outs : process_matches p (chain_process_match p) m i = Ok (raw, outs) -> chain_hooked p i m outs.
Proof.
  unfold process_matches. destruct (apply_processor (po_pre p) m) as [[raw1 x] same] eqn:Ea. apply apply_answers in Ea.
  unfold stop_if_falsy at 1. destruct x as [m1|]; [|intro H; injection H as _ <-; apply chain_stopped_before; left; exact Ea].
  assert (answers (po_pre p) m (Same m1) \/ answers (po_pre p) m (Other m1)) as A by (destruct same; [left; apply Ea | right; exact Ea]).
  destruct (mbool m1) as [b|e] eqn:Eb; [|discriminate]. destruct (mbool_cases Eb) as [[-> L]|[-> L]].
  2:{ intro H. injection H as _ <-. apply chain_stopped_before. right. exists m1. split; assumption. }
  intro H. apply chain_went_on with m1; [exact A|exact L|]. intros [T NS].
  destruct (chain_process_spec p i T) as (nums & O & S). destruct (chain_process_match p m1 i false) as [m2 ok]. destruct ok; cbn [negb] in H.
  2:{ injection H as _ <-. destruct S as [_ S]. apply chain_refused. apply no_stage with nums; [exact O|]. intros j m'' Hj G. apply given_up_cut in G. subst m''. apply validator_rejects. auto. }
  destruct S as (k & S1 & S2 & S3 & S4). set (m' := cut m1 (firstn k nums)) in *.
  assert (first_accepted p i m1 nums k m') as FA.
  { split; [exact S1|]. split; [apply cut_given_up|]. rewrite S2 in S3. split; [now apply validator_accepts|]. intros j m'' Hj G. apply given_up_cut in G. subst m''. apply validator_rejects. auto. }
  assert (m_children m2 = m_children m') as E2 by (rewrite S2; apply configure_children).
  destruct (process_children (chain_process_match p) m2 i [] (m_children m2)) as [cs ok] eqn:C. apply children_validated in C.
  2:{ destruct NS as [NS|NS]; [now left|]. right. rewrite E2. unfold m'. rewrite cut_children. rewrite Forall_forall in *. intros c Hc. apply filter_In in Hc as [Hc _]. auto. }
  destruct C as [C1 C2]. rewrite E2 in C1, C2. destruct ok; cbn [negb] in H.
  2:{ injection H as _ <-. specialize (C2 eq_refl). apply chain_refused. destruct (stage_settings p i m' (map (configure p i true) (m_children m'))) as (X1 & X2 & X3).
      apply bad_child with nums k m' (set_children (configure p i false m') (map (configure p i true) (m_children m'))); [exact O|exact FA| |].
      - split; [exact X1|]. split; [exact X2|]. split; [exact X3|]. cbn [m_children set_children]. clear. induction (m_children m') as [|c r IH]; cbn [map]; constructor; auto.
        rewrite configure_id, configure_children. split; [|auto]. pose proof (@configure_settings p i true c (m_parent (configure p i true c))) as [A B C D E]. constructor; [exact A|exact B|exact C|exact D|exact E].
      - cbn [m_children set_children]. apply Exists_exists in C2 as (c & Hc & R). apply Exists_exists. exists (configure p i true c). split; [now apply in_map|exact R]. }
  destruct (C1 eq_refl) as (l & -> & F & G). clear C1 C2. cbn [app] in H.
  set (m3 := relink_children (set_children m2 l)) in *.
  assert (reaches p i m1 (Some m3)) as R.
  { apply good_stage with nums k m'; [exact O|exact FA| |].
    - pose proof (relinked_children (set_children m2 l)) as R1. fold m3 in R1. cbn [m_children set_children] in R1.
      assert (m3 = set_children (configure p i false m') (m_children m3)) as EQ by (unfold m3; rewrite S2; reflexivity).
      destruct (stage_settings p i m' (m_children m3)) as (X1 & X2 & X3). rewrite <- EQ in X1, X2, X3. split; [exact X1|]. split; [exact X2|]. split; [exact X3|].
      apply stage_children. exact (set_parents F R1).
    - pose proof (relinked_children (set_children m2 l)) as R1. exact (child_accepted_parent R1 G). }
  destruct (apply_processor (po_post p) m3) as [[m3' y] same'] eqn:Ep. apply apply_answers in Ep.
  unfold stop_if_falsy in H. destruct y as [m4|]; [|injection H as _ <-; apply chain_stopped with m3; [exact R|left; exact Ep]].
  assert (answers (po_post p) m3 (Same m4) \/ answers (po_post p) m3 (Other m4)) as A' by (destruct same'; [left; apply Ep | right; exact Ep]).
  destruct (mbool m4) as [b|e] eqn:Eb'; [|discriminate]. destruct (mbool_cases Eb') as [[-> L']|[-> L']].
  2:{ injection H as _ <-. apply chain_stopped with m3; [exact R|]. right. exists m4. split; assumption. }
  destruct same'.
  - injection H as _ <-. rewrite dispatch_chosen. apply chain_kept with m3 m4; [exact R | apply Ep | exact L' | apply seen_again_relink].
  - injection H as _ <-. rewrite dispatch_chosen. apply chain_exchanged with m3; [exact R | exact Ep | exact L'].
Qed.

(** ** C142 *)
Theorem C142_chain_processors : forall fuel p breaker parts n input n' outs raws,
  chain_matches fuel p breaker parts n input = Ok (n', (outs, raws)) ->
  exists found oss, chain_match fuel p breaker parts n input = Ok (n', found)
    /\ Forall2i (chain_hooked p) 0 found oss
    /\ outs = match po_post_processor p with Some f => f (concat oss) | None => concat oss end.
Proof.
  intros fuel p breaker parts n input n' outs raws H. unfold chain_matches in H. destruct (chain_match _ _ _ _ _ _) as [[k found]|] eqn:E; [|discriminate].
  destruct (finish_matches p (chain_process_match p) [found]) as [r|] eqn:F; [|discriminate]. injection H as -> ->.
  unfold finish_matches, process_patterns in F. destruct (process_all _ _ _ found) as [[rs os]|] eqn:P; [|discriminate]. rewrite app_nil_r in F. injection F as F _.
  assert (forall l i rs os, process_all p (chain_process_match p) i l = Ok (rs, os) -> exists oss, Forall2i (chain_hooked p) i l oss /\ os = concat oss) as X.
  { induction l as [|m l IH]; intros i rs0 os0 Q; cbn [process_all] in Q.
    - injection Q as <- <-. exists []. split; [constructor|reflexivity].
    - destruct (process_matches _ _ m i) as [[raw out]|] eqn:E1; [|discriminate]. destruct (process_all _ _ (S i) l) as [[rs' os']|] eqn:E2; [|discriminate]. injection Q as <- <-.
      destruct (IH _ _ _ E2) as (oss & O1 & ->). exists (out :: oss). split; [constructor; [eapply chain_matches_hooked; eauto|exact O1]|reflexivity]. }
  destruct (X _ _ _ _ P) as (oss & O1 & ->). exists found, oss. split; [reflexivity|]. split; [exact O1|]. rewrite <- F. destruct (po_post_processor p); reflexivity.
Qed.
(** the stages, and which is the first accepted, are determined *)
Theorem C142_stage_determined : forall p i m nums nums' k k' m1 m2, give_up_order m nums -> give_up_order m nums' ->
  first_accepted p i m nums k m1 -> first_accepted p i m nums' k' m2 -> nums = nums' /\ k = k' /\ m1 = m2.
Proof.
  intros p i m nums nums' k k' m1 m2 [S1 O1] [S2 O2] (L1 & G1 & A1 & B1) (L2 & G2 & A2 & B2).
  assert (nums = nums') as <-.
  { assert (forall k, In k nums <-> In k nums') as Q by (intro z; rewrite O1, O2; reflexivity). clear - S1 S2 Q. revert nums' S2 Q.
    induction S1 as [|a l S1 IH F]; intros [|b l'] S2 Q; [reflexivity|exfalso; apply (Q b); now left|exfalso; apply (proj1 (Q a)); now left|].
    inversion S2 as [|? ? S2' F']; subst. rewrite Forall_forall in F, F'.
    assert (a = b) as <-. { destruct (proj1 (Q a) (or_introl eq_refl)) as [E|H1]; [auto|]. destruct (proj2 (Q b) (or_introl eq_refl)) as [E|H2]; [auto|]. specialize (F b H2). specialize (F' a H1). lia. }
    f_equal. apply IH; [exact S2'|]. intro z. split; intro Hz.
    - destruct (proj1 (Q z) (or_intror Hz)) as [<-|H]; [|exact H]. specialize (F a Hz). lia.
    - destruct (proj2 (Q z) (or_intror Hz)) as [<-|H]; [|exact H]. specialize (F' a Hz). lia. }
  assert (k = k') as <-.
  { destruct (Nat.lt_trichotomy k k') as [H|[H|H]]; [|exact H|]; exfalso.
    - exact (accepts_rejects A1 (B2 _ _ H G1)).
    - exact (accepts_rejects A2 (B1 _ _ H G2)). }
  split; [reflexivity|]. split; [reflexivity|]. rewrite (given_up_cut G1), (given_up_cut G2). reflexivity.
Qed.
(** *** Example: the chain  a b+  of at most 3 characters in "xabbbbabxabab".  The processor before the validation names
    the first chain, drops the second, exchanges the third for one ending earlier; the one after the validation sees the
    first one shortened by the validator; the list is reversed *)
Definition turn_pre : processor := fun m =>
  if m_start m =? 1 then (set_name m (Some (s "x")), Keep)
  else if m_start m =? 6 then (m, Drop)
  else if m_start m =? 9 then (m, Replace (set_id (set_children m []) 77)) else (m, Keep).
Definition turn_post : processor := fun m => if mlen m =? 3 then (set_tags m [s "short"], Keep) else (m, Keep).
Definition turn_chain : popts :=
  new_pattern 100 no_opts DNone DNone (DSingle (Some (fun m => mlen m <=? 3))) false false false false [] [] false false (Some turn_pre) (Some turn_post) (Some (@rev mtch)).
Example C142_case :
  match chain_matches 30 turn_chain None ab_chain 0%nat (s "xabbbbabxabab"), chain_match 30 turn_chain None ab_chain 0%nat (s "xabbbbabxabab") with
  | Ok (_, (outs, _)), Ok (_, found) =>
      map m_span found = [(1, 6); (6, 8); (9, 11); (11, 13)]
      /\ map (fun m => (m_span m, m_name m, m_tags m, length (m_children m))) outs
         = [((11, 13), None, [], 2%nat); ((9, 11), None, [], 0%nat); ((1, 4), Some (s "x"), [s "short"], 3%nat)]
      /\ Forall (fun m => Forall (fun c => m_children c = []) (m_children m)) found
  | _, _ => False
  end
  /\ ~ subject turn_chain true (po_validate_all turn_chain).
Proof. split; [vm_compute; repeat split; repeat constructor|]. intros [H|[H|H]]; discriminate. Qed.
Print Assumptions C142_chain_processors.
Print Assumptions C142_stage_determined.
