(** * Chains: giving up repetitions (C79) and chain breakers (C78) *)
From Coq Require String. Export Coq.Strings.String.StringSyntax.
From Verif Require Import Base BaseFacts Match Coll Loose MatchFacts RulesFacts Pattern PatternFacts PropsLoose PropsPattern Chain SpecChain ChainFacts ChainSem PropsChain.
Set Implicit Arguments.
Unset Strict Implicit.
Open Scope string_scope.
Open Scope list_scope.
Open Scope Z_scope.

(** ** Specification of C79 *)
(** [Q] is what the validator of the chain is shown for the chain match [m], the [i]-th one: [m] with
    the options of the chain applied *)
Record presented (p : popts) (i : nat) (m Q : mtch) : Prop := {
  pr_settings : settings p i false m Q;
  pr_same : m_id Q = m_id m /\ m_parent Q = m_parent m /\ m_children Q = m_children m
}.
Definition accepts (p : popts) (i : nat) (m : mtch) : Prop := exists Q, presented p i m Q /\ accepted p false Q.
Definition rejects (p : popts) (i : nat) (m : mtch) : Prop := exists Q, presented p i m Q /\ ~ accepted p false Q.

(** the child [c] comes from the same part (pattern) as the last child *)
Definition of_last_part (m c : mtch) : Prop := exists l, hd_error (rev (m_children m)) = Some l /\ m_pattern c = m_pattern l.
(** the numbers of the repetitions of that part, from the last one *)
Definition give_up_order (m : mtch) (nums : list nat) : Prop :=
  StronglySorted (fun a b => (b < a)%nat) nums
  /\ forall k, In k nums <-> exists c, In c (m_children m) /\ of_last_part m c /\ m_index c = k.
(** [m'] is [m] without the repetitions numbered [nums] of that part; it ends with its last child *)
Record given_up (m : mtch) (nums : list nat) (m' : mtch) : Prop := {
  gu_children : exists keep, (forall c, In c (m_children m) -> (keep c = false <-> of_last_part m c /\ In (m_index c) nums))
                /\ m_children m' = filter keep (m_children m);
  gu_end : m_end m' = match nums with
                      | [] => m_end m
                      | _ => match rev (m_children m') with c :: _ => m_end c | [] => m_start m end
                      end;
  gu_rest : set_children (set_end m' 0) [] = set_children (set_end m 0) []
}.

(** children that are equal (==) belong to the same repetition of the same part *)
Definition equal_together (m : mtch) : Prop := forall c d, In c (m_children m) -> In d (m_children m) -> meq c d = true ->
  m_pattern c = m_pattern d /\ m_index c = m_index d.

(** [P] is [m'] with the options of the chain applied to it and to its children *)
Definition configured_as (p : popts) (i : nat) (m' P : mtch) : Prop :=
  settings p i false m' P /\ m_parent P = m_parent m' /\ Forall2 (settings p i true) (m_children m') (m_children P).

(** what is returned for the [i]-th chain found *)
Definition chain_produces (p : popts) (i : nat) (m : mtch) (outs : list mtch) : Prop :=
  exists nums, give_up_order m nums /\
  ( (m_start m <> m_end m /\ exists k m' P, (k <= length nums)%nat /\ given_up m (firstn k nums) m' /\ accepts p i m'
       /\ (forall j m'', (j < k)%nat -> given_up m (firstn j nums) m'' -> rejects p i m'')
       /\ configured_as p i m' P /\ outs = (if m_start P =? m_end P then [] else chosen p P))
  \/ ((m_start m = m_end m \/ forall j m'', (j <= length nums)%nat -> given_up m (firstn j nums) m'' -> rejects p i m'') /\ outs = [])).

(** ** Proofs *)
Lemma mtch_ext a b : m_id a = m_id b -> m_start a = m_start b -> m_end a = m_end b -> m_lit a = m_lit b -> m_name a = m_name b ->
  m_tags a = m_tags b -> m_marker a = m_marker b -> m_private a = m_private b -> m_fmt a = m_fmt b -> m_solver a = m_solver b ->
  m_input a = m_input b -> m_rawstart a = m_rawstart b -> m_rawend a = m_rawend b -> m_index a = m_index b -> m_pattern a = m_pattern b ->
  m_parent a = m_parent b -> m_children a = m_children b -> a = b.
Proof. destruct a, b; cbn. intros; subst; reflexivity. Qed.
Lemma presented_fun p i m Q Q' : presented p i m Q -> presented p i m Q' -> Q = Q'.
Proof.
  intros [[(A1 & A2 & A3 & A4 & A5 & A6 & A7 & _ & _ & A8 & A9) A10 A11 (v & A12 & A13 & A14) [A15 A16]] (A17 & A18 & A19)].
  intros [[(B1 & B2 & B3 & B4 & B5 & B6 & B7 & _ & _ & B8 & B9) B10 B11 (w & B12 & B13 & B14) [B15 B16]] (B17 & B18 & B19)].
  pose proof (resolves_fun A12 B12) as ->. unfold m_span in *. injection A1 as A1 A1'. injection B1 as B1 B1'.
  assert (m_private Q = m_private Q') as E1. { clear - A11 B11. destruct (m_private Q), (m_private Q'); auto; [symmetry; apply B11, A11; reflexivity|apply A11, B11; reflexivity]. }
  assert (m_lit Q = m_lit Q') as E2. { destruct (truthy w); [rewrite A13, B13|rewrite A14, B14]; auto. }
  assert (m_fmt Q = m_fmt Q') as E3.
  { assert (subject p false (po_format_all p) \/ ~ subject p false (po_format_all p)) as [D|D].
    { rewrite <- subject_included. destruct (_ || _)%bool; auto. }
    - exact (resolves_fun (A15 D) (B15 D)).
    - rewrite A16, B16; auto. }
  apply mtch_ext; congruence.
Qed.
Lemma accepts_rejects p i m : accepts p i m -> rejects p i m -> False.
Proof. intros (Q & A & B) (Q' & A' & B'). rewrite (presented_fun A A') in B. contradiction. Qed.

Lemma configure_presented p i m : presented p i m (configure p i false m).
Proof.
  split; [|rewrite configure_id, configure_parent, configure_children; auto].
  pose proof (@configure_settings p i false m (m_parent m)) as S.
  assert (set_parent (configure p i false m) (m_parent m) = configure p i false m) as E; [|now rewrite E in S].
  pose proof (configure_parent p i false m) as X. destruct (configure p i false m); simpl in *. now subst.
Qed.
Lemma validator_accepts p i m : process_validator p (configure p i false m) false = true -> accepts p i m.
Proof. intro H. apply validator_accepted in H. eexists; split; [apply configure_presented|exact H]. Qed.
Lemma validator_rejects p i m : process_validator p (configure p i false m) false = false -> rejects p i m.
Proof. intro H. eexists; split; [apply configure_presented|]. intro X. apply validator_accepted in X. congruence. Qed.

(** *** removing a whole class of equal matches *)
Definition drop_all (g l : list mtch) : list mtch :=
  fold_left (fun cs x => match remove_first (meq x) cs with Some cs' => cs' | None => cs end) g l.
Lemma meq_sym a b : meq a b = meq b a.
Proof.
  destruct (meq a b) eqn:E, (meq b a) eqn:F; auto; [apply meq_mkey in E; symmetry in E; apply meq_mkey in E; congruence|].
  apply meq_mkey in F; symmetry in F; apply meq_mkey in F; congruence.
Qed.
Lemma meq_trans_eq a b c : meq a b = true -> meq a c = meq b c.
Proof.
  intro H. apply meq_mkey in H. destruct (meq a c) eqn:E, (meq b c) eqn:F; auto; [apply meq_mkey in E|apply meq_mkey in F].
  - rewrite H in E. apply meq_mkey in E. congruence.
  - rewrite <- H in F. apply meq_mkey in F. congruence.
Qed.
Lemma countb_cons {A} (f : A -> bool) x l : countb f (x :: l) = ((if f x then 1 else 0) + countb f l)%nat.
Proof. unfold countb. simpl. destruct (f x); reflexivity. Qed.
Lemma countb_app2 {A} (f : A -> bool) a b : countb f (a ++ b) = (countb f a + countb f b)%nat.
Proof. unfold countb. now rewrite filter_app, app_length. Qed.
Lemma countb_pos {A} (f : A -> bool) l : (0 < countb f l)%nat <-> exists x, In x l /\ f x = true.
Proof.
  unfold countb. split.
  - destruct (filter f l) as [|x r] eqn:E; simpl; [lia|]. intros _. exists x. apply filter_In. rewrite E. now left.
  - intros (x & Hx). apply filter_In in Hx. destruct (filter f l); [contradiction|simpl; lia].
Qed.
Lemma drop_all_filter : forall g l, (forall y, countb (meq y) g = countb (meq y) l \/ countb (meq y) g = 0%nat) ->
  drop_all g l = filter (fun c => negb (existsb (meq c) g)) l.
Proof.
  induction g as [|x g IH]; intros l H; cbn [drop_all fold_left existsb].
  - induction l as [|c l IH]; simpl; [reflexivity|]. f_equal. apply IH. intro y. right. reflexivity.
  - destruct (remove_first (meq x) l) as [l'|] eqn:E.
    + change (fold_left _ g l') with (drop_all g l'). apply remove_first_Some in E as (a & z & b & -> & Hz & _ & ->).
      assert (forall y, countb (meq y) (x :: g) = ((if meq y x then 1 else 0) + countb (meq y) g)%nat) as C1 by (intro; apply countb_cons).
      assert (forall y, countb (meq y) (a ++ z :: b) = ((if meq y x then 1 else 0) + countb (meq y) (a ++ b))%nat) as C2.
      { intro y. rewrite !countb_app2, countb_cons. rewrite (meq_sym y z), <- (meq_trans_eq y Hz), (meq_sym x y). lia. }
      rewrite IH.
      * rewrite !filter_app. cbn [filter]. rewrite (meq_sym z x), Hz. cbn [orb negb].
        rewrite <- !filter_app. apply filter_ext_in. intros y Hy. f_equal.
        destruct (meq y x) eqn:Ey; [|reflexivity]. cbn [orb]. apply existsb_exists.
        assert (0 < countb (meq y) g)%nat as P.
        { destruct (H y) as [H1|H1]; rewrite C1, Ey in H1; [|lia]. rewrite C2, Ey in H1.
          assert (0 < countb (meq y) (a ++ b))%nat; [|lia]. apply countb_pos. exists y. split; auto. apply meq_mkey. reflexivity. }
        apply countb_pos in P. exact P.
      * intro y. destruct (H y) as [H1|H1]; rewrite C1 in H1; [rewrite C2 in H1; left; lia|right; lia].
    + exfalso. rewrite remove_first_None in E. destruct (H x) as [H1|H1]; rewrite countb_cons in H1; assert (meq x x = true) as R by (now apply meq_mkey); rewrite R in H1; [|lia].
      assert (0 < countb (meq x) l)%nat as P by lia. apply countb_pos in P as (y & Hy & Hy'). rewrite (E y Hy) in Hy'. discriminate.
Qed.

(** *** the groups that are given up *)
Lemma groups_spec l : StronglySorted Nat.lt (map fst (group_by_index l))
  /\ (forall k, In k (map fst (group_by_index l)) <-> exists c, In c l /\ m_index c = k)
  /\ Forall (fun kg => snd kg = filter (fun c => Nat.eqb (fst kg) (m_index c)) l) (group_by_index l).
Proof.
  set (lt := fun a b : mtch => Nat.ltb (m_index a) (m_index b)).
  assert (forall x y z, lt y x = false -> lt z y = false -> lt z x = false) as T.
  { unfold lt. intros x y z H1 H2. apply Nat.ltb_ge in H1, H2. apply Nat.ltb_ge. lia. }
  assert (forall x y, lt x y = true -> lt y x = false) as As.
  { unfold lt. intros x y H. apply Nat.ltb_lt in H. apply Nat.ltb_ge. lia. }
  assert (StronglySorted (fun a b : mtch => (m_index a < m_index b)%nat \/ m_index a = m_index b) (sort_by lt l)) as S.
  { pose proof (@sort_by_sorted mtch lt T As l) as X. clear - X. induction X as [|a r X IH F]; constructor; auto.
    eapply Forall_impl; [|exact F]. intros b H. unfold le, lt in H. apply Nat.ltb_ge in H. lia. }
  pose proof (@groupby_sorted mtch nat _ m_index Nat.lt _ Nat.lt_trans S) as G. change (sort_by lt l) with (sort_by (fun a b => Nat.ltb (m_index a) (m_index b)) l) in G.
  fold (group_by_index l) in G. split; [exact G|]. split.
  - intro k. unfold group_by_index. rewrite groupby_keys. split; intros (c & H1 & H2); exists c; split; auto; [eapply sort_by_In; exact H1|apply sort_by_In; exact H1].
  - apply Forall_forall. intros [k g] H. cbn [fst snd]. unfold group_by_index in H. apply groupby_group in H.
    + rewrite H. change (fun x : mtch => eqb k (m_index x)) with (fun c : mtch => Nat.eqb k (m_index c)). apply (@sort_by_stable mtch lt T As).
      intros x y H1 H2. apply Nat.eqb_eq in H1, H2. unfold lt. apply Nat.ltb_ge. lia.
    + fold (group_by_index l). clear - G. induction G as [|a r G IH F]; constructor; auto. intro H. rewrite Forall_forall in F. specialize (F a H). lia.
Qed.

(** [m] without the first [k] of [nums] *)
Definition last_part (m c : mtch) : bool :=
  match hd_error (rev (m_children m)) with Some l => option_eqb Nat.eqb (m_pattern c) (m_pattern l) | None => false end.
Lemma last_part_spec m c : last_part m c = true <-> of_last_part m c.
Proof.
  unfold last_part, of_last_part. destruct (hd_error _) as [l|]; [|split; [discriminate|intros (? & ? & _); discriminate]].
  rewrite (option_eqb_spec _ Nat.eqb_eq). split; [eauto|]. intros (l' & E & H). congruence.
Qed.
Definition kept (m : mtch) (nums : list nat) (c : mtch) : bool := negb (last_part m c && existsb (Nat.eqb (m_index c)) nums).
Definition cut_to (m : mtch) (cs : list mtch) : mtch := set_end (set_children m cs) (match rev cs with x :: _ => m_end x | [] => m_start m end).
Definition cut (m : mtch) (nums : list nat) : mtch :=
  match nums with [] => m | _ => cut_to m (filter (kept m nums) (m_children m)) end.
Lemma cut_children m nums : m_children (cut m nums) = filter (kept m nums) (m_children m).
Proof.
  destruct nums as [|a r]; cbn [cut]; [|destruct m; reflexivity]. symmetry. apply filter_all. intros c _. unfold kept. simpl. now rewrite andb_false_r.
Qed.
Lemma kept_spec m nums c : kept m nums c = false <-> of_last_part m c /\ In (m_index c) nums.
Proof.
  unfold kept. rewrite negb_false_iff, andb_true_iff, last_part_spec, existsb_exists. split; intros [H1 H2]; split; auto.
  - destruct H2 as (x & Hx & E). apply Nat.eqb_eq in E. now subst.
  - eexists; split; [exact H2|apply Nat.eqb_refl].
Qed.
Lemma cut_given_up m nums : given_up m nums (cut m nums).
Proof.
  constructor.
  - exists (kept m nums). split; [intros c _; apply kept_spec|apply cut_children].
  - rewrite cut_children. destruct nums; destruct m; reflexivity.
  - destruct nums; destruct m; reflexivity.
Qed.
Lemma given_up_cut m nums m' : given_up m nums m' -> m' = cut m nums.
Proof.
  intros [(keep & K1 & K2) E R]. assert (m_children m' = m_children (cut m nums)) as C.
  { rewrite cut_children, K2. apply filter_ext_in. intros c Hc. specialize (K1 c Hc). rewrite <- kept_spec in K1.
    destruct K1 as [K1 K3]. destruct (keep c), (kept m nums c); auto; symmetry; auto. }
  destruct (cut_given_up m nums) as [_ E' R']. rewrite <- C in E'. rewrite <- E in E'. rewrite <- R in R'. clear - C E' R'.
  apply mtch_ext; auto; first [exact (f_equal m_id (eq_sym R'))|exact (f_equal m_start (eq_sym R'))|exact (f_equal m_lit (eq_sym R'))|exact (f_equal m_name (eq_sym R'))|exact (f_equal m_tags (eq_sym R'))|exact (f_equal m_marker (eq_sym R'))|exact (f_equal m_private (eq_sym R'))|exact (f_equal m_fmt (eq_sym R'))|exact (f_equal m_solver (eq_sym R'))|exact (f_equal m_input (eq_sym R'))|exact (f_equal m_rawstart (eq_sym R'))|exact (f_equal m_rawend (eq_sym R'))|exact (f_equal m_index (eq_sym R'))|exact (f_equal m_pattern (eq_sym R'))|exact (f_equal m_parent (eq_sym R'))].
Qed.

Lemma countb_filter_in {A} (f P : A -> bool) l : (forall c, In c l -> f c = true -> P c = true) -> countb f (filter P l) = countb f l.
Proof.
  induction l as [|c l IH]; intro H; [reflexivity|]. cbn [filter]. rewrite countb_cons, <- (IH (fun x h => H x (or_intror h))).
  destruct (P c) eqn:E; [now rewrite countb_cons|]. destruct (f c) eqn:F; [|reflexivity]. rewrite (H c (or_introl eq_refl) F) in E. discriminate.
Qed.

Lemma cut_step m nums k : equal_together m -> ~ In k nums ->
  drop_all (filter (fun c => Nat.eqb k (m_index c)) (filter (last_part m) (m_children m))) (m_children (cut m nums)) = m_children (cut m (nums ++ [k])).
Proof.
  intros T N. rewrite !cut_children. set (L := m_children m) in *.
  set (P := fun c => last_part m c && Nat.eqb k (m_index c)).
  assert (filter (fun c => Nat.eqb k (m_index c)) (filter (last_part m) L) = filter P L) as ->.
  { rewrite filter_filter. apply filter_ext. intro c. unfold P. apply andb_comm || reflexivity. }
  assert (forall c d, In c L -> In d L -> meq c d = true -> P c = P d) as PE.
  { intros c d Hc Hd E. destruct (T c d Hc Hd E) as [E1 E2]. unfold P, last_part. rewrite E1, E2. reflexivity. }
  assert (forall c, P c = true -> kept m nums c = true) as PR.
  { intros c H. destruct (kept m nums c) eqn:K; auto. apply kept_spec in K as [_ K]. unfold P in H. apply andb_true_iff in H as [_ H]. apply Nat.eqb_eq in H. subst. contradiction. }
  assert (forall c d, In c L -> In d L -> meq c d = true -> kept m nums c = kept m nums d) as KE.
  { intros c d Hc Hd E. destruct (T c d Hc Hd E) as [E1 E2]. unfold kept, last_part. rewrite E1, E2. reflexivity. }
  rewrite drop_all_filter.
  - rewrite filter_filter. apply filter_ext_in. intros c Hc.
    assert (existsb (meq c) (filter P L) = P c) as ->.
    { destruct (P c) eqn:E.
      - apply existsb_exists. exists c. split; [apply filter_In; auto|]. now apply meq_mkey.
      - apply existsb_false_iff. intros d Hd. apply filter_In in Hd as [Hd1 Hd2]. destruct (meq c d) eqn:M; auto. rewrite (PE c d Hc Hd1 M) in E. congruence. }
    unfold P, kept. rewrite existsb_app. cbn [existsb]. rewrite (Nat.eqb_sym (m_index c) k).
    destruct (last_part m c), (existsb _ nums), (Nat.eqb k (m_index c)); reflexivity.
  - intro y. destruct (existsb (fun c => meq y c && P c) L) eqn:E.
    + left. apply existsb_exists in E as (x & Hx & Ex). apply andb_true_iff in Ex as [Ex Px].
      rewrite !countb_filter_in; auto.
      * intros c Hc Hy. apply PR. rewrite <- Px. apply PE; auto. rewrite meq_sym. rewrite (meq_trans_eq _ (eq_trans (meq_sym x y) Ex)). exact Hy || (rewrite meq_sym; exact Hy).
      * intros c Hc Hy. rewrite <- Px. apply PE; auto. rewrite meq_sym. rewrite (meq_trans_eq _ (eq_trans (meq_sym x y) Ex)). exact Hy || (rewrite meq_sym; exact Hy).
    + right. rewrite existsb_false_iff in E. unfold countb. apply length_zero_iff_nil. apply filter_nil_iff. intros c Hc. apply filter_In in Hc as [Hc1 Hc2].
      specialize (E c Hc1). rewrite Hc2, andb_true_r in E. exact E.
Qed.

(** *** configuring twice is configuring once *)
Lemma configure_again p i m cs e : configure p i false (set_end (set_children (configure p i false m) cs) e) = configure p i false (set_end (set_children m cs) e).
Proof.
  assert (forall x, m_name (set_end (set_children x cs) e) = m_name x) as N by (intro x; destruct x; reflexivity).
  assert (forall x, m_private (set_end (set_children x cs) e) = m_private x) as Pr by (intro x; destruct x; reflexivity).
  assert (forall x, m_lit (set_end (set_children x cs) e) = m_lit x) as Li by (intro x; destruct x; reflexivity).
  assert (forall x, m_fmt (set_end (set_children x cs) e) = m_fmt x) as Fm by (intro x; destruct x; reflexivity).
  assert (forall a b, m_name a = m_name b -> config_keys a false = config_keys b false) as CK by (intros a b E; unfold config_keys; now rewrite E).
  apply mtch_ext; rewrite ?configure_id, ?configure_start, ?configure_end, ?configure_name, ?configure_tags, ?configure_marker, ?configure_solver, ?configure_input,
    ?configure_rawstart, ?configure_rawend, ?configure_index, ?configure_pattern, ?configure_parent, ?configure_children.
  1,2,3,5,6,7,10,11,12,13,14,15,16,17: destruct m; unfold configure, process_formatter, process_value, process_private, process_index; cbv zeta; simpl; repeat match goal with |- context [if ?b then _ else _] => destruct b end; reflexivity.
  - rewrite !configure_lit. rewrite !Li, configure_lit. rewrite (CK _ (set_end (set_children m cs) e)) by (rewrite !N, configure_name; reflexivity).
    rewrite (CK m (set_end (set_children m cs) e)) by (now rewrite N). cbv zeta. destruct (truthy _); reflexivity.
  - rewrite !configure_private. rewrite !Pr, !N, !configure_private, !configure_name. cbn [negb andb]. 
    destruct (m_private m), (truthy_name _ && mem _ _ _)%bool, (po_private_parent p); reflexivity.
  - rewrite !configure_fmt. rewrite !Fm, configure_fmt. rewrite (CK _ (set_end (set_children m cs) e)) by (rewrite !N, configure_name; reflexivity).
    rewrite (CK m (set_end (set_children m cs) e)) by (now rewrite N). destruct (_ || _)%bool; reflexivity.
Qed.
Lemma cut_to_again p i m cs : configure p i false (cut_to (configure p i false m) cs) = configure p i false (cut_to m cs).
Proof. unfold cut_to. rewrite configure_start. apply configure_again. Qed.
Lemma cut_to_twice m cs cs' : cut_to (cut_to m cs) cs' = cut_to m cs'.
Proof. destruct m; reflexivity. Qed.

Lemma cut_to_cut m nums cs : cut_to (cut m nums) cs = cut_to m cs.
Proof. destruct nums; [reflexivity|apply cut_to_twice]. Qed.

Lemma shrink_spec p i m : equal_together m -> forall kgs nums,
  Forall (fun kg => snd kg = filter (fun c => Nat.eqb (fst kg) (m_index c)) (filter (last_part m) (m_children m))) kgs ->
  NoDup (nums ++ map fst kgs) ->
  match shrink p i false (map snd kgs) (configure p i false (cut m nums)) with
  | Some m2 => exists k, (0 < k <= length kgs)%nat /\ m2 = configure p i false (cut m (nums ++ firstn k (map fst kgs)))
               /\ process_validator p m2 false = true
               /\ forall j, (0 < j < k)%nat -> process_validator p (configure p i false (cut m (nums ++ firstn j (map fst kgs)))) false = false
  | None => forall j, (0 < j <= length kgs)%nat -> process_validator p (configure p i false (cut m (nums ++ firstn j (map fst kgs)))) false = false
  end.
Proof.
  intro T. induction kgs as [|[k0 g] kgs IH]; intros nums F N; cbn [map shrink fst snd length] in *; [intros j Hj; lia|].
  inversion F as [|? ? F1 F2]; subst. cbn [fst snd] in F1.
  change (fold_left _ g ?l) with (drop_all g l).
  assert (drop_all g (m_children (configure p i false (cut m nums))) = m_children (cut m (nums ++ [k0]))) as D.
  { rewrite configure_children, F1. apply cut_step; auto. apply NoDup_remove_2 in N. intro H. apply N. apply in_or_app. now left. }
  rewrite D. change (set_end (set_children ?x ?cs) _) with (cut_to x cs). rewrite process_match_eq, cut_to_again.
  assert (cut_to (cut m nums) (m_children (cut m (nums ++ [k0]))) = cut m (nums ++ [k0])) as Ec.
  { rewrite cut_to_cut, cut_children. destruct nums; reflexivity. }
  rewrite Ec. set (m1 := configure p i false (cut m (nums ++ [k0]))) in *.
  destruct (process_validator p m1 false) eqn:V.
  - exists 1%nat. split; [lia|]. split; [reflexivity|]. split; [exact V|]. intros j Hj. lia.
  - specialize (IH (nums ++ [k0]) F2). rewrite <- app_assoc in IH. specialize (IH N). fold m1 in IH. destruct (shrink p i false (map snd kgs) m1) as [m2|].
    + destruct IH as (k & K1 & K2 & K3 & K4). exists (S k). split; [lia|]. cbn [firstn]. rewrite <- app_assoc in K2. split; [exact K2|]. split; [exact K3|].
      intros [|[|j]] Hj; [lia|exact V|]. cbn [firstn]. specialize (K4 (S j)). rewrite <- app_assoc in K4. apply K4. lia.
    + intros [|[|j]] Hj; [lia|exact V|]. specialize (IH (S j)). rewrite <- app_assoc in IH. apply IH. lia.
Qed.

Lemma order_exists m : exists kgs, give_up_order m (map fst kgs)
  /\ Forall (fun kg => snd kg = filter (fun c => Nat.eqb (fst kg) (m_index c)) (filter (last_part m) (m_children m))) kgs
  /\ kgs = rev (group_by_index (filter (last_part m) (m_children m))).
Proof.
  destruct (groups_spec (filter (last_part m) (m_children m))) as (G1 & G2 & G3). eexists. split; [|split; [|reflexivity]].
  2:{ apply Forall_forall. intros kg H. apply in_rev in H. rewrite Forall_forall in G3. apply G3, H. }
  rewrite map_rev. split.
  - clear G2 G3. induction G1 as [|a r G IH F]; simpl; [constructor|]. apply sorted_app; auto; [repeat constructor|].
    intros x y Hx [<-|[]]. apply in_rev in Hx. rewrite Forall_forall in F. apply F, Hx.
  - intro k. rewrite <- in_rev, G2. split.
    + intros (c & H1 & H2). apply filter_In in H1 as [H1 H3]. apply last_part_spec in H3. eauto.
    + intros (c & H1 & H2 & H3). exists c. split; auto. apply filter_In. split; auto. now apply last_part_spec.
Qed.
Lemma order_nodup m nums : give_up_order m nums -> NoDup nums.
Proof. intros [S _]. induction S as [|a r S IH F]; constructor; auto. intro H. rewrite Forall_forall in F. specialize (F a H). lia. Qed.

Lemma chain_process_spec p i m : equal_together m -> exists nums, give_up_order m nums /\
  match chain_process_match p m i false with
  | (m2, true) => exists k, (k <= length nums)%nat /\ m2 = configure p i false (cut m (firstn k nums))
      /\ process_validator p m2 false = true
      /\ forall j, (j < k)%nat -> process_validator p (configure p i false (cut m (firstn j nums))) false = false
  | (m2, false) => m2 = configure p i false m /\ forall j, (j <= length nums)%nat -> process_validator p (configure p i false (cut m (firstn j nums))) false = false
  end.
Proof.
  intro T. destruct (order_exists m) as (kgs & O & F & K). exists (map fst kgs). split; [exact O|]. unfold chain_process_match. rewrite process_match_eq.
  destruct (process_validator p (configure p i false m) false) eqn:V.
  { exists 0%nat. split; [lia|]. split; [reflexivity|]. split; [exact V|]. intros j Hj; lia. }
  rewrite configure_children. destruct (rev (m_children m)) as [|l r] eqn:R.
  { apply (f_equal (@rev _)) in R. rewrite rev_involutive in R. split; [reflexivity|]. rewrite R in K. simpl in K. subst kgs. intros [|j] Hj; [exact V|simpl in Hj; lia]. }
  assert (filter (fun c => option_eqb Nat.eqb (m_pattern c) (m_pattern l)) (m_children m) = filter (last_part m) (m_children m)) as ->.
  { apply filter_ext. intro c. unfold last_part. rewrite R. reflexivity. }
  rewrite <- map_rev, <- K. pose proof (@shrink_spec p i m T kgs [] F (order_nodup O)) as S. cbn [app cut] in S.
  destruct (shrink p i false (map snd kgs) (configure p i false m)) as [m2|].
  - destruct S as (k & S1 & S2 & S3 & S4). exists k. rewrite map_length. split; [lia|]. split; [exact S2|]. split; [exact S3|].
    intros [|j] Hj; [exact V|]. apply S4. lia.
  - split; [reflexivity|]. rewrite map_length. intros [|j] Hj; [exact V|]. apply S. lia.
Qed.

(** *** the children are configured; none is refused *)
Lemma children_configured p i parent : ~ subject p true (po_validate_all p) -> forall todo done cs ok,
  process_children (chain_process_match p) parent i done todo = (cs, ok) ->
  ok = true /\ exists l, cs = done ++ l /\ Forall2 (fun c c' => exists q, c' = set_parent (configure p i true c) q) todo l.
Proof.
  intros NS. induction todo as [|c r IH]; intros done cs ok H; cbn [process_children] in H.
  - injection H as <- <-. split; [reflexivity|]. exists []. rewrite app_nil_r. split; constructor.
  - unfold chain_process_match in H at 1. rewrite process_match_eq in H.
    assert (process_validator p (configure p i true (relink (parent :: done) c)) true = true) as V by (apply validator_accepted; intro X; contradiction).
    rewrite V in H. apply IH in H as (H & l & -> & F). split; [exact H|]. eexists (_ :: l). rewrite <- app_assoc. split; [reflexivity|].
    constructor; [|exact F]. unfold relink. rewrite configure_set_parent. eexists; reflexivity.
Qed.
Lemma relinked_children (m : mtch) : Forall2 (fun c c' => exists q, c' = set_parent c q) (m_children m) (m_children (relink_children m)).
Proof.
  unfold relink_children. assert (forall l objs, Forall2 (fun c c' => exists q, c' = set_parent c q) l (map (relink objs) l)) as X.
  { induction l as [|c r IH]; intro objs; simpl; constructor; auto. eexists; reflexivity. }
  destruct m; apply X.
Qed.

Lemma configured_forall2 p i (a b c d : list mtch) :
  Forall2 (fun x y => exists q, y = set_parent (configure p i true x) q) a b -> Forall2 (fun x y => exists q, y = set_parent x q) b c ->
  Forall2 (fun x y => exists q, y = set_parent x q) c d -> Forall2 (settings p i true) a d.
Proof.
  intros H1. revert c d. induction H1 as [|x y a b (q1 & ->) H1 IH]; intros c d H2 H3.
  - inversion H2; subst. inversion H3; subst. constructor.
  - inversion H2 as [|? z ? c' (q2 & ->) H2']; subst. inversion H3 as [|? w ? d' (q3 & ->) H3']; subst. constructor; [|eauto].
    pose proof (@configure_settings p i true x q3) as S. destruct (configure p i true x); exact S.
Qed.
Lemma chain_processed p i m raw outs : no_processor p -> ~ subject p true (po_validate_all p) -> equal_together m ->
  process_matches p (chain_process_match p) m i = Ok (raw, outs) -> chain_produces p i m outs.
Proof.
  intros (N1 & N2 & _) NS T H. unfold process_matches in H. rewrite N1 in H. cbn [apply_processor] in H. unfold stop_if_falsy at 1 in H.
  destruct (chain_process_spec p i T) as (nums & O & S). exists nums. split; [exact O|].
  unfold mbool at 1 in H. destruct (mlen m <? 0); [discriminate|]. unfold mlen in H. destruct (Z.eqb_spec (m_end m - m_start m) 0) as [Z0|Z0]; cbn [negb] in H.
  { injection H as _ <-. right. split; [left; lia|reflexivity]. }
  destruct (chain_process_match p m i false) as [m2 ok]. destruct ok; cbn [negb] in H.
  2:{ injection H as _ <-. destruct S as [_ S]. right. split; [|reflexivity]. right. intros j m'' Hj G. apply given_up_cut in G. subst m''. apply validator_rejects. auto. }
  destruct S as (k & S1 & S2 & S3 & S4). left. split; [lia|]. rewrite S2 in S3.
  destruct (process_children (chain_process_match p) m2 i [] (m_children m2)) as [cs ok] eqn:C. apply children_configured in C as (-> & l & -> & C); auto. cbn [negb app] in H.
  rewrite N2 in H. cbn [apply_processor] in H. unfold stop_if_falsy in H.
  set (m3 := relink_children (set_children m2 l)) in *. unfold mbool in H. destruct (mlen m3 <? 0); [discriminate|].
  exists k, (cut m (firstn k nums)), (relink_children m3). split; [exact S1|]. split; [apply cut_given_up|]. split; [now apply validator_accepts|]. split.
  { intros j m'' Hj G. apply given_up_cut in G. subst m''. apply validator_rejects. auto. }
  assert (forall x, m_start (relink_children x) = m_start x /\ m_end (relink_children x) = m_end x) as RS by (intro x; destruct x; split; reflexivity).
  split.
  - split; [|split].
    + pose proof (configure_presented p i (cut m (firstn k nums))) as [[A B Cc D E] _]. rewrite <- S2 in *. destruct m2; constructor; [exact A|exact B|exact Cc|exact D|exact E].
    + transitivity (m_parent m2); [destruct m2; reflexivity|]. subst m2. apply configure_parent.
    + pose proof (relinked_children (set_children m2 l)) as R1. pose proof (relinked_children m3) as R2. fold m3 in R1.
      assert (m_children (set_children m2 l) = l) as E by (destruct m2; reflexivity). rewrite E in R1.
      assert (m_children m2 = m_children (cut m (firstn k nums))) as E2 by (rewrite S2; apply configure_children). rewrite E2 in C.
      exact (configured_forall2 C R1 R2).
  - destruct (RS m3) as [-> ->]. unfold mlen in H. destruct (Z.eqb_spec (m_end m3 - m_start m3) 0); cbn [negb] in H; injection H as _ <-.
    + now rewrite (proj2 (Z.eqb_eq _ _)) by lia.
    + rewrite (proj2 (Z.eqb_neq _ _)) by lia. apply dispatch_chosen.
Qed.

(** ** C79 *)
(** For each chain found, from the last repetition of its last part backwards, repetitions are given up one at a time
    until the validator accepts what is left: the matches returned are those of the first accepted stage, or none
    if every stage is refused.  (Children are not subject to validation here; the chains found
    have no equal children in different repetitions.) *)
Theorem C79_longest_accepted : forall fuel p breaker parts n input n' outs raws,
  no_processor p -> ~ subject p true (po_validate_all p) ->
  chain_matches fuel p breaker parts n input = Ok (n', (outs, raws)) ->
  exists found, chain_match fuel p breaker parts n input = Ok (n', found)
    /\ (Forall equal_together found -> exists oss, Forall2i (chain_produces p) 0 found oss /\ outs = concat oss).
Proof.
  intros fuel p breaker parts n input n' outs raws N NS H. unfold chain_matches in H. destruct (chain_match _ _ _ _ _ _) as [[k found]|] eqn:E; [|discriminate].
  destruct (finish_matches p (chain_process_match p) [found]) as [r|] eqn:F; [|discriminate]. injection H as -> ->. exists found. split; [reflexivity|]. intro T.
  unfold finish_matches, process_patterns in F. destruct (process_all _ _ _ found) as [[rs os]|] eqn:P; [|discriminate]. injection F as F _.
  rewrite (proj2 (proj2 N)), app_nil_r in F. subst os. clear E. revert P. generalize 0%nat. revert outs rs. induction T as [|m ms T0 T IH]; intros outs rs j P; cbn [process_all] in P.
  - injection P as <- <-. exists []. split; constructor.
  - destruct (process_matches _ _ _ _) as [[raw out]|] eqn:E; [|discriminate]. destruct (process_all _ _ _ ms) as [[rs' os']|] eqn:Q; [|discriminate]. injection P as <- <-.
    destruct (IH _ _ _ Q) as (oss & A & ->). exists (out :: oss). split; [|reflexivity]. constructor; auto. eapply chain_processed; eauto.
Qed.

(** The condition on equal children holds for chains of ordinary parts whose matches have no groups *)
Theorem C79_no_equal_children : forall fuel p breaker parts n input n' found, Forall ordinary parts -> steady parts ->
  chain_match fuel p breaker parts n input = Ok (n', found) ->
  forall m, In m found -> Forall (fun c => m_children c = []) (m_children m) -> equal_together m.
Proof.
  intros fuel p breaker parts n input n' found O S H m Hm L.
  destruct (C44_pieces_in_place_partial O S H Hm) as (b & pieces & e & vs & f & l & B & La & A & _ & _ & _ & _ & C).
  destruct (laid_sorted O La) as (_ & S1 & S2).
  destruct (@among_sorted vs (shown parts pieces) A) as [S3 S4].
  { eapply subseq_sorted; [apply shown_subseq|exact S1]. }
  { rewrite Forall_forall in *. intros x Hx. apply S2. eapply subseq_In; [apply shown_subseq|exact Hx]. }
  assert (Forall (fun v => m_children v = []) vs) as LV.
  { apply Forall_forall. intros v Hv. assert (In v (flat_map (fun v => m_children v ++ [v]) vs)) as Hf.
    { apply in_flat_map. exists v. split; auto. apply in_or_app. right. now left. }
    clear - C Hf L. induction C as [|x y a d E C IH]; [contradiction|]. inversion L as [|? ? L1 L2]; subst. destruct Hf as [->|Hf]; auto.
    rewrite <- (set_parent_children v None), <- E, set_parent_children. exact L1. }
  assert (flat_map (fun v => m_children v ++ [v]) vs = vs) as Ev.
  { clear - LV. induction LV as [|v vs E LV IH]; [reflexivity|]. simpl. rewrite E, IH. reflexivity. }
  rewrite Ev in C.
  assert (StronglySorted precedes (m_children m) /\ Forall (fun x => m_start x < m_end x) (m_children m)) as [S5 S6].
  { clear - C S3 S4. assert (forall v c, set_parent c None = set_parent v None -> m_start c = m_start v /\ m_end c = m_end v) as X.
    { intros v c E. split; [exact (f_equal m_start E)|exact (f_equal m_end E)]. }
    induction C as [|v c vs cs E C IH]; [split; constructor|]. inversion S3 as [|? ? S5 S6]; subst. inversion S4 as [|? ? S7 S8]; subst. destruct (IH S5 S8) as [I1 I2].
    destruct (X _ _ E) as [X1 X2]. split; constructor; auto; [|lia]. clear - C S6 X X1 X2. induction C as [|v' c' vs cs E C IH]; constructor; inversion S6; subst; auto.
    destruct (X _ _ E). unfold precedes in *. lia. }
  clear - S5 S6. intros c d Hc Hd E. assert (c = d) as ->; [|auto]. rewrite meq_unfold in E. repeat (apply andb_prop in E as [E _]).
  apply Z.eqb_eq in E. induction S5 as [|x r S IH F]; [contradiction|]. inversion S6 as [|? ? S7 S8]; subst. rewrite Forall_forall in F. unfold precedes in F.
  destruct Hc as [<-|Hc], Hd as [<-|Hd]; auto; [specialize (F _ Hd)|specialize (F _ Hc)]; lia.
Qed.

(** *** Examples: the chain  a b+  whose match must not be longer than 3 (then 1) characters *)
Definition ab_chain : list cpart := [char_part 1 "a" (1, Some 1) false; char_part 2 "b" (1, None) false].
Definition short_chain (limit : Z) : popts :=
  new_pattern 100 no_opts DNone DNone (DSingle (Some (fun m => mlen m <=? limit))) false false false false [] [] false false None None None.
Definition outs_of (r : res (nat * (list mtch * list mtch))) : list (Z * Z * list (Z * Z)) :=
  match r with Ok (_, (ms, _)) => map (fun m => (m_span m, map m_span (m_children m))) ms | Err _ => [] end.
Example C79_example :
  no_processor (short_chain 3) /\ ~ subject (short_chain 3) true (po_validate_all (short_chain 3)) /\ Forall ordinary ab_chain /\ steady ab_chain
  /\ (exists n' m, chain_match 20 (short_chain 3) None ab_chain 0%nat (s "xabbbbab") = Ok (n', m) /\ map m_span m = [(1, 6); (6, 8)]
       /\ Forall (fun m => Forall (fun c => m_children c = []) (m_children m)) m)
  /\ outs_of (chain_matches 20 (short_chain 3) None ab_chain 0%nat (s "xabbbbab")) = [((1, 4), [(1, 2); (2, 3); (3, 4)]); ((6, 8), [(6, 7); (7, 8)])]
  /\ outs_of (chain_matches 20 (short_chain 1) None ab_chain 0%nat (s "xabbbbab")) = [((1, 2), [(1, 2)]); ((6, 7), [(6, 7)])]
  /\ outs_of (chain_matches 20 (short_chain 0) None ab_chain 0%nat (s "xabbbbab")) = [].
Proof.
  split; [repeat split|]. split; [intros [H|[H|H]]; discriminate|]. split; [repeat (apply Forall_cons; [apply char_part_ordinary|]); constructor|].
  split; [simpl; split; [constructor|]; right; right; exists 1; split; [reflexivity|lia]|].
  split; [do 2 eexists; split; [vm_compute; reflexivity|]; split; [reflexivity|repeat constructor]|]. repeat split; vm_compute; reflexivity.
Qed.
(** a match left with nothing is not returned, even though its validator accepts it: a chain of a single part *)
Example C79_example_empty : outs_of (chain_matches 20 (short_chain 0) None [char_part 1 "a" (1, None) false] 0%nat (s "xaa")) = [].
Proof. vm_compute. reflexivity. Qed.

(** ** C78: chain breakers *)
(** ** Specification *)
(** the groups (one per repetition of a visible part) kept one after the other: a group is left out
    if the breaker holds of what was kept so far together with it *)
Definition kept_by (b : list mtch -> bool) (start : list mtch) (groups : list (list mtch)) : list mtch :=
  fold_left (fun cur g => if b (cur ++ g) then cur else cur ++ g) groups start.
(** where the next attempt starts: where this one ended, or (when it failed) after the first match kept *)
Definition restart (valid : bool) (reached : Z) (cur : list mtch) : Z :=
  if valid then reached else match cur with m :: _ => raw_end m | [] => reached end.
Definition same_repetition (g : list mtch) : Prop := forall x y, In x g -> In y g -> m_index x = m_index y.
Definition unmarked (m : mtch) : Prop := m_marker m = false.

(** ** Proofs *)
Lemma existsb_marker l : existsb m_marker l = false <-> Forall unmarked l.
Proof. rewrite existsb_false_iff, Forall_forall. reflexivity. Qed.

Section Breaker.
  Variable input : pstr.
  (** the outcome of the same attempt with the breaker [b], from the current matches [c] *)
  Definition outcome_with (b : list mtch -> bool) (groups : list (list mtch)) (c : list mtch) (st : cstate) : res cstate -> Prop := fun r =>
    (Forall unmarked (c ++ concat groups) -> r = Ok (CState (cs_next st) (cs_found st) (cs_text st) (cs_offset st) (kept_by b c groups)))
    /\ (Forall unmarked c -> Exists (fun m => m_marker m = true) (concat groups) -> r = Err AssertionError).

  Lemma next_groups_spec hidden vis : (forall i g, dfind vis i = Some g -> same_repetition g) ->
    forall groups st st', next_groups None hidden input vis groups st = Ok st' ->
    exists gs, cs_current st' = cs_current st ++ concat gs /\ Forall same_repetition gs /\
      forall b c, outcome_with b gs c st' (next_groups (Some b) hidden input vis groups (CState (cs_next st) (cs_found st) (cs_text st) (cs_offset st) c)).
  Proof.
    intro V. induction groups as [|[i g] r IH]; intros st st' H; cbn [next_groups] in *.
    - injection H as <-. exists []. rewrite app_nil_r. split; [reflexivity|]. split; [constructor|]. intros b c. split; [reflexivity|]. intros _ X. inversion X.
    - destruct hidden.
      + apply IH in H as (gs & H1 & H2 & H3). exists gs. cbn [cs_current] in H1. split; [exact H1|]. split; [exact H2|]. intros b c. exact (H3 b c).
      + cbn [breaker_allows] in H. set (gm := match dfind vis i with Some l => l | None => [] end) in *.
        apply IH in H as (gs & H1 & H2 & H3). exists (gm :: gs). cbn [cs_current concat] in *. rewrite app_assoc. split; [exact H1|]. split.
        { constructor; auto. unfold gm. destruct (dfind vis i) eqn:E; [eauto|]. intros x y []. }
        intros b c. cbn [breaker_allows cs_current]. split.
        * intro U. cbn [concat] in U. assert (existsb m_marker (c ++ gm) = false) as E. { apply existsb_marker. rewrite app_assoc in U. apply Forall_app in U. tauto. }
          rewrite E. rewrite app_assoc in U. destruct (H3 b (if negb (b (c ++ gm)) then c ++ gm else c)) as [A _]. cbn [kept_by fold_left].
          replace (if b (c ++ gm) then c else c ++ gm) with (if negb (b (c ++ gm)) then c ++ gm else c) by (destruct (b _); reflexivity). apply A.
          destruct (negb _); auto. apply Forall_app in U as [U1 U2]. apply Forall_app in U1 as [U1 _]. apply Forall_app; auto.
        * intros U X. destruct (existsb m_marker (c ++ gm)) eqn:E; [reflexivity|]. apply existsb_marker in E. 
          destruct (H3 b (if negb (b (c ++ gm)) then c ++ gm else c)) as [_ A]. apply A; [destruct (negb _); auto|].
          cbn [concat] in X. apply Exists_app in X as [X|X]; auto. exfalso. apply Forall_app in E as [_ E]. clear - E X. apply Exists_exists in X as (m & Hm & M). rewrite Forall_forall in E. specialize (E m Hm). unfold unmarked in E. congruence.
  Qed.
  Lemma kept_by_app b c g1 g2 : kept_by b c (g1 ++ g2) = kept_by b (kept_by b c g1) g2.
  Proof. unfold kept_by. apply fold_left_app. Qed.
  Lemma kept_by_in b : forall gs c x, In x (kept_by b c gs) -> In x c \/ In x (concat gs).
  Proof.
    induction gs as [|g gs IH]; intros c x H; cbn [kept_by fold_left concat] in *; [auto|]. change (fold_left _ gs ?z) with (kept_by b z gs) in H. apply IH in H as [H|H].
    - destruct (b (c ++ g)); auto. apply in_app_or in H as [H|H]; auto. right. apply in_or_app. auto.
    - right. apply in_or_app. auto.
  Qed.
  Lemma kept_by_unmarked b c gs : Forall unmarked (c ++ concat gs) -> Forall unmarked (kept_by b c gs).
  Proof. rewrite !Forall_forall. intros H x Hx. apply H. apply in_or_app. eapply kept_by_in, Hx. Qed.
  Lemma visible_same ms i g : dfind (group_by_index ms) i = Some g -> same_repetition g.
  Proof. intros H x y Hx Hy. destruct (visible_In H Hx) as [_ <-]. destruct (visible_In H Hy) as [_ <-]. reflexivity. Qed.

  Lemma run_parts_breaker : forall parts first st st' v, run_parts None input first parts st = Ok (st', v) ->
    exists gs reached, cs_current st' = cs_current st ++ concat gs /\ Forall same_repetition gs /\ cs_offset st' = restart v reached (cs_current st') /\
      forall b c, let r := run_parts (Some b) input first parts (CState (cs_next st) (cs_found st) (cs_text st) (cs_offset st) c) in
        (Forall unmarked (c ++ concat gs) ->
           r = Ok (CState (cs_next st') (cs_found st') (cs_text st') (restart v reached (kept_by b c gs)) (kept_by b c gs), v))
        /\ (Forall unmarked c -> Exists (fun m => m_marker m = true) (concat gs) -> r = Err AssertionError).
  Proof.
    induction parts as [|cp r IH]; intros first st st' v H; cbn [run_parts] in H.
    - injection H as <- <-. exists [], (cs_offset st). rewrite app_nil_r. split; [reflexivity|]. split; [constructor|]. split; [reflexivity|].
      intros b c. cbn [run_parts]. split; [reflexivity|]. intros _ X. inversion X.
    - destruct (part_matches first cp (cs_next st) (cs_text st)) as [[n' [ms raws]]|x] eqn:P.
      + destruct (to_next_part None cp input ms raws _) as [st1|] eqn:T; [|discriminate]. unfold to_next_part in T. cbn [cs_offset] in T.
        apply next_groups_spec in T as (gs1 & A1 & A2 & A3); [|intros i g; apply visible_same].
        apply IH in H as (gs2 & reached & B1 & B2 & B3 & B4). exists (gs1 ++ gs2), reached. cbn [cs_current] in A1. rewrite A1 in B1. rewrite concat_app.
        split; [rewrite B1; symmetry; apply app_assoc|]. split; [apply Forall_app; auto|]. split; [exact B3|]. intros b c. cbn [run_parts cs_next cs_text cs_found cs_offset cs_current]. rewrite P.
        unfold to_next_part. cbn [cs_offset]. destruct (A3 b c) as [A4 A5]. cbn [cs_next cs_found cs_text cs_offset] in A4, A5. rewrite kept_by_app. split.
        * intro U. rewrite app_assoc in U. apply Forall_app in U as [U1 U2]. rewrite (A4 U1). apply B4. apply Forall_app. split; auto. now apply kept_by_unmarked.
        * intros U X. destruct (existsb m_marker (concat gs1)) eqn:E.
          { rewrite A5; auto. apply Exists_exists. apply existsb_exists in E. exact E. }
          apply existsb_marker in E. assert (Forall unmarked (c ++ concat gs1)) as U1 by (apply Forall_app; auto). rewrite (A4 U1). apply B4; [now apply kept_by_unmarked|].
          apply Exists_app in X as [X|X]; auto. exfalso. apply Exists_exists in X as (m & Hm & M). rewrite Forall_forall in E. specialize (E m Hm). unfold unmarked in E. congruence.
      + destruct x; try discriminate. injection H as <- <-. exists [], (cs_offset st). split; [destruct (cs_current st) eqn:E; cbn [cs_current]; rewrite ?E, app_nil_r; reflexivity|].
        split; [constructor|]. split; [destruct (cs_current st) eqn:E; cbn [cs_current cs_offset]; rewrite ?E; reflexivity|].
        intros b c. cbn [run_parts cs_next cs_text cs_found cs_offset cs_current]. rewrite P. split; [|intros _ X; inversion X].
        intros _. cbn [kept_by fold_left]. destruct c; destruct (cs_current st) eqn:E; cbn [cs_next cs_found cs_text cs_offset]; reflexivity.
  Qed.
End Breaker.

(** An attempt (the loop over the parts, from some position) with a breaker goes as without it, except for the
    matches kept: of the groups found, one per repetition of a visible part, each is kept unless the breaker
    holds of what was kept so far with it.  Nothing else changes: the text consumed, the parts tried, the
    success of the attempt; an attempt which fails resumes after the first match kept.  If one of
    the matches is a marker, AssertionError is raised. *)
Theorem C78_breaker_leaves_groups_out : forall input parts n text offset st valid,
  run_parts None input true parts (CState n false text offset []) = Ok (st, valid) ->
  exists groups reached, cs_current st = concat groups /\ Forall same_repetition groups /\ cs_offset st = restart valid reached (cs_current st)
    /\ forall b,
       (Forall unmarked (concat groups) -> run_parts (Some b) input true parts (CState n false text offset [])
          = Ok (CState (cs_next st) (cs_found st) (cs_text st) (restart valid reached (kept_by b [] groups)) (kept_by b [] groups), valid))
       /\ (Exists (fun m => m_marker m = true) (concat groups) -> run_parts (Some b) input true parts (CState n false text offset []) = Err AssertionError).
Proof.
  intros input parts n text offset st valid H. apply run_parts_breaker in H as (gs & reached & A1 & A2 & A3 & A4). exists gs, reached. split; [exact A1|]. split; [exact A2|]. split; [exact A3|].
  intro b. destruct (A4 b []) as [B1 B2]. split; [exact B1|]. intro X. apply B2; [constructor|exact X].
Qed.

(** so a successful attempt resumes at the same place, and nothing the breaker holds of is ever kept *)
Theorem C78_breaker_false_of_what_is_kept : forall b groups k, (0 < k <= length groups)%nat ->
  kept_by b [] (firstn k groups) = [] \/ b (kept_by b [] (firstn k groups)) = false.
Proof.
  intros b groups. induction k as [|k IH]; intros [H1 H2]; [lia|]. 
  assert (exists g, firstn (S k) groups = firstn k groups ++ [g]) as (g & ->).
  { clear IH H1. revert k H2. induction groups as [|g groups IH]; intros k H; [simpl in H; lia|]. destruct k as [|k]; [exists g; reflexivity|]. simpl in H. destruct (IH k) as (x & E); [lia|]. exists x. cbn [firstn app]. cbn [firstn] in E. rewrite E. reflexivity. }
  rewrite kept_by_app. cbn [kept_by fold_left]. destruct (b (kept_by b [] (firstn k groups) ++ g)) eqn:E; [|right; exact E].
  destruct k as [|k]; [left; reflexivity|]. apply IH. lia.
Qed.

(** *** Whole searches *)
Definition no_markers (cp : cpart) : Prop := forall n t n' ms raws, cp_match cp n t = Ok (n', (ms, raws)) -> Forall unmarked ms.
Lemma shift_marker input off m : m_marker (shift input off m) = m_marker m.
Proof. destruct m; reflexivity. Qed.
Lemma next_groups_false hidden input vis : (forall i g, dfind vis i = Some g -> Forall unmarked g) -> forall groups st, Forall unmarked (cs_current st) ->
  next_groups (Some (fun _ => false)) hidden input vis groups st = next_groups None hidden input vis groups st
  /\ forall st', next_groups None hidden input vis groups st = Ok st' -> Forall unmarked (cs_current st').
Proof.
  intro V. induction groups as [|[i g] r IH]; intros st U; cbn [next_groups]; [split; [reflexivity|congruence]|]. destruct hidden; [apply IH; exact U|].
  cbn [breaker_allows negb]. set (gm := match dfind vis i with Some l => l | None => [] end).
  assert (Forall unmarked (cs_current st ++ gm)) as U'. { apply Forall_app. split; auto. unfold gm. destruct (dfind vis i) eqn:E; eauto. }
  apply existsb_marker in U' as E. rewrite E. apply IH. exact U'.
Qed.
Lemma run_parts_false input : forall parts, Forall no_markers parts -> forall first st, Forall unmarked (cs_current st) ->
  run_parts (Some (fun _ => false)) input first parts st = run_parts None input first parts st.
Proof.
  intros parts N. induction N as [|cp r N0 N IH]; intros first st U; cbn [run_parts]; [reflexivity|].
  destruct (part_matches first cp (cs_next st) (cs_text st)) as [[n' [ms raws]]|x] eqn:P; [|reflexivity].
  unfold to_next_part. set (st1 := CState n' _ _ _ _). destruct (@next_groups_false (cp_hidden cp) input (group_by_index (map (shift input (cs_offset st1)) ms))) with (groups := group_by_index (map (shift input (cs_offset st1)) raws)) (st := st1) as [E F]; [|exact U|].
  - intros i g H. apply Forall_forall. intros x Hx. destruct (visible_In H Hx) as [Hx' _]. apply in_map_iff in Hx' as (y & <- & Hy). unfold unmarked. rewrite shift_marker.
    unfold part_matches in P. destruct (cp_match cp _ _) as [[n1 [ms1 raws1]]|] eqn:Q; [|discriminate]. destruct (validate_repeater _ _); [|discriminate]. injection P as <- <- <-.
    apply truncate_In in Hy. specialize (N0 _ _ _ _ _ Q). rewrite Forall_forall in N0. apply N0, Hy.
  - rewrite E. destruct (next_groups None _ _ _ _ _) as [st2|]; [|reflexivity]. apply IH. auto.
Qed.
(** A breaker that never holds changes nothing *)
Theorem C78_breaker_never_true : forall fuel p parts n input, Forall no_markers parts ->
  chain_match fuel p (Some (fun _ => false)) parts n input = chain_match fuel p None parts n input.
Proof.
  intros fuel p parts n input N. unfold chain_match. generalize input at 2 4. generalize 0. generalize (@nil mtch). revert n.
  induction fuel as [|f IH]; intros n acc offset text; cbn [chain_loop]; destruct (offset <? zlen input); try reflexivity.
  rewrite run_parts_false; [|exact N|constructor]. destruct (run_parts None _ _ _ _) as [[st v]|]; [|reflexivity]. destruct (negb _); [reflexivity|].
  destruct (cs_current st); [apply IH|]. destruct v; [|apply IH]. destruct (build_chain_match _ _ _ _); [apply IH|reflexivity].
Qed.
Lemma next_groups_true hidden input vis : forall groups st st', next_groups (Some (fun _ => true)) hidden input vis groups st = Ok st' -> cs_current st' = cs_current st.
Proof.
  induction groups as [|[i g] r IH]; intros st st' H; cbn [next_groups] in H; [congruence|]. destruct hidden; [apply IH in H; exact H|].
  cbn [breaker_allows negb] in H. destruct (existsb _ _); [discriminate|]. apply IH in H. exact H.
Qed.
Lemma run_parts_true input : forall parts first st st' v, run_parts (Some (fun _ => true)) input first parts st = Ok (st', v) -> cs_current st' = cs_current st.
Proof.
  induction parts as [|cp r IH]; intros first st st' v H; cbn [run_parts] in H; [congruence|].
  destruct (part_matches first cp (cs_next st) (cs_text st)) as [[n' [ms raws]]|x] eqn:P.
  - unfold to_next_part in H. destruct (next_groups _ _ _ _ _ _) as [st1|] eqn:E; [|discriminate]. apply next_groups_true in E. apply IH in H. rewrite H. exact E.
  - destruct x; try discriminate. injection H as <- _. destruct (cs_current st) eqn:E; [auto|reflexivity].
Qed.
(** A breaker that always holds prevents every match *)
Theorem C78_breaker_always_true : forall fuel p parts n input n' ms,
  chain_match fuel p (Some (fun _ => true)) parts n input = Ok (n', ms) -> ms = [].
Proof.
  intros fuel p parts n input n' ms. unfold chain_match. generalize input at 2. generalize 0. revert n.
  induction fuel as [|f IH]; intros n offset text H; cbn [chain_loop] in H; destruct (offset <? zlen input); try discriminate; try congruence.
  destruct (run_parts _ _ _ _ _) as [[st v]|] eqn:R; [|discriminate]. destruct (negb _); [congruence|].
  apply run_parts_true in R. cbn [cs_current] in R. rewrite R in H. eapply IH, H.
Qed.

(** Every match of a chain is built from an attempt whose kept groups never satisfied the breaker *)
Theorem C78_matches_unbroken : forall fuel p b parts n input n' ms M,
  chain_match fuel p (Some b) parts n input = Ok (n', ms) -> In M ms ->
  exists id cur, cur <> [] /\ build_chain_match p id cur input = Ok M /\ b cur = false.
Proof.
  intros fuel p b parts n input n' ms M H Hm. unfold chain_match in H.
  set (good := fun M => exists id cur, cur <> [] /\ build_chain_match p id cur input = Ok M /\ b cur = false).
  assert (forall hidden vis groups st st', next_groups (Some b) hidden input vis groups st = Ok st' -> (cs_current st = [] \/ b (cs_current st) = false) -> cs_current st' = [] \/ b (cs_current st') = false) as NG.
  { intros hidden vis. induction groups as [|[i g] r IH]; intros st st' X K; cbn [next_groups] in X; [congruence|]. destruct hidden; [eapply IH; [exact X|exact K]|].
    cbn [breaker_allows] in X. destruct (existsb _ _); [discriminate|]. eapply IH; [exact X|]. cbn [cs_current]. destruct (b _) eqn:E; auto. }
  assert (forall parts first st st' v, run_parts (Some b) input first parts st = Ok (st', v) -> (cs_current st = [] \/ b (cs_current st) = false) -> cs_current st' = [] \/ b (cs_current st') = false) as RP.
  { induction parts0 as [|cp r IH]; intros first st st' v X K; cbn [run_parts] in X; [injection X as <- <-; exact K|].
    destruct (part_matches first cp (cs_next st) (cs_text st)) as [[n1 [ms1 raws]]|x] eqn:P.
    - unfold to_next_part in X. destruct (next_groups _ _ _ _ _ _) as [st1|] eqn:E; [|discriminate]. eapply IH; [exact X|]. eapply NG; [exact E|exact K].
    - destruct x; try discriminate. injection X as <- _. destruct (cs_current st) eqn:E; [rewrite E; auto|exact K]. }
  enough (Forall good ms) as G by (rewrite Forall_forall in G; exact (G M Hm)). clear Hm.
  assert (Forall good []) as A by constructor. revert A H. generalize input at 2. generalize 0. generalize (@nil mtch). revert n.
  induction fuel as [|f IH]; intros n acc offset text A H; cbn [chain_loop] in H; destruct (offset <? zlen input); try discriminate; try (injection H as <- <-; exact A).
  destruct (run_parts _ _ _ _ _) as [[st v]|] eqn:R; [|discriminate]. destruct (negb _); [injection H as <- <-; exact A|].
  apply RP in R; [|left; reflexivity]. destruct (cs_current st) as [|c r] eqn:Ec; [eapply IH; [|exact H]; exact A|]. destruct v; [|eapply IH; [|exact H]; exact A].
  destruct (build_chain_match _ _ _ _) as [M0|] eqn:B; [|discriminate]. eapply IH; [|exact H]. apply Forall_app. split; [exact A|]. constructor; [|constructor].
  exists (cs_next st), (c :: r). split; [discriminate|]. split; [exact B|]. destruct R as [R|R]; [discriminate|exact R].
Qed.

(** string and regex patterns that are not markers qualify *)
Lemma patterns_unmarked p src rstart rend hidden : no_processor p -> ~ functional src -> given (mo_marker (po_kw p)) false = false ->
  no_markers (CPart (pattern_matches p src) rstart rend hidden).
Proof.
  intros N NF K n t n' ms raws H. cbn [cp_match] in H. destruct (returned N H) as (found & F & R). apply Forall_forall. intros m Hm.
  assert (Forall (fun o => made p false t o /\ Forall (made p true t) (m_children o)) (concat found)) as M.
  { apply Forall_forall. intros o Ho. apply in_concat in Ho as (l & Hl & Ho). destruct src as [lower o0 subs|rep rxs|fs]; cbn [finds functional] in *; [| |tauto].
    - clear - F Hl Ho. induction F as [|sub l0 subs ls E F IH]; [contradiction|]. destruct Hl as [->|Hl]; auto. pose proof (string_match_made E) as X. rewrite Forall_forall in X. split; [auto|].
      apply string_match_raw in E. rewrite Forall_forall in E. destruct (E o Ho) as (_ & -> & _). constructor.
    - clear - F Hl Ho. induction F as [|sub l0 subs ls E F IH]; [contradiction|]. destruct Hl as [->|Hl]; auto. apply re_match_made in E. rewrite Forall_forall in E. auto. }
  rewrite Forall_forall in M. unfold unmarked.
  destruct (R m Hm) as (o & i & Ho & [(_ & St & _)|(c & P & _ & Hc & St & _)]); destruct (M o Ho) as (M1 & M2); destruct St as [(_ & _ & _ & E & _) _ _ _ _]; rewrite E.
  - destruct M1 as (_ & _ & -> & _). exact K.
  - rewrite Forall_forall in M2. destruct (M2 c Hc) as (_ & _ & -> & _). exact K.
Qed.
(** *** Example: a chain  a b+ c?  with a breaker refusing more than two matches: the c is refused as well
    when there are two b, but the text is consumed *)
Definition abc_plus : list cpart := [char_part 1 "a" (1, Some 1) false; char_part 2 "b" (1, None) false; char_part 3 "c" (0, Some 1) false].
Example C78_example : Forall no_markers abc_plus
  /\ spans_of (chain_match 20 chain_opts (Some (fun ms => Nat.ltb 2 (length ms))) abc_plus 0%nat (s "abbbcab")) = [((0, 2), [(0, 1); (1, 2)]); ((5, 7), [(5, 6); (6, 7)])]
  /\ spans_of (chain_match 20 chain_opts None abc_plus 0%nat (s "abbbcab")) = [((0, 5), [(0, 1); (1, 2); (2, 3); (3, 4); (4, 5)]); ((5, 7), [(5, 6); (6, 7)])].
Proof.
  split; [|split; vm_compute; reflexivity].
  repeat (apply Forall_cons; [apply patterns_unmarked; [repeat split|intros []|reflexivity]|]). constructor.
Qed.
(** a later part may still be kept after a group was left out: the breaker refuses a match starting at 1 *)
Example C78_example_goes_on :
  spans_of (chain_match 20 chain_opts (Some (fun ms => existsb (fun m => m_start m =? 1) ms)) abc_plus 0%nat (s "abc")) = [((0, 3), [(0, 1); (2, 3)])].
Proof. vm_compute. reflexivity. Qed.
