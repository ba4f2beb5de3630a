(** * Properties C72-C75: arguments of the lookups, nearest matches, slices, lists held by the collection *)
From Verif Require Import Base BaseFacts Match Spec MatchFacts Coll CollFacts CollQuery CollSem CollSem2 SpecColl
  CollHist CollUniv CollOrder CollMore Conseq ConseqFacts ProcFacts Loose PropsLoose PropsColl PropsConseq PropsPipeline Lookup.
From Coq Require Import ZifyBool.
Set Implicit Arguments.
Unset Strict Implicit.
Open Scope Z_scope.

(** ** C72 *)
(** the different elements of a list, in the order they are first met *)
Fixpoint first_met (seen ns : list pstr) : list pstr :=
  match ns with
  | [] => []
  | n :: r => if existsb (pstr_eqb n) seen then first_met seen r else n :: first_met (n :: seen) r
  end.
(** what a lookup gives for the list [l] it collects, an optional predicate and an optional index *)
Definition selects (l : list mtch) (p : option (mtch -> bool)) (i : option Z) (r : res (picked mtch)) : Prop :=
  let l' := match p with None => l | Some f => filter f l end in
  match i with
  | None => r = Ok (PickList l')
  | Some i => exists x, r = Ok (PickOne x) /\ picks l' i x
  end.
Definition arg_pred (p : option (mtch -> bool)) : arg := match p with None => ANone | Some f => AFun f end.
Definition arg_index (i : option Z) : arg := match i with None => ANone | Some z => AInt z end.

Lemma pick_selects l p i : selects l p i (pick_filtered l (arg_pred p) (arg_index i)).
Proof. destruct p as [f|], i as [z|]; cbn; try reflexivity; (eexists; split; [reflexivity|apply py_nth_picks]). Qed.
Lemma pick_int l z : pick_filtered l (AInt z) ANone = pick_filtered l ANone (AInt z).
Proof. reflexivity. Qed.

Lemma filter_negb_comm (x : pstr) l : filter (fun y => negb (pstr_eqb x y)) l = filter (fun y => negb (pstr_eqb y x)) l.
Proof. apply filter_ext. intro y. f_equal. destruct (pstr_eqb x y) eqn:E, (pstr_eqb y x) eqn:E'; auto; [apply pstr_eqb_eq in E; subst; rewrite pstr_eqb_refl in E'; discriminate | apply pstr_eqb_eq in E'; subst; rewrite pstr_eqb_refl in E; discriminate]. Qed.
Lemma dedup_first_met ns : forall seen, first_met seen ns = filter (fun n => negb (existsb (pstr_eqb n) seen)) (dedup pstr_eqb ns).
Proof.
  induction ns as [|n ns IH]; intro seen; simpl; [reflexivity|]. destruct (existsb (pstr_eqb n) seen) eqn:E; simpl.
  - rewrite IH, filter_negb_comm, filter_filter. apply filter_ext_in. intros x _.
    destruct (pstr_eqb x n) eqn:Ex; simpl; [|rewrite ?andb_true_r; reflexivity].
    apply pstr_eqb_eq in Ex. subst. rewrite E. reflexivity.
  - f_equal. rewrite IH, filter_negb_comm, filter_filter. apply filter_ext_in. intros x _. simpl. rewrite negb_orb. try apply andb_comm; reflexivity.
Qed.
Lemma dedup_is_first_met ns : dedup pstr_eqb ns = first_met [] ns.
Proof. rewrite dedup_first_met. symmetry. apply filter_all. reflexivity. Qed.

Lemma split_names_strings ns r : match r with AStr _ :: _ => False | _ => True end -> split_names (map AStr ns ++ r) = (ns, r).
Proof.
  intro H. induction ns as [|n ns IH]; simpl; [destruct r as [|[] r]; simpl in *; tauto|]. rewrite IH. reflexivity.
Qed.
Lemma named_lookup c ns : snd (q_named c ns) = flat_map (vname c) (first_met [] ns).
Proof.
  pose proof (@lookup_answer c (ONamed ns) eq_refl eq_refl) as H. simpl in H. destruct (q_named c ns) as [c' l].
  simpl in *. injection H as H. rewrite H, dedup_is_first_met. reflexivity.
Qed.

(** Every way to hand predicate and index over gives the same: the matches having one of the
    names, name by name in the order the names are first given. *)
Theorem C72_named : forall k input ops ns p i,
  acceptable k false [] ops -> no_assignment ops -> Forall (fun n => n <> []) ns ->
  let c := run (empty_coll k input) ops in
  let l := list_run [] ops in
  let by_names := flat_map (fun n => filter (name_is n) l) (first_met [] ns) in
  exists r,
    same_members r by_names
    /\ (in_order [] ops -> r = by_names)
    /\ (forall res, In res
          ([named c (map AStr ns) [(k_predicate, arg_pred p); (k_index, arg_index i)];
            named c (map AStr ns) [(k_index, arg_index i); (k_predicate, arg_pred p)];
            named c (map AStr ns ++ [arg_pred p]) [(k_index, arg_index i)];
            named c (map AStr ns ++ [arg_pred p; arg_index i]) []]
           ++ (if i then [] else [named c (map AStr ns) [(k_predicate, arg_pred p)]; named c (map AStr ns ++ [arg_pred p]) []])
           ++ (if p then [] else [named c (map AStr ns) [(k_index, arg_index i)]; named c (map AStr ns ++ [arg_index i]) []]))
        -> selects r p i (snd res)).
Proof.
  intros k input ops ns p i H1 H2 Hns c l by_names. exists (snd (q_named c ns)).
  assert (Forall (fun n => n <> []) (first_met [] ns)) as Hf.
  { rewrite Forall_forall in *. intros x Hx. rewrite <- dedup_is_first_met in Hx. apply Hns. clear -Hx. induction ns as [|n ns IH]; simpl in *; [exact Hx|].
    destruct Hx as [Hx|Hx]; [left; exact Hx|]. right. apply filter_In in Hx as [Hx _]. auto. }
  destruct (@reached_ok k input ops H1 H2) as (HI & Hd & _). unfold reached in HI, Hd. fold c in HI, Hd. fold l in Hd.
  split; [|split].
  - rewrite named_lookup. unfold by_names. apply perm_same_members. revert Hf. generalize (first_met [] ns). intros fs Hf.
    induction Hf as [|n fs Hn Hfs IH]; simpl; [constructor|]. rewrite !map_app. apply Permutation_app; [|exact IH].
    rewrite <- Hd, <- occ_name by exact Hn. apply (vname_perm HI).
  - intro H3. rewrite named_lookup. unfold by_names. destruct (@reached_exact_views k input ops H1 H2 H3) as (V & _). unfold reached in V. fold c in V.
    revert Hf. generalize (first_met [] ns). intros fs Hf. induction Hf as [|n fs Hn Hfs IH]; simpl; [reflexivity|].
    rewrite IH, V, Hd, occ_name by exact Hn. reflexivity.
  - intros res Hres. apply in_app_or in Hres as [Hres|Hres]; [|apply in_app_or in Hres as [Hres|Hres]].
    + assert (match [arg_pred p] with AStr _ :: _ => False | _ => True end) as Q by (destruct p; exact I).
      assert (match [arg_pred p; arg_index i] with AStr _ :: _ => False | _ => True end) as Q2 by (destruct p; exact I).
      destruct Hres as [<- | [<- | [<- | [<- | []]]]]; unfold named; cbn [forallb fst snd];
        rewrite ?(split_names_strings ns (r := [arg_pred p]) Q), ?(split_names_strings ns (r := [arg_pred p; arg_index i]) Q2);
        try (rewrite <- (app_nil_r (map AStr ns)), (split_names_strings ns (r := []) I));
        (destruct (q_named c ns) as [c1 r]; cbn; destruct p, i; cbn; try reflexivity; eexists; (split; [reflexivity | apply py_nth_picks])).
    + destruct i as [i|]; [destruct Hres|]. assert (match [arg_pred p] with AStr _ :: _ => False | _ => True end) as Q by (destruct p; exact I).
      destruct Hres as [<- | [<- | []]]; unfold named; cbn [forallb fst snd];
        rewrite ?(split_names_strings ns (r := [arg_pred p]) Q); try (rewrite <- (app_nil_r (map AStr ns)), (split_names_strings ns (r := []) I));
        (destruct (q_named c ns) as [c1 r]; cbn; destruct p; reflexivity).
    + destruct p as [p|]; [destruct Hres|]. assert (match [arg_index i] with AStr _ :: _ => False | _ => True end) as Q by (destruct i; exact I).
      destruct Hres as [<- | [<- | []]]; unfold named; cbn [forallb fst snd];
        rewrite ?(split_names_strings ns (r := [arg_index i]) Q); try (rewrite <- (app_nil_r (map AStr ns)), (split_names_strings ns (r := []) I));
        (destruct (q_named c ns) as [c1 r]; cbn; destruct i; cbn; try reflexivity; eexists; (split; [reflexivity | apply py_nth_picks])).
Qed.
(** An unknown keyword is refused and nothing is looked up. *)
Theorem C72_unknown_keyword : forall c args kwargs k a,
  In (k, a) kwargs -> k <> k_predicate -> k <> k_index -> named c args kwargs = (c, Err TypeError).
Proof.
  intros c args kwargs k a H Hp Hi. unfold named. assert (forallb (fun kv => pstr_eqb (fst kv) k_predicate || pstr_eqb (fst kv) k_index) kwargs = false) as ->; [|reflexivity].
  apply not_true_iff_false. rewrite forallb_forall. intro F. specialize (F _ H). simpl in F. apply orb_true_iff in F as [F|F]; apply pstr_eqb_eq in F; auto.
Qed.
Example C72_example :
  let c := run (empty_coll KMatches ex_input) ex_ops in
  snd (named c [AStr (s "foo"); AStr (s "bar"); AStr (s "foo")] []) = Ok (PickList [ex_a; ex_c; ex_b])
  /\ snd (named c [AStr (s "bar"); AStr (s "foo"); AFun (fun m => 3 <=? m_start m)] [(k_index, AInt (-1))]) = Ok (PickOne (Some ex_c))
  /\ snd (named c [AStr (s "bar"); AStr (s "foo"); AInt 7] []) = Ok (PickOne None).
Proof. repeat split; reflexivity. Qed.
(** Arguments which are silently dropped: a third one after the names, and one of two predicates;
    a name placed after the predicate is taken for the index. *)
Example C72_surplus :
  let c := run (empty_coll KMatches ex_input) ex_ops in
  snd (named c [AStr (s "bar"); ANone; AInt 0; AStr (s "foo")] []) = Ok (PickOne (Some ex_b))
  /\ snd (named c [AStr (s "bar"); AFun (fun _ => false)] [(k_predicate, AFun (fun _ => true))]) = Ok (PickList [ex_b])
  /\ snd (named c [AStr (s "bar"); ANone; AStr (s "foo")] []) = Err TypeError.
Proof. repeat split; reflexivity. Qed.

(** A keyword argument which is not None wins over the positional one, and what is left of the
    positional arguments plays no part: whatever [args] hold after the names, a predicate given by
    keyword makes the first of them ineffective, an index given by keyword the second, and those
    after the second always are. *)
Theorem C72_keyword_wins : forall c ns e0 e0' e1 e1' rest rest' p i,
  match e0 with AStr _ => False | _ => True end -> match e0' with AStr _ => False | _ => True end ->
  (is_none p = false \/ e0 = e0') -> (is_none i = false \/ e1 = e1') ->
  named c (map AStr ns ++ e0 :: e1 :: rest) [(k_predicate, p); (k_index, i)]
  = named c (map AStr ns ++ e0' :: e1' :: rest') [(k_predicate, p); (k_index, i)]
  /\ (is_none p = false -> is_none i = false ->
      named c (map AStr ns ++ e0 :: e1 :: rest) [(k_predicate, p); (k_index, i)] = named c (map AStr ns) [(k_predicate, p); (k_index, i)]).
Proof.
  intros c ns e0 e0' e1 e1' rest rest' p i H0 H0' Hp Hi.
  assert (forall e r, match e with AStr _ => False | _ => True end -> split_names (map AStr ns ++ e :: r) = (ns, e :: r)) as Hs
    by (intros e r He; apply split_names_strings; exact He).
  assert (split_names (map AStr ns) = (ns, [])) as Hn by (rewrite <- (app_nil_r (map AStr ns)); apply split_names_strings; exact I).
  unfold named. cbn [forallb fst]. rewrite (Hs e0 (e1 :: rest) H0), (Hs e0' (e1' :: rest') H0'), Hn. cbn [kw_get dfind].
  split.
  - destruct Hp as [Hp| ->], Hi as [Hi| ->]; change (kw_get [(k_predicate, p); (k_index, i)] k_predicate) with p;
      change (kw_get [(k_predicate, p); (k_index, i)] k_index) with i; rewrite ?Hp, ?Hi; reflexivity.
  - intros Hp' Hi'. change (kw_get [(k_predicate, p); (k_index, i)] k_predicate) with p;
      change (kw_get [(k_predicate, p); (k_index, i)] k_index) with i; rewrite ?Hp', ?Hi'; reflexivity.
Qed.
Example C72_keyword_example :
  let c := run (empty_coll KMatches ex_input) ex_ops in
  snd (named c [AStr (s "foo"); AFun (fun _ => false); AInt 9] [(k_predicate, AFun (fun m => 3 <=? m_start m)); (k_index, AInt 0)]) = Ok (PickOne (Some ex_c)).
Proof. reflexivity. Qed.
(** [chain_before] and [chain_after]: the predicate limits the walk ([C12]), and the index
    selects from the chain so obtained. *)
Theorem C72_chains : forall c w p i,
  let o := match w with WBefore pos seps st => OChainBefore pos seps st (match p with Some f => f | None => fun _ => true end)
                      | WAfter pos seps en => OChainAfter pos seps en (match p with Some f => f | None => fun _ => true end) end in
  match snd (step c o) with
  | RList r => selects r p i (snd (ask_chain c w p (arg_index i)))
  | RErr e => snd (ask_chain c w p (arg_index i)) = Err e
  | _ => False
  end.
Proof.
  intros c w p i o. unfold ask_chain, o, walk_pred. destruct w as [pos seps st|pos seps en]; cbn [step]; unfold list_out.
  - replace (match p with Some f => f | None => fun _ => true end) with (match p with None => fun _ : mtch => true | Some f => f end) by (destruct p; reflexivity).
    destruct (q_chain_before c pos seps st _) as [c1 [r|e]]; cbn; [apply pick_selects | reflexivity].
  - replace (match p with Some f => f | None => fun _ => true end) with (match p with None => fun _ : mtch => true | Some f => f end) by (destruct p; reflexivity).
    destruct (q_chain_after c pos seps en _) as [c1 [r|e]]; cbn; [apply pick_selects | reflexivity].
Qed.
Example C72_chains_example :
  let c := run (empty_coll KMatches ex_input) [OExtend [ex_a; ex_b; ex_c]] in
  snd (ask_chain c (WAfter 0 (s "j") None) None ANone) = Ok (PickList [ex_a; ex_b; ex_c])
  /\ snd (ask_chain c (WAfter 0 (s "j") None) (Some (fun m => m_end m <? 7)) ANone) = Ok (PickList [ex_a; ex_b])
  /\ snd (ask_chain c (WBefore 10 (s "ij") 0) (Some (fun m => 3 <? m_end m)) (AInt 1)) = Ok (PickOne (Some ex_b)).
Proof. repeat split; vm_compute; reflexivity. Qed.

(** The other lookups: predicate and index select from the list given without them. *)
Theorem C72_selection : forall c q p i,
  match snd (ask c q ANone ANone) with
  | Err e => snd (ask c q (arg_pred p) (arg_index i)) = Err e
  | Ok (PickList l) => selects l p i (snd (ask c q (arg_pred p) (arg_index i)))
                       /\ selects l None i (snd (ask c q (arg_index i) ANone))
  | Ok (PickOne _) => False
  end.
Proof.
  intros c q p i. unfold ask. destruct (collect c q) as [c1 [l|e]]; cbn; [|reflexivity].
  split; [apply pick_selects|]. destruct i; cbn; [eexists; split; [reflexivity|apply py_nth_picks] | reflexivity].
Qed.
(** Anything else given: a false predicate (0, the empty text) is no predicate; another number or text is called on the
    first of the matches collected, which is a TypeError; an index that is no number is a TypeError, even of an empty list *)
Theorem C72_other_values : forall c q p i,
  match snd (ask c q ANone ANone) with
  | Ok (PickList l) =>
      ((p = AStr [] \/ (p = AInt 0 /\ i <> ANone)) -> snd (ask c q p i) = snd (ask c q ANone i))
      /\ (forall z n, (p = AStr n /\ n <> []) \/ (p = AInt z /\ z <> 0 /\ i <> ANone) ->
            snd (ask c q p i) = (match l with [] => snd (ask c q ANone i) | _ => Err TypeError end))
      /\ ((p = ANone \/ exists f, p = AFun f) -> (exists n, i = AStr n) \/ (exists f, i = AFun f) -> snd (ask c q p i) = Err TypeError)
  | Ok (PickOne _) => False
  | Err e => snd (ask c q p i) = Err e
  end.
Proof.
  intros c q p i. unfold ask. destruct (collect c q) as [c1 [l|e]]; cbn [snd fst pick_filtered pick]; [|reflexivity]. split; [|split].
  - intros [->|[-> Hi]]; destruct i; try congruence; reflexivity.
  - intros z n [[-> Hn]|(-> & Hz & Hi)].
    + destruct n as [|ch n]; [congruence|]. destruct i, l; reflexivity.
    + unfold pick_filtered. assert (z =? 0 = false) as E by lia. destruct i; try congruence; rewrite E; destruct l; reflexivity.
  - intros [->|[f ->]] [[n ->]|[g ->]]; reflexivity.
Qed.
Example C72_other_case :
  let c := run (empty_coll KMatches ex_input) [OExtend [ex_a; ex_b; ex_c]] in
  snd (ask c (QRange 0 (Some 9)) (AInt 0) (AInt 1)) = Ok (PickOne (Some ex_b)) /\ snd (ask c (QRange 0 (Some 9)) (AInt 2) (AInt 1)) = Err TypeError
  /\ snd (ask c (QTagged (s "none")) (AInt 2) (AInt 1)) = Ok (PickOne None) /\ snd (ask c (QRange 0 (Some 9)) ANone (AStr (s "x"))) = Err TypeError.
Proof. repeat split; vm_compute; reflexivity. Qed.
(** without predicate and index they are the lookups of the other properties; [at_match(m)] is [at_span] of the
    span of [m] *)
Definition plain_lookup (q : query) : op :=
  match q with
  | QTagged t => OTagged t | QStarting i => OStarting i | QEnding i => OEnding i | QAtIndex i => OAtIndex i
  | QPrevious m => OPrevious m | QNext m => ONext m | QRange i j => ORange i j
  | QConflicting m => OConflicting m | QAtSpan sp => OAtSpan sp | QAtMatch m => OAtSpan (m_span m)
  end.
Theorem C72_plain : forall c q, 
  match snd (step c (plain_lookup q)) with
  | RList l => snd (ask c q ANone ANone) = Ok (PickList l)
  | RErr e => snd (ask c q ANone ANone) = Err e
  | _ => False
  end /\ fst (ask c q ANone ANone) = fst (step c (plain_lookup q)).
Proof.
  intros c q. unfold ask. destruct q; cbn [plain_lookup step collect]; unfold list_out.
  - destruct (q_tagged c t); cbn; auto.
  - destruct (q_starting c i); cbn; auto.
  - destruct (q_ending c i); cbn; auto.
  - destruct (q_at_index c i); cbn; auto.
  - destruct (q_previous c m); cbn; auto.
  - destruct (q_next c m); cbn; auto.
  - cbn; auto.
  - destruct (q_conflicting c m) as [c1 [l|e]]; cbn; auto.
  - destruct (q_at_span c sp); cbn; auto.
  - unfold q_at_match. destruct (q_at_span c (m_span m)); cbn; auto.
Qed.

(** [matches.tagged(t, f)] and the like, in terms of the members *)
Definition matches_of (q : query) (l : list mtch) : option (list mtch) :=
  match q with
  | QTagged t => Some (tagged_members t l)
  | QStarting i => Some (filter (starts_at i) l)
  | QEnding i => Some (filter (ends_at i) l)
  | QAtIndex i => Some (filter (coversb i) l)
  | _ => None
  end.
Lemma same_members_filter f r l : (forall a b, In a r -> In b l -> meq a b = true -> f a = f b) -> same_members r l -> same_members (filter f r) (filter f l).
Proof.
  intros Hf (l' & Hp & H2). exists (filter f l'). split.
  - clear -Hp. induction Hp as [|x a b H IH|x y a|a b d H1 IH1 H2' IH2]; simpl; auto.
    + destruct (f x); auto.
    + destruct (f x), (f y); auto. constructor.
    + eapply Permutation_trans; eauto.
  - assert (forall a b, In a r -> In b l' -> meq a b = true -> f a = f b) as Hf'.
    { intros a b Ha Hb. apply Hf; auto. eapply Permutation_in; [symmetry; exact Hp | exact Hb]. }
    clear -H2 Hf'. induction H2 as [|a b r l' Hab H2 IH]; simpl; [constructor|].
    assert (Forall2 (fun a b => meq a b = true) (filter f r) (filter f l')) as I.
    { apply IH. intros. apply Hf'; simpl; auto. }
    rewrite <- (Hf' a b (or_introl eq_refl) (or_introl eq_refl) Hab). destruct (f a); auto.
Qed.
Theorem C72_members : forall k input ops q p i sel,
  acceptable k false [] ops -> no_assignment ops ->
  (match p with Some f => respects_eq_on (all_handed ops) f | None => True end) ->
  matches_of q (list_run [] ops) = Some sel ->
  let c := run (empty_coll k input) ops in
  let sel' := match p with Some f => filter f sel | None => sel end in
  (i = None -> exists r, snd (ask c q (arg_pred p) ANone) = Ok (PickList r) /\ same_members r sel')
  /\ (forall z, i = Some z -> exists x, snd (ask c q (arg_pred p) (AInt z)) = Ok (PickOne x)
        /\ (x = None <-> z < - zlen sel' \/ zlen sel' <= z)
        /\ (forall y, x = Some y -> found y sel')).
Proof.
  intros k input ops q p i sel H1 H2 Hp Hs c sel'.
  destruct (C01_lookups_agree input H1 H2) as (_ & A2 & A3 & A4 & A5).
  pose proof (reached_univ k input ops) as HU. unfold reached in HU. apply Uok_Uv in HU. fold c in HU, A2, A3, A4, A5. destruct HU as (U0 & U1 & U2 & U3 & U4 & U5).
  destruct (@reached_ok k input ops H1 H2) as (_ & Hd & _). unfold reached in Hd. fold c in Hd.
  assert (exists r, snd (ask c q ANone ANone) = Ok (PickList r) /\ same_members r sel /\ incl r (all_handed ops) /\ incl sel (all_handed ops)) as (r & Hr & Hm & I1 & I2).
  { rewrite Hd, Forall_forall in U0.
    assert (forall (g : mtch -> bool), incl (filter g (list_run [] ops)) (all_handed ops)) as Hfl by (intros g x Hx; apply filter_In in Hx as [Hx _]; auto).
    destruct q; try discriminate; injection Hs as <-; [destruct (A2 t) as (r & E & M) | destruct (A3 i0) as (r & E & M) | destruct (A4 i0) as (r & E & M) | destruct (A5 i0) as (r & E & M)];
      exists r; pose proof E as E'; rewrite lookup_answer in E' by reflexivity; simpl in E'; injection E' as E'; subst r;
      (split; [unfold ask, collect; cbn [step] in E; try (destruct (q_tagged c t)); try (destruct (q_starting c i0)); try (destruct (q_ending c i0)); try (destruct (q_at_index c i0)); cbn [snd] in E |- *; injection E as ->; reflexivity|]);
      (split; [exact M|]); (split; [intros x Hx; first [eapply U2; exact Hx | eapply U3; exact Hx | eapply U4; exact Hx | eapply U5; exact Hx]|]); try apply Hfl.
    intros x Hx. apply in_flat_map in Hx as (y & Hy & Hx). apply repeat_spec in Hx. subst. auto. }
  assert (same_members (match p with Some f => filter f r | None => r end) sel') as Hm'.
  { destruct p as [f|]; [|exact Hm]. apply same_members_filter; [|exact Hm]. intros a b Ha Hb. apply Hp; auto. }
  pose proof (@C72_selection c q p i) as S. rewrite Hr in S. destruct S as [S _]. unfold selects in S. split.
  - intros ->. cbn [arg_index] in S. rewrite S. eexists. split; [reflexivity | exact Hm'].
  - intros z ->. cbn [arg_index] in S. destruct S as (x & -> & Px). exists x. split; [reflexivity|].
    set (r' := match p with Some f => filter f r | None => r end) in *.
    assert (length r' = length sel') as HL.
    { destruct Hm' as (s' & Hp' & HF). rewrite (Permutation_length Hp'). clear -HF. induction HF; simpl; auto. }
    assert (zlen r' = zlen sel') as HZ by (unfold zlen; rewrite HL; reflexivity).
    split.
    + rewrite <- HZ. destruct Px as [(P1 & _ & P3)|[(P1 & _ & P3)|(P1 & P3)]]; split; intro; auto; try contradiction; lia.
    + intros y ->. assert (In y r') as Hy.
      { destruct Px as [(_ & P & _)|[(_ & P & _)|(_ & P)]]; try discriminate; symmetry in P; eapply nth_error_In; exact P. }
      destruct Hm' as (s' & Hp' & HF). clear -Hy Hp' HF.
      assert (exists b, In b s' /\ meq y b = true) as (b & Hb & E).
      { clear Hp'. induction HF as [|a b r0 s0 E HF IH]; [destruct Hy|]. destruct Hy as [-> | Hy]; [exists b; split; [left; reflexivity | exact E]|].
        destruct (IH Hy) as (b' & Hb' & E'). exists b'. split; [right|]; assumption. }
      exists b. split; [eapply Permutation_in; [symmetry; exact Hp' | exact Hb] | exact E].
Qed.
Example C72_members_example :
  let c := run (empty_coll KMatches ex_input) ex_ops in
  snd (ask c (QTagged (s "y")) (AFun (fun m => 3 <=? m_start m)) ANone) = Ok (PickList [ex_b])
  /\ snd (ask c (QAtIndex 5) (AInt 1) ANone) = Ok (PickOne (Some ex_b))
  /\ snd (ask c (QRange 0 None) (AFun (fun m => m_end m <=? 6)) (AInt (-1))) = Ok (PickOne (Some ex_b))
  /\ snd (ask c (QConflicting (mk_match 9 0 2)) (AInt 0) ANone) = Err ValueError.
Proof. repeat split; reflexivity. Qed.

(** ** C73 *)
Lemma prev_pure_In v fuel : forall cur x, In x (prev_pure v fuel cur) -> exists i, In x (v i).
Proof. induction fuel as [|fuel IH]; intros cur x H; simpl in H; [destruct H|]. destruct (v cur) eqn:E; [eauto|]. exists cur. rewrite E. exact H. Qed.
Lemma next_pure_In v fuel : forall cur x, In x (next_pure v fuel cur) -> exists i, In x (v i).
Proof. induction fuel as [|fuel IH]; intros cur x H; simpl in H; [destruct H|]. destruct (v cur) eqn:E; [eauto|]. exists cur. rewrite E. exact H. Qed.
Lemma same_members_nil l : same_members [] l -> l = [].
Proof. intros (l' & Hp & H). inversion H; subst. apply Permutation_sym, Permutation_nil in Hp. exact Hp. Qed.
Lemma same_members_some r l : same_members r l -> r <> [] -> exists y, In y l.
Proof. intros (l' & Hp & H) Hr. inversion H as [|a b r' l'' E H']; subst; [contradiction|]. exists b. eapply Permutation_in; [symmetry; exact Hp | left; reflexivity]. Qed.
(** the common part of the two halves: [r] is a nearest group among [l], by the measure [d] *)
Lemma nearest_filtered (l r : list mtch) f (at_ : mtch -> bool) : same_members r (filter at_ l) -> r <> [] ->
  (forall a b, In a r -> In b (filter at_ l) -> meq a b = true -> f a = f b) ->
  same_members (filter f r) (filter f (filter at_ l))
  /\ (filter f r = [] -> (forall x, In x l -> at_ x = true -> f x = false) /\ exists y, In y l /\ at_ y = true).
Proof.
  intros Hm Hr Hf. pose proof (same_members_filter Hf Hm) as M. split; [exact M|]. intro E. rewrite E in M. apply same_members_nil in M. split.
  - intros x Hx Ha. destruct (f x) eqn:Ef; [|reflexivity]. exfalso. assert (In x (filter f (filter at_ l))) as H by (rewrite !filter_In; auto). rewrite M in H. destruct H.
  - destruct (same_members_some Hm Hr) as (y & Hy). apply filter_In in Hy. exists y. exact Hy.
Qed.
(** [previous(m, f)] and [next(m, f)] look at the nearest matches only; when one of these
    satisfies [f] the answer is the nearest matches satisfying [f]. *)
Theorem C73_nearest_partial : forall k input ops m f,
  acceptable k false [] ops -> no_assignment ops -> respects_eq_on (all_handed ops) f ->
  let c := run (empty_coll k input) ops in
  let l := list_run [] ops in
  (forall x, In x l -> 0 <= m_start x <= m_end x) ->
  (exists r, snd (ask c (QPrevious m) (AFun f) ANone) = Ok (PickList r)
     /\ (r <> [] -> exists e, e <= m_start m /\ same_members r (filter f (filter (ends_at e) l))
           /\ forall x, In x l -> f x = true -> m_end x <= m_start m -> m_end x <= e)
     /\ (r = [] -> forall x, In x l -> f x = true -> m_end x <= m_start m ->
           exists y, In y l /\ f y = false /\ m_end x < m_end y <= m_start m))
  /\ (exists r, snd (ask c (QNext m) (AFun f) ANone) = Ok (PickList r)
     /\ (r <> [] -> exists e, m_start m < e /\ same_members r (filter f (filter (starts_at e) l))
           /\ forall x, In x l -> f x = true -> m_start m < m_start x -> e <= m_start x)
     /\ (r = [] -> forall x, In x l -> f x = true -> m_start m < m_start x ->
           exists y, In y l /\ f y = false /\ m_start m < m_start y < m_start x)).
Proof.
  intros k input ops m f H1 H2 Hf c l Hpos. destruct (@C07_previous_next k input ops m H1 H2 Hpos) as ((r1 & E1 & R1) & (r2 & E2 & R2)).
  fold c in E1, E2. fold l in R1, R2.
  pose proof (reached_univ k input ops) as HU. unfold reached in HU. apply Uok_Uv in HU. fold c in HU. destruct HU as (U0 & _ & _ & U3 & U4 & _).
  destruct (@reached_ok k input ops H1 H2) as (_ & Hd & _). unfold reached in Hd. fold c in Hd. fold l in Hd. rewrite Hd, Forall_forall in U0.
  assert (incl r1 (all_handed ops)) as I1.
  { rewrite lookup_answer in E1 by reflexivity. simpl in E1. injection E1 as <-. intros x Hx. apply prev_pure_In in Hx as (j & Hx). eapply U4; exact Hx. }
  assert (incl r2 (all_handed ops)) as I2.
  { rewrite lookup_answer in E2 by reflexivity. simpl in E2. injection E2 as <-. intros x Hx. apply next_pure_In in Hx as (j & Hx). eapply U3; exact Hx. }
  split.
  - exists (filter f r1). split; [unfold ask, collect; cbn [step] in E1; destruct (q_previous c m); cbn [snd] in E1 |- *; injection E1 as ->; reflexivity|].
    destruct R1 as [(-> & N)|(e & He & Hr & Hm & Hmax)].
    + split; [intro H; contradiction|]. intros _ x Hx _ Hx'. specialize (N x Hx). lia.
    + destruct (@nearest_filtered l r1 f (ends_at e) Hm Hr) as (M & G).
      { intros a b Ha Hb. apply Hf; auto. apply filter_In in Hb as [Hb _]. auto. }
      split; [intros _; exists e; split; [exact He|]; split; [exact M|]; intros x Hx _; auto|].
      intros E x Hx Hfx Hx'. destruct (G E) as (G1 & y & Hy & Ay). exists y. split; [exact Hy|]. split; [apply G1; assumption|].
      assert (e = m_end y) as <- by (unfold ends_at in Ay; lia).
      assert (m_end x <> e) as Hne. { intro Heq. rewrite (G1 x Hx) in Hfx; [discriminate|]. unfold ends_at. lia. }
      specialize (Hmax x Hx Hx'). lia.
  - exists (filter f r2). split; [unfold ask, collect; cbn [step] in E2; destruct (q_next c m); cbn [snd] in E2 |- *; injection E2 as ->; reflexivity|].
    destruct R2 as [(-> & N)|(e & He & Hr & Hm & Hmax)].
    + split; [intro H; contradiction|]. intros _ x Hx _ Hx'. specialize (N x Hx). lia.
    + destruct (@nearest_filtered l r2 f (starts_at e) Hm Hr) as (M & G).
      { intros a b Ha Hb. apply Hf; auto. apply filter_In in Hb as [Hb _]. auto. }
      split; [intros _; exists e; split; [exact He|]; split; [exact M|]; intros x Hx _; auto|].
      intros E x Hx Hfx Hx'. destruct (G E) as (G1 & y & Hy & Ay). exists y. split; [exact Hy|]. split; [apply G1; assumption|].
      assert (e = m_start y) as <- by (unfold starts_at in Ay; lia).
      assert (m_start x <> e) as Hne. { intro Heq. rewrite (G1 x Hx) in Hfx; [discriminate|]. unfold starts_at. lia. }
      specialize (Hmax x Hx Hx'). lia.
Qed.
(** Full statement refuted: with a nearer match which does not satisfy the predicate nothing is
    found, although a match satisfying it precedes (follows). *)
Theorem C73_nearest_refuted :
  let c := run (empty_coll KMatches ex_input) [OExtend [ex_a; ex_b; ex_c]] in
  let m := mk_match 9 8 9 in
  let early := fun x => m_end x <=? 3 in
  In ex_a (list_run [] [OExtend [ex_a; ex_b; ex_c]]) /\ early ex_a = true /\ m_end ex_a <= m_start m
  /\ snd (ask c (QPrevious m) (AFun early) ANone) = Ok (PickList [])
  /\ snd (ask c (QNext ex_a) (AFun (fun x => 5 <=? m_start x)) ANone) = Ok (PickList []).
Proof. repeat split; try reflexivity; [left; reflexivity | vm_compute; discriminate]. Qed.
Example C73_example :
  let c := run (empty_coll KMatches ex_input) [OExtend [ex_a; ex_b; ex_c]] in
  snd (ask c (QPrevious ex_c) (AFun (fun m => m_end m <=? 3)) (AInt 0)) = Ok (PickOne (Some ex_a)).
Proof. reflexivity. Qed.

(** ** C74 *)
(** [matches[i:j]]: a collection made of the slice of the list, as if its matches had just been
    put in a new [Matches]; the collection it is taken from is left alone. *)
Theorem C99_slice : forall input ops i j,
  acceptable KMatches false [] ops ->
  let c := run (empty_coll KMatches input) ops in
  let part := py_slice (list_run [] ops) i j in
  exists c', getslice c i j = (c', Ok tt)
    /\ c_del c' = part
    /\ lookups_agree c'
    /\ (forall more, c_del (run c' more) = c_del (run (empty_coll KMatches None) (OExtend part :: more))
                     /\ forall o, snd (step (run c' more) o) = snd (step (run (empty_coll KMatches None) (OExtend part :: more)) o)).
Proof.
  intros input ops i j H1 c part.
  destruct (@run_ok (fun _ => True) KMatches ops false (empty_coll KMatches input)) as ((_ & _ & HF) & [Hk _] & Hd & _); auto; try discriminate; [apply Inv_empty|].
  fold c in HF, Hk, Hd. simpl in Hd. unfold getslice. rewrite Hd. fold part.
  assert (acceptable KMatches false [] [OExtend part]) as Ha.
  { simpl. repeat split; auto. rewrite Hk, Hd in HF. clear -HF. apply Forall_forall. intros x Hx. rewrite Forall_forall in HF. apply HF.
    destruct (py_slice_unslice (list_run [] ops) i j) as (u & v & _ & ->). apply in_or_app. right. apply in_or_app. left. exact Hx. }
  destruct (@reached_ok KMatches None [OExtend part] Ha eq_refl) as (HI & Hd' & _). unfold reached in HI, Hd'. simpl in HI, Hd'.
  destruct (@refines_list KMatches None [] (OExtend part) Ha) as (_ & _ & H3). specialize (H3 eq_refl). simpl in H3.
  destruct (extend (empty_coll KMatches None) part) as [c' [[]|e]] eqn:E; cbn [fst snd unit_out] in HI, Hd', H3 |- *; [|discriminate].
  exists c'. split; [reflexivity|]. split; [exact Hd'|]. split; [apply Inv_agree; exact HI|]. intro more.
  assert (run (empty_coll KMatches None) (OExtend part :: more) = run c' more) as -> by (unfold run; simpl; rewrite E; reflexivity).
  split; [reflexivity|]. intro o. reflexivity.
Qed.
(** Full statement (a slice is the same kind of collection, over the same text) refuted: the
    slice has no input string, so that its holes end at its last match, separators are refused and
    chains raise; a slice of markers holding a marker is refused. *)
Theorem C74_slice_refuted :
  let c := run (empty_coll KMatches ex_input) [OExtend [ex_a; ex_b; ex_c]] in
  (exists c', getslice c None None = (c', Ok tt) /\ c_del c' = c_del c
     /\ snd (step c (OHoles 0 None (fun _ => true) None)) = RSpans [(8, 10)]
     /\ snd (step c' (OHoles 0 None (fun _ => true) None)) = RSpans []
     /\ snd (step c (OHoles 0 None (fun _ => true) (Some (s "-")))) = RSpans [(8, 10)]
     /\ snd (step c' (OHoles 0 None (fun _ => true) (Some (s "-")))) = RErr AssertionError)
  /\ (let k := set_marker ex_a true in
      let c := run (empty_coll KMarkers ex_input) [OAppend k] in
      c_del c = [k] /\ snd (getslice c None None) = Err AssertionError).
Proof. split; [eexists; repeat split; reflexivity | split; reflexivity]. Qed.
(** what a slice of markers does in general *)
Theorem C99_marker_slice : forall input ops i j m r,
  acceptable KMarkers false [] ops -> py_slice (list_run [] ops) i j = m :: r ->
  snd (getslice (run (empty_coll KMarkers input) ops) i j) = Err AssertionError.
Proof.
  intros input ops i j m r H1 E.
  destruct (@run_ok (fun _ => True) KMarkers ops false (empty_coll KMarkers input)) as ((_ & _ & HF) & [Hk _] & Hd & _); auto; try discriminate; [apply Inv_empty|].
  simpl in Hd, Hk. rewrite Hk in HF. unfold getslice. rewrite Hd, E.
  assert (accepts KMarkers m = true) as Hm.
  { rewrite Hd in HF. rewrite Forall_forall in HF. apply HF. destruct (py_slice_unslice (list_run [] ops) i j) as (u & v & _ & ->). rewrite E. apply in_or_app. right. left. reflexivity. }
  simpl in Hm. simpl. unfold append, insert, add_match. simpl. rewrite Hm. reflexivity.
Qed.
(** [Matches(ms, input)] holds the given matches; [Markers(ms, input)] holds nothing. *)
Theorem C99_constructors : forall ms input,
  (Forall (fun m => m_marker m = false) ms -> exists c, new_matches ms input = (c, Ok tt) /\ c_del c = ms /\ c_input c = input /\ lookups_agree c)
  /\ (exists c, new_markers ms input = (c, Ok tt) /\ c_del c = []).
Proof.
  intros ms input. split; [|eexists; split; reflexivity]. intro H. unfold new_matches.
  assert (acceptable KMatches false [] [OExtend ms]) as Ha.
  { simpl. repeat split; auto. eapply Forall_impl; [|exact H]. intros m Hm. simpl. rewrite Hm. reflexivity. }
  destruct (@reached_ok KMatches input [OExtend ms] Ha eq_refl) as (HI & Hd' & Hi & _). unfold reached in HI, Hd', Hi. simpl in HI, Hd', Hi.
  destruct (@refines_list KMatches input [] (OExtend ms) Ha) as (_ & _ & H3). specialize (H3 eq_refl). simpl in H3.
  destruct (extend (empty_coll KMatches input) ms) as [c' [[]|e]] eqn:E; cbn [fst snd unit_out] in HI, Hd', H3 |- *; [|discriminate].
  exists c'. split; [reflexivity|]. split; [exact Hd'|]. split; [exact Hi | apply Inv_agree; exact HI].
Qed.
Example C99_example :
  let c := run (empty_coll KMatches ex_input) ex_ops in
  let c' := fst (getslice c (Some 1) (Some (-1))) in
  acceptable KMatches false [] ex_ops
  /\ snd (getslice c (Some 1) (Some (-1))) = Ok tt /\ c_del c' = [ex_c] /\ snd (step c' (ONamed [s "foo"])) = RList [ex_c].
Proof. split; [apply ex_ops_ok|]. vm_compute. repeat split; reflexivity. Qed.

(** ** C75 *)
(** [for m in matches.named(...): matches.remove(m)] removes every match having one of the names
    and nothing else. *)
Lemma for_remove_many ms : forall c, Inv no_ghost c -> (forall x, In x ms -> (countb (meq x) ms <= countb (meq x) (c_del c))%nat) ->
  exists c', for_remove ms c = (c', Ok tt) /\ Inv no_ghost c' /\ c_del c' = take_out_all (c_del c) ms.
Proof.
  induction ms as [|m ms IH]; intros c HI Hc; [exists c; auto|]. simpl.
  pose proof (@remove_ok no_ghost c m HI) as H. destruct (remove_first (meq m) (c_del c)) as [l'|] eqn:E.
  - destruct H as (c1 & -> & HI1 & _ & Hd1 & _). destruct (IH c1 HI1) as (c' & -> & HI' & Hd').
    + intros x Hx. specialize (Hc x (or_intror Hx)). rewrite countb_cons in Hc. rewrite Hd1.
      pose proof (countb_take_out (c_del c) m x) as T. unfold take_out in T. rewrite E in T. rewrite T. destruct (meq x m); lia.
    + exists c'. split; [reflexivity|]. split; [exact HI'|]. rewrite Hd', Hd1. unfold take_out_all. cbn [fold_left]. f_equal. unfold take_out. rewrite E. reflexivity.
  - exfalso. specialize (Hc m (or_introl eq_refl)). rewrite countb_cons, meq_refl in Hc.
    assert (countb (meq m) (c_del c) = 0)%nat as Z0 by (apply countb_zero, (proj1 (remove_first_None _ _) E)). lia.
Qed.
Lemma countb_same a b x : same_members a b -> countb (meq x) a = countb (meq x) b.
Proof.
  intros (l & Hp & H). transitivity (countb (meq x) l).
  - clear Hp. induction H as [|y z a' l' E H IH]; [reflexivity|]. rewrite !countb_cons, IH. f_equal.
    assert (meq x y = meq x z) as ->; [|reflexivity]. apply meq_mkey in E. apply eq_true_iff_eq. rewrite !meq_mkey, E. reflexivity.
  - clear H. induction Hp as [|y a' l' H IH|y z a'|a' b' d H1 IH1 H2 IH2]; rewrite ?countb_cons; [reflexivity | | |]; try (rewrite IH); try lia.
Qed.
Lemma countb_by_names x l : forall fs, NoDup fs ->
  countb (meq x) (flat_map (fun n => filter (name_is n) l) fs) = (if existsb (fun n => name_is n x) fs then countb (meq x) l else 0)%nat.
Proof.
  assert (forall n, countb (meq x) (filter (name_is n) l) = if name_is n x then countb (meq x) l else 0%nat) as One.
  { intro n. unfold countb. rewrite filter_filter. destruct (name_is n x) eqn:En.
    - f_equal. apply filter_ext_in. intros y _. destruct (meq x y) eqn:E; [|apply andb_false_r]. rewrite andb_true_r.
      apply meq_mkey, mkey_name in E. unfold name_is in *. rewrite <- E. exact En.
    - assert (filter (fun y => name_is n y && meq x y) l = []) as ->; [|reflexivity]. apply filter_nil_iff. intros y _. destruct (meq x y) eqn:E; [|apply andb_false_r].
      rewrite andb_true_r. apply meq_mkey, mkey_name in E. unfold name_is in *. rewrite <- E. exact En. }
  induction fs as [|n fs IH]; intro Hn; [reflexivity|]. inversion Hn as [|n' fs' H1 H2]; subst. simpl. unfold countb. rewrite filter_app, app_length.
  fold (countb (meq x) (filter (name_is n) l)). fold (countb (meq x) (flat_map (fun n => filter (name_is n) l) fs)). rewrite One, IH by exact H2.
  destruct (name_is n x) eqn:En; simpl; [|reflexivity]. assert (existsb (fun n0 => name_is n0 x) fs = false) as ->; [|apply Nat.add_0_r].
  apply existsb_false_iff. intros n0 Hin. apply not_true_iff_false. intro E0. apply H1. unfold name_is in *.
  destruct (m_name x) as [nx|]; simpl in *; [|discriminate]. apply pstr_eqb_eq in En, E0. congruence.
Qed.
Lemma first_met_spec ns : NoDup (first_met [] ns) /\ forall n, In n (first_met [] ns) <-> In n ns.
Proof.
  assert (forall ns seen, NoDup (first_met seen ns) /\ forall n, In n (first_met seen ns) <-> In n ns /\ ~ In n seen) as G.
  { clear ns. induction ns as [|n ns IH]; intro seen; simpl; [split; [constructor | intro; tauto]|].
    destruct (existsb (pstr_eqb n) seen) eqn:E.
    - destruct (IH seen) as [I1 I2]. split; [exact I1|]. intro x. rewrite I2. apply existsb_exists in E as (y & Hy & E). apply pstr_eqb_eq in E. subst. intuition (subst; auto; contradiction).
    - destruct (IH (n :: seen)) as [I1 I2]. assert (~ In n seen) as Hn.
      { intro H. rewrite existsb_false_iff in E. specialize (E n H). rewrite pstr_eqb_refl in E. discriminate. }
      split; [constructor; [rewrite I2; simpl; tauto | exact I1]|]. intro x. simpl. rewrite I2. simpl.
      destruct (list_eq_dec N.eq_dec n x) as [->|Hx]; intuition (subst; auto; contradiction). }
  destruct (G ns []) as [G1 G2]. split; [exact G1|]. intro n. rewrite G2. simpl. tauto.
Qed.
Theorem C100_remove_named : forall k input ops ns,
  acceptable k false [] ops -> no_assignment ops -> Forall (fun n => n <> []) ns ->
  let c := run (empty_coll k input) ops in
  exists c', remove_named c ns = (c', Ok tt)
    /\ c_del c' = filter (fun m => negb (existsb (fun n => name_is n m) ns)) (list_run [] ops)
    /\ lookups_agree c'.
Proof.
  intros k input ops ns H1 H2 Hns c. unfold remove_named.
  destruct (@C72_named k input ops ns None None H1 H2 Hns) as (r & Hr & _ & Hs). specialize (Hs _ (or_introl eq_refl)). fold c in Hs.
  assert (snd (q_named c ns) = r) as Er.
  { unfold named in Hs. cbn [forallb fst snd] in Hs. rewrite <- (app_nil_r (map AStr ns)), (split_names_strings ns (r := []) I) in Hs.
    destruct (q_named c ns) as [c1 l1]. cbn in Hs. injection Hs as ->. reflexivity. }
  assert (acceptable k false [] (ops ++ [ONamed ns])) as H1' by (apply acceptable_then; [exact H1 | simpl; auto]).
  assert (no_assignment (ops ++ [ONamed ns])) as H2' by (unfold no_assignment in *; rewrite forallb_app, H2; reflexivity).
  destruct (@reached_ok k input _ H1' H2') as (HI & Hd & _). unfold reached in HI, Hd. rewrite run_app in HI, Hd. fold c in HI, Hd.
  assert (fst (q_named c ns) = run c [ONamed ns]) as Ec by (unfold run; simpl; destruct (q_named c ns); reflexivity).
  assert (list_run [] (ops ++ [ONamed ns]) = list_run [] ops) as El by (unfold list_run; rewrite fold_left_app; reflexivity).
  rewrite El, <- Ec in Hd. rewrite <- Ec in HI. destruct (q_named c ns) as [c1 l1]. simpl in Er, HI, Hd. subst l1.
  assert (forall x, countb (meq x) r = (if existsb (fun n => name_is n x) ns then countb (meq x) (list_run [] ops) else 0)%nat) as Hcount.
  { intro x. destruct (first_met_spec ns) as [N1 N2]. 
    rewrite (countb_same x Hr), countb_by_names by exact N1.
    assert (existsb (fun n => name_is n x) (first_met [] ns) = existsb (fun n => name_is n x) ns) as ->; [|reflexivity].
    apply eq_true_iff_eq. rewrite !existsb_exists. split; intros (n & Hn & E); exists n; split; auto; apply N2; exact Hn. }
  destruct (@for_remove_many r c1 HI) as (c' & E & HI' & Hd').
  { intros x _. rewrite Hd, Hcount. destruct (existsb (fun n => name_is n x) ns); lia. }
  exists c'. split; [exact E|]. split; [|apply Inv_agree; exact HI']. rewrite Hd', Hd. apply take_out_all_filter. intros x _. rewrite Hcount.
  destruct (existsb (fun n => name_is n x) ns); simpl; lia.
Qed.
Example C100_named_example :
  let c := run (empty_coll KMatches ex_input) [OExtend [ex_a; ex_b; ex_c]] in
  snd (remove_named c [s "foo"]) = Ok tt /\ c_del (fst (remove_named c [s "foo"])) = [ex_b].
Proof. vm_compute. split; reflexivity. Qed.

(** The lists held by the collection. *)
Definition held_members (h : held) (m : mtch) : bool :=
  match h with
  | HTag t => existsb (pstr_eqb t) (m_tags m)
  | HStart i => starts_at i m
  | HEnd i => ends_at i m
  | HAt i => coversb i m
  end.
(** [l] without every other one of its elements satisfying [p]; the first one goes if [drop] *)
Fixpoint every_other (p : mtch -> bool) (drop : bool) (l : list mtch) : list mtch :=
  match l with
  | [] => []
  | m :: r => if p m then (if drop then every_other p false r else m :: every_other p true r)
              else m :: every_other p drop r
  end.
Fixpoint drop_after (p : mtch -> bool) (n : nat) (l : list mtch) : list mtch :=
  match l with
  | [] => []
  | m :: r => if p m then (match n with O => drop_after p 1 r | S n => m :: drop_after p n r end) else m :: drop_after p n r
  end.
Lemma drop_after_every_other p l : drop_after p 0 l = every_other p true l /\ drop_after p 1 l = every_other p false l.
Proof. induction l as [|m l [I1 I2]]; simpl; [auto|]. destruct (p m); rewrite ?I1, ?I2; auto. Qed.
Lemma drop_after_app p a b : drop_after p (length (filter p a)) (a ++ b) = a ++ drop_after p 0 b.
Proof. induction a as [|m a IH]; simpl; [reflexivity|]. destruct (p m); simpl; rewrite IH; reflexivity. Qed.
Lemma drop_after_app_S p a b n : drop_after p (length (filter p a) + n) (a ++ b) = a ++ drop_after p n b.
Proof. induction a as [|m a IH]; simpl; [reflexivity|]. destruct (p m); simpl; rewrite IH; reflexivity. Qed.
Lemma drop_after_none p l : forall n, (length (filter p l) <= n)%nat -> drop_after p n l = l.
Proof. induction l as [|m l IH]; intros n H; simpl in *; [reflexivity|]. destruct (p m); simpl in H; [destruct n; [lia|]|]; rewrite IH by lia; reflexivity. Qed.
Lemma nth_filter p (l : list mtch) : forall i m, nth_error (filter p l) i = Some m -> exists a b, l = a ++ m :: b /\ length (filter p a) = i /\ p m = true.
Proof.
  induction l as [|x l IH]; intros i m H; simpl in H; [destruct i; discriminate|]. destruct (p x) eqn:E.
  - destruct i as [|i]; simpl in H; [injection H as ->; exists [], l; auto|]. destruct (IH i m H) as (a & b & -> & E1 & E2).
    exists (x :: a), b. simpl. rewrite E. simpl. auto.
  - destruct (IH i m H) as (a & b & -> & E1 & E2). exists (x :: a), b. simpl. rewrite E. auto.
Qed.
Lemma in_order_no_equal ops : forall l, no_equal l -> in_order l ops -> no_equal (list_run l ops).
Proof. induction ops as [|o ops IH]; intros l Hl H; simpl in *; [exact Hl|]. destruct H as (_ & H1 & H2). apply IH; assumption. Qed.
Lemma in_order_app ops1 ops2 : forall l, in_order l ops1 -> in_order (list_run l ops1) ops2 -> in_order l (ops1 ++ ops2).
Proof. induction ops1 as [|o ops1 IH]; intros l H1 H2; simpl in *; [exact H2|]. destruct H1 as (A & B & C). auto. Qed.
Lemma tagged_filter t l : (forall m, In m l -> (tag_count t m <= 1)%nat) -> tagged_members t l = filter (held_members (HTag t)) l.
Proof.
  intro H. unfold tagged_members. induction l as [|m l IH]; [reflexivity|]. simpl. rewrite IH by (intros; apply H; right; assumption).
  specialize (H m (or_introl eq_refl)). unfold tag_count in *. destruct (existsb (pstr_eqb t) (m_tags m)) eqn:E.
  - apply existsb_exists in E as (y & Hy & Ey). assert (In y (filter (pstr_eqb t) (m_tags m))) as Hin by (apply filter_In; auto).
    destruct (filter (pstr_eqb t) (m_tags m)) as [|a [|b r]]; simpl in *; [destruct Hin | reflexivity | lia].
  - assert (filter (pstr_eqb t) (m_tags m) = []) as ->; [|reflexivity]. apply filter_nil_iff. rewrite existsb_false_iff in E. exact E.
Qed.
Definition plain (h : held) (l : list mtch) : Prop := match h with HTag t => forall m, In m l -> (tag_count t m <= 1)%nat | _ => True end.
Lemma held_exact k input ops h : acceptable k false [] ops -> no_assignment ops -> in_order [] ops -> plain h (list_run [] ops) ->
  held_list (run (empty_coll k input) ops) h = filter (held_members h) (list_run [] ops).
Proof.
  intros H1 H2 H3 Hp. destruct (@reached_exact_views k input ops H1 H2 H3) as (_ & V2 & V3 & V4 & V5).
  destruct (@reached_ok k input ops H1 H2) as (_ & Hd & _). unfold reached in *. rewrite Hd in *.
  destruct h; simpl; [rewrite <- (tagged_filter Hp), <- occ_tag; apply V2 | | |].
  - change (held_members (HStart i)) with (starts_at i). rewrite <- occ_start. apply V3.
  - change (held_members (HEnd i)) with (ends_at i). rewrite <- occ_end. apply V4.
  - change (held_members (HAt i)) with (coversb i). rewrite <- occ_at. apply V5.
Qed.

Lemma filter_length_le' (p : mtch -> bool) l : (length (filter p l) <= length l)%nat.
Proof. induction l as [|x l IH]; simpl; [lia|]. destruct (p x); simpl; lia. Qed.
Lemma for_remove_held_spec k input h : forall fuel ops i,
  acceptable k false [] ops -> no_assignment ops -> in_order [] ops -> plain h (list_run [] ops) ->
  (length (filter (held_members h) (list_run [] ops)) < fuel + i)%nat -> (0 < fuel)%nat ->
  exists more, for_remove_held fuel h i (run (empty_coll k input) ops) = Some (run (empty_coll k input) (ops ++ more), Ok tt)
    /\ acceptable k false [] (ops ++ more) /\ no_assignment (ops ++ more)
    /\ list_run [] (ops ++ more) = drop_after (held_members h) i (list_run [] ops).
Proof.
  induction fuel as [|fuel IH]; intros ops i H1 H2 H3 Hp Hf Hpos; [lia|]. simpl for_remove_held.
  rewrite (held_exact input H1 H2 H3 Hp). set (l := list_run [] ops) in *. destruct (nth_error (filter (held_members h) l) i) as [m|] eqn:E.
  - destruct (nth_filter E) as (a & b & El & Ea & Em).
    assert (no_equal l) as Hn by (apply in_order_no_equal; [constructor | exact H3]).
    assert (remove_first (meq m) l = Some (a ++ b)) as Er.
    { rewrite El in *. clear -Hn. induction a as [|x a IH]; simpl in *; [rewrite meq_refl; reflexivity|]. inversion Hn as [|x' l' F1 F2]; subst.
      assert (meq m x = false) as ->. { rewrite Forall_forall in F1. rewrite meq_sym. apply F1. apply in_or_app. right. left. reflexivity. }
      rewrite IH by exact F2. reflexivity. }
    assert (acceptable k false [] (ops ++ [ORemove m])) as H1' by (apply acceptable_then; [exact H1 | simpl; auto]).
    assert (no_assignment (ops ++ [ORemove m])) as H2' by (unfold no_assignment in *; rewrite forallb_app, H2; reflexivity).
    assert (list_run [] (ops ++ [ORemove m]) = a ++ b) as El'.
    { unfold list_run. rewrite fold_left_app. fold (list_run [] ops). fold l. simpl. rewrite Er. reflexivity. }
    assert (in_order [] (ops ++ [ORemove m])) as H3'.
    { apply in_order_app; [exact H3|]. fold l. simpl. rewrite Er. simpl. split; [exact I|]. split; [|exact I].
      rewrite El in Hn. clear -Hn. induction a as [|x a IH]; simpl in *; inversion Hn as [|x' l' F1 F2]; subst; [exact F2|].
      constructor; [|apply IH; exact F2]. rewrite Forall_forall in *. intros y Hy. apply F1. apply in_app_or in Hy. apply in_or_app. destruct Hy; [left | right; right]; assumption. }
    assert (plain h (list_run [] (ops ++ [ORemove m]))) as Hp'.
    { rewrite El'. destruct h; simpl in *; auto. intros x Hx. apply Hp. rewrite El. apply in_app_or in Hx. apply in_or_app. destruct Hx; [left | right; right]; assumption. }
    destruct (@reached_ok k input ops H1 H2) as (HI & Hd & _). unfold reached in HI, Hd. fold l in Hd.
    pose proof (@remove_ok no_ghost _ m HI) as HR. rewrite Hd, Er in HR. destruct HR as (c1 & Ec1 & _). rewrite Ec1.
    assert (c1 = run (empty_coll k input) (ops ++ [ORemove m])) as ->.
    { rewrite run_app. unfold run at 1. simpl. unfold unit_out. simpl. rewrite Ec1. reflexivity. }
    destruct (filter (held_members h) b) as [|m' b'] eqn:Eb.
    + (* nothing left after position i *)
      assert (length (filter (held_members h) (a ++ b)) = i) as Lab by (rewrite filter_app, app_length, Eb, Ea; simpl; lia).
      destruct fuel as [|fuel].
      { exfalso. rewrite El in Hf. rewrite filter_app, app_length in Hf. simpl in Hf. rewrite Em in Hf. simpl in Hf. lia. }
      destruct (IH (ops ++ [ORemove m]) (S i) H1' H2' H3' Hp') as (more & -> & A & B & C); [rewrite El'; lia | lia|].
      exists (ORemove m :: more). rewrite <- app_assoc in *. simpl in *. split; [reflexivity|]. split; [exact A|]. split; [exact B|]. rewrite C, El', El.
      rewrite drop_after_none by lia. rewrite <- Ea, drop_after_app. simpl. rewrite Em. rewrite drop_after_none; [reflexivity|]. rewrite Eb. simpl. lia.
    + destruct fuel as [|fuel].
      { exfalso. rewrite El in Hf. rewrite filter_app, app_length in Hf. simpl in Hf. rewrite Em in Hf. simpl in Hf. lia. }
      destruct (IH (ops ++ [ORemove m]) (S i) H1' H2' H3' Hp') as (more & -> & A & B & C).
      { rewrite El', filter_app, app_length. rewrite El, filter_app, app_length in Hf. simpl in Hf. rewrite Em in Hf. simpl in Hf. lia. }
      { lia. }
      exists (ORemove m :: more). rewrite <- app_assoc in *. simpl in *. split; [reflexivity|]. split; [exact A|]. split; [exact B|]. rewrite C, El', El.
      rewrite <- Ea, drop_after_app. simpl. rewrite Em. replace (S (length (filter (held_members h) a))) with (length (filter (held_members h) a) + 1)%nat by lia.
      rewrite drop_after_app_S. reflexivity.
  - exists []. rewrite app_nil_r. split; [reflexivity|]. split; [exact H1|]. split; [exact H2|]. symmetry. apply drop_after_none. apply nth_error_None. exact E.
Qed.
(** C75 (the loop removes the matches looked up) does not hold: exactly every other one of
    the matches the list holds is removed.  For histories in which the lists are in sequence
    order, and tags which no match bears twice. *)
Theorem C100_remove_held : forall k input ops h fuel,
  acceptable k false [] ops -> no_assignment ops -> in_order [] ops -> plain h (list_run [] ops) ->
  (length (list_run [] ops) < fuel)%nat ->
  exists c', remove_while_looking fuel (run (empty_coll k input) ops) h = Some (c', Ok tt)
    /\ c_del c' = every_other (held_members h) true (list_run [] ops)
    /\ lookups_agree c'.
Proof.
  intros k input ops h fuel H1 H2 H3 Hp Hf. unfold remove_while_looking.
  assert (list_run [] (ops ++ [held_op h]) = list_run [] ops) as El by (unfold list_run; rewrite fold_left_app; destruct h; reflexivity).
  assert (in_order [] (ops ++ [held_op h])) as H3'.
  { apply in_order_app; [exact H3|]. assert (fst (list_step (list_run [] ops) (held_op h)) = list_run [] ops) as E by (destruct h; reflexivity).
    simpl. rewrite E. repeat split; [destruct h; exact I|]. apply in_order_no_equal; [constructor | exact H3]. }
  destruct (@for_remove_held_spec k input h fuel (ops ++ [held_op h]) 0) as (more & E & A & B & C); auto.
  - apply acceptable_then; [exact H1|]. intros; destruct h; simpl; repeat split; auto.
  - unfold no_assignment in *; rewrite forallb_app, H2; destruct h; reflexivity.
  - rewrite El. exact Hp.
  - rewrite El. pose proof (filter_length_le' (held_members h) (list_run [] ops)). lia.
  - lia.
  - assert (run (empty_coll k input) (ops ++ [held_op h]) = fst (step (run (empty_coll k input) ops) (held_op h))) as Er by (rewrite run_app; reflexivity).
    rewrite Er in E. eexists. split; [exact E|]. destruct (@reached_ok k input _ A B) as (HI & Hd & _). unfold reached in HI, Hd.
    split; [|apply Inv_agree; exact HI]. rewrite Hd, C, El. apply drop_after_every_other.
Qed.
Theorem C75_remove_held_refuted :
  let c := run (empty_coll KMatches ex_input) [OExtend [ex_a; ex_b; ex_c]] in
  in_order [] [OExtend [ex_a; ex_b; ex_c]] /\ plain (HTag (s "y")) [ex_a; ex_b; ex_c]
  /\ option_map (fun r => c_del (fst r)) (remove_while_looking 9 c (HTag (s "y"))) = Some [ex_b; ex_c].
Proof.
  split; [|split]; [|intros m [<- | [<- | [<- | []]]]; vm_compute; lia | vm_compute; reflexivity].
  simpl. repeat split. repeat constructor.
Qed.

(** [matches.extend(matches.starting(i))] and the like: never ends once there is such a match. *)
Definition held_list_of (h : held) (l : list mtch) : list mtch :=
  match h with
  | HTag t => tagged_members t l
  | HStart i => filter (starts_at i) l
  | HEnd i => filter (ends_at i) l
  | HAt i => filter (coversb i) l
  end.
Lemma held_perm k input ops h : acceptable k false [] ops -> no_assignment ops ->
  (forall a b, In a (all_handed ops) -> In b (all_handed ops) -> meq a b = true -> a = b) ->
  Permutation (held_list (run (empty_coll k input) ops) h) (held_list_of h (list_run [] ops)).
Proof.
  intros H1 H2 Hinj. destruct (C01_lookups_agree_exactly input H1 H2 Hinj) as (_ & A2 & A3 & A4 & A5).
  destruct h; simpl; [destruct (A2 t) as (r & E & P) | destruct (A3 i) as (r & E & P) | destruct (A4 i) as (r & E & P) | destruct (A5 i) as (r & E & P)];
    rewrite lookup_answer in E by reflexivity; injection E as <-; exact P.
Qed.
Lemma held_of_app h l m : held_list_of h (l ++ [m]) = held_list_of h l ++ held_list_of h [m].
Proof. destruct h; simpl; [unfold tagged_members; rewrite flat_map_app; reflexivity | | |]; apply filter_app. Qed.
Lemma held_of_In h l m : In m (held_list_of h l) -> In m l /\ (0 < length (held_list_of h [m]))%nat.
Proof.
  destruct h; simpl; [|intro H; apply filter_In in H as [H E]; rewrite E; simpl; split; [exact H | lia]..].
  intro H. apply in_flat_map in H as (y & Hy & H). pose proof (repeat_spec _ _ _ H) as ->. split; [exact Hy|]. rewrite app_nil_r, repeat_length.
  destruct (tag_count t y); [destruct H | lia].
Qed.
Lemma all_accepted k ops : forall asked l, acceptable k asked l ops -> Forall (fun m => accepts k m = true) (all_handed ops).
Proof. induction ops as [|o ops IH]; intros asked l H; [constructor|]. destruct H as (A & _ & B). unfold all_handed. simpl. apply Forall_app. split; [exact A | eapply IH; exact B]. Qed.
Theorem C100_extend_held : forall k input ops h,
  acceptable k false [] ops -> no_assignment ops ->
  (forall a b, In a (all_handed ops) -> In b (all_handed ops) -> meq a b = true -> a = b) ->
  held_list_of h (list_run [] ops) <> [] ->
  forall fuel, extend_while_looking fuel (run (empty_coll k input) ops) h = None.
Proof.
  intros k input ops h H1 H2 Hinj Hne fuel. unfold extend_while_looking.
  assert (forall fuel ops i, acceptable k false [] ops -> no_assignment ops ->
    (forall a b, In a (all_handed ops) -> In b (all_handed ops) -> meq a b = true -> a = b) ->
    (i < length (held_list_of h (list_run [] ops)))%nat -> for_append_held fuel h i (run (empty_coll k input) ops) = None) as G.
  { clear. induction fuel as [|fuel IH]; intros ops i H1 H2 Hinj Hi; [reflexivity|]. simpl for_append_held.
    pose proof (@held_perm k input ops h H1 H2 Hinj) as P. destruct (nth_error (held_list (run (empty_coll k input) ops) h) i) as [m|] eqn:E.
    - assert (In m (held_list_of h (list_run [] ops))) as Hm by (eapply Permutation_in; [exact P | eapply nth_error_In; exact E]).
      apply held_of_In in Hm as [Hm Hpos].
      destruct (@reached_ok k input ops H1 H2) as (HI & Hd & _). unfold reached in HI, Hd.
      assert (In m (all_handed ops)) as Hh.
      { pose proof (reached_univ k input ops) as HU. unfold reached in HU. apply Uok_Uv in HU as (U0 & _). rewrite Hd, Forall_forall in U0. auto. }
      pose proof (all_accepted H1) as Hacc. rewrite Forall_forall in Hacc. pose proof (Hacc m Hh) as Am.
      assert (acceptable k false [] (ops ++ [OAppend m])) as H1' by (apply acceptable_then; [exact H1 | simpl; auto]).
      assert (no_assignment (ops ++ [OAppend m])) as H2' by (unfold no_assignment in *; rewrite forallb_app, H2; reflexivity).
      destruct (@refines_list k input ops (OAppend m) H1') as (_ & _ & H3). specialize (H3 eq_refl). simpl in H3.
      destruct (append (run (empty_coll k input) ops) m) as [c1 [[]|e]] eqn:Ea; [|discriminate].
      assert (c1 = run (empty_coll k input) (ops ++ [OAppend m])) as ->.
      { rewrite run_app. unfold run at 1. simpl. unfold unit_out. simpl. rewrite Ea. reflexivity. }
      apply IH; auto.
      + unfold all_handed. rewrite flat_map_app. simpl. fold (all_handed ops). intros a b Ha Hb. apply Hinj.
        * apply in_app_or in Ha as [Ha|[<-|[]]]; assumption.
        * apply in_app_or in Hb as [Hb|[<-|[]]]; assumption.
      + assert (list_run [] (ops ++ [OAppend m]) = list_run [] ops ++ [m]) as -> by (unfold list_run; rewrite fold_left_app; reflexivity).
        rewrite held_of_app, app_length. lia.
    - exfalso. apply nth_error_None in E. rewrite (Permutation_length P) in E. lia. }
  assert (fst (step (run (empty_coll k input) ops) (held_op h)) = run (empty_coll k input) (ops ++ [held_op h])) as -> by (rewrite run_app; reflexivity).
  apply G.
  - apply acceptable_then; [exact H1|]. intros; destruct h; simpl; repeat split; auto.
  - unfold no_assignment in *; rewrite forallb_app, H2; destruct h; reflexivity.
  - unfold all_handed. rewrite flat_map_app. intros a b Ha Hb. apply Hinj; [apply in_app_or in Ha as [Ha|Ha] | apply in_app_or in Hb as [Hb|Hb]]; try assumption; destruct h; simpl in *; contradiction.
  - assert (list_run [] (ops ++ [held_op h]) = list_run [] ops) as -> by (unfold list_run; rewrite fold_left_app; destruct h; reflexivity).
    destruct (held_list_of h (list_run [] ops)); [contradiction | simpl; lia].
Qed.
(** when the answer is empty the loop ends at once, with nothing appended *)
Theorem C100_extend_held_empty : forall k input ops h,
  acceptable k false [] ops -> no_assignment ops ->
  (forall a b, In a (all_handed ops) -> In b (all_handed ops) -> meq a b = true -> a = b) ->
  held_list_of h (list_run [] ops) = [] ->
  forall fuel, extend_while_looking (S fuel) (run (empty_coll k input) ops) h = Some (run (empty_coll k input) (ops ++ [held_op h]), Ok tt).
Proof.
  intros k input ops h H1 H2 Hinj Hn fuel. unfold extend_while_looking.
  assert (fst (step (run (empty_coll k input) ops) (held_op h)) = run (empty_coll k input) (ops ++ [held_op h])) as -> by (rewrite run_app; reflexivity).
  cbn [for_append_held]. assert (held_list (run (empty_coll k input) (ops ++ [held_op h])) h = []) as ->; [|reflexivity].
  assert (list_run [] (ops ++ [held_op h]) = list_run [] ops) as L by (unfold list_run; rewrite fold_left_app; destruct h; reflexivity).
  rewrite <- L in Hn. apply Permutation_nil. rewrite <- Hn. apply Permutation_sym. apply held_perm.
  - apply acceptable_then; [exact H1|]. intros; destruct h; simpl; repeat split; auto.
  - unfold no_assignment in *; rewrite forallb_app, H2; destruct h; reflexivity.
  - unfold all_handed. rewrite flat_map_app. intros a b Ha Hb. apply Hinj; [apply in_app_or in Ha as [Ha|Ha] | apply in_app_or in Hb as [Hb|Hb]]; try assumption; destruct h; simpl in *; contradiction.
Qed.
Example C100_extend_empty_example : held_list_of (HStart 7) [ex_a; ex_b] = [].
Proof. reflexivity. Qed.
(** the first two appends already add what the third will meet *)
Example C100_extend_example :
  acceptable KMatches false [] [OExtend [ex_a; ex_b]]
  /\ (forall a b, In a [ex_a; ex_b] -> In b [ex_a; ex_b] -> meq a b = true -> a = b)
  /\ held_list_of (HStart 3) [ex_a; ex_b] = [ex_b].
Proof.
  split; [simpl; repeat constructor|]. split; [|reflexivity].
  intros a b [<-|[<-|[]]] [<-|[<-|[]]] H; try reflexivity; vm_compute in H; discriminate.
Qed.
Theorem C75_extend_held_refuted : forall fuel,
  extend_while_looking fuel (run (empty_coll KMatches ex_input) [OExtend [ex_a; ex_b]]) (HStart 3) = None.
Proof. destruct C100_extend_example as (H1 & H2 & H3). apply C100_extend_held; [exact H1 | reflexivity | exact H2 | change (held_list_of (HStart 3) (list_run [] [OExtend [ex_a; ex_b]])) with (held_list_of (HStart 3) [ex_a; ex_b]); rewrite H3; discriminate]. Qed.
Print Assumptions C72_named.
Print Assumptions C72_members.
Print Assumptions C73_nearest_partial.
Print Assumptions C99_slice.
Print Assumptions C100_remove_named.
Print Assumptions C100_remove_held.
Print Assumptions C100_extend_held.
