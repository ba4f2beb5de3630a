(** * C126, C127: matches changed while they are in a collection *)
From Verif Require Import Base BaseFacts Match Spec MatchFacts Coll CollFacts CollQuery CollSem CollSem2 SpecColl
  CollHist CollUniv CollOrder CollMore SpecFiled CollFiled CollFiled2 PropsColl PropsFiled SpecDerived PropsDerived PropsTyped SpecCards CollCards
  PropsCards Edits.
From Coq Require Import ZifyBool.
Export Coq.Strings.String.StringSyntax.
Set Implicit Arguments.
Unset Strict Implicit.
Open Scope Z_scope.

(** ** The account: a change rewrites the members and what is written on the cards, not where the
    cards are filed *)
Definition changed (id : nat) (f : mtch -> mtch) (s s' : world) : Prop :=
  members s' = map (update id f) (members s)
  /\ forall g, index s' g = option_map (map (fun c => (fst c, update id f (snd c)))) (index s g).
Inductive ehistory (k : kind) : list event -> list out -> world -> Prop :=
| e_none : ehistory k [] [] (World [] (fun _ => None))
| e_call es outs s o s' r : ehistory k es outs s -> does k o s s' r -> ehistory k (es ++ [Call o]) (outs ++ [r]) s'
| e_change es outs s id f s' : ehistory k es outs s -> changed id f s s' -> ehistory k (es ++ [Change id f]) outs s'.

Lemma dget_update {K} `{Eqb K} (u : mtch -> mtch) (d : mdict K) k : dget (dict_update u d) k = map u (dget d k).
Proof.
  unfold dget. induction d as [|[k0 l] d IH]; [reflexivity|]. unfold dict_update in *. cbn [map dfind fst snd].
  destruct (eqb k k0); [reflexivity | exact IH].
Qed.
Lemma page_update u k (cs : cards) : page k (map (fun c => (fst c, u (snd c))) cs) = map u (page k cs).
Proof.
  unfold page. induction cs as [|[k0 m] cs IH]; [reflexivity|]. cbn [map filter fst snd].
  destruct (key_eqb k k0); cbn [map snd]; rewrite IH; reflexivity.
Qed.
Lemma like_update {K} `{Eqb K} (inj : K -> key) u od oc :
  like inj od oc -> like inj (option_map (dict_update u) od) (option_map (map (fun c => (fst c, u (snd c)))) oc).
Proof.
  destruct od, oc; cbn [option_map like]; try tauto. intros L k. rewrite dget_update, page_update, L. reflexivity.
Qed.
Lemma sim_edit k c s id f : sim k c s -> exists s', changed id f s s' /\ sim k (edited c id f) s'.
Proof.
  intros (H1 & H2 & H3).
  exists (World (map (update id f) (members s)) (fun g => option_map (map (fun c => (fst c, update id f (snd c)))) (index s g))).
  split; [split; reflexivity|]. split; [exact H1|]. split; [cbn [edited c_del members]; rewrite H2; reflexivity|].
  intro g. specialize (H3 g). destruct g; cbn [like1] in *; apply like_update, H3.
Qed.

Lemma erun_snoc c es e : erun c (es ++ [e]) = estep (erun c es) e.
Proof. unfold erun. rewrite fold_left_app. reflexivity. Qed.
Lemma erun_app c a b : erun c (a ++ b) = erun (erun c a) b.
Proof. apply fold_left_app. Qed.
Lemma eoutcomes_snoc e : forall es c,
  eoutcomes c (es ++ [e]) = eoutcomes c es ++ match e with Call o => [snd (step (erun c es) o)] | Change _ _ => [] end.
Proof.
  induction es as [|x es IH]; intro c; [cbn [app eoutcomes]; rewrite app_nil_r; reflexivity|].
  cbn [app eoutcomes]. rewrite IH, app_assoc. reflexivity.
Qed.
Lemma reach_events k input es :
  exists s, ehistory k es (eoutcomes (empty_coll k input) es) s /\ sim k (erun (empty_coll k input) es) s.
Proof.
  induction es as [|e es (s & H1 & H2)] using rev_ind.
  - exists (World [] (fun _ => None)). split; [constructor | apply sim_empty].
  - rewrite eoutcomes_snoc, erun_snoc. destruct e as [o|id f]; cbn [estep].
    + destruct (sim_step o H2) as (s' & D & H'). exists s'. split; [econstructor; eassumption | exact H'].
    + rewrite app_nil_r. destruct (sim_edit id f H2) as (s' & D & H'). exists s'. split; [econstructor; eassumption | exact H'].
Qed.

Theorem C126_account : forall k input es,
  exists s, ehistory k es (eoutcomes (empty_coll k input) es) s /\ c_del (erun (empty_coll k input) es) = members s.
Proof. intros k input es. destruct (reach_events k input es) as (s & H1 & H2). exists s. split; [exact H1 | apply (sim_members H2)]. Qed.

Lemma erun_input k input es : c_input (erun (empty_coll k input) es) = input.
Proof.
  induction es as [|e es IH] using rev_ind; [reflexivity|]. rewrite erun_snoc. destruct e; cbn [estep edited c_input]; [rewrite step_input|]; exact IH.
Qed.
Theorem C126_derived : forall k input es, derived_lookups input (erun (empty_coll k input) es).
Proof. intros. apply derived_any, erun_input. Qed.

(** ** A kind of lookup never used before answers by the attributes the members have now *)
Lemma strike_all_None m fs : forall ix g, ix g = None -> fst (strike_all m fs ix) g = None.
Proof.
  induction fs as [|f fs IH]; intros ix g E; [exact E|]. cbn [strike_all]. destruct (ix f) as [cs|] eqn:Ef; [|apply IH, E].
  destruct (strike (keys f m) m cs) as [cs' ok]. assert (set_index ix f cs' g = None) as E'.
  { destruct f, g; cbn [set_index]; congruence. }
  destruct ok; [apply IH, E' | exact E'].
Qed.
Lemma goes_None m s s' r g : g <> ByEnd -> goes m s s' r -> index s g = None -> index s' g = None.
Proof.
  intros Hg [_ G] E. pose proof (strike_all_None m [ByName; ByTag; ByStart; ByEnd; ByIndex] E) as E'.
  destruct (strike_all m _ (index s)) as [ix ok]. cbn [fst] in E'. destruct ok.
  - destruct G as [_ [G|[_ G]]]; rewrite G; [exact E'|]. destruct g; cbn [set_index]; congruence.
  - destruct G as [_ G]. rewrite G. exact E'.
Qed.
Lemma comes_None k m s s' r g : comes k m s s' r -> index s g = None -> index s' g = None.
Proof.
  intros [_ C] E. destruct (accepts k m); destruct C as [_ C]; rewrite C; [rewrite E; reflexivity | exact E].
Qed.
Lemma each_None {A} (P : A -> world -> world -> out -> Prop) g :
  (forall a s s' r, P a s s' r -> index s g = None -> index s' g = None) ->
  forall l s s' r, each P l s s' r -> index s g = None -> index s' g = None.
Proof.
  intros HP l s s' r H. induction H as [s s' _ S|a l s s1 s' o H1 H2 IH|a l s s' e H1]; intro E.
  - rewrite S. exact E.
  - apply IH. eapply HP; eassumption.
  - eapply HP; eassumption.
Qed.
Lemma does_None k o s s' r g : may_need g o = false -> does k o s s' r -> index s g = None -> index s' g = None.
Proof.
  intros Hn D E.
  assert (forall l, index (put s l) g = None) as Ep by (intro; exact E).
  assert (looked_up o s s' -> index s' g = None) as L.
  { intros [_ L]. specialize (L g). rewrite E in L. destruct L as [[L _]|[L _]]; [exact L | congruence]. }
  assert (match o with ORemove _ | ODelitem _ | ODelslice _ _ | OPop _ | OClear => true | _ => false end = true -> g <> ByEnd) as Ne.
  { intros H ->. destruct o; discriminate. }
  assert (unchanged s s' -> index s' g = None) as U by (intros [_ U]; rewrite U; exact E).
  destruct o; cbn [does] in D; try (apply L, (proj1 D)).
  - eapply comes_None; [exact D | apply Ep].
  - eapply comes_None; [exact D | apply Ep].
  - refine (each_None _ D E). intros a t t' q C E'. eapply comes_None; [exact C | exact E'].
  - specialize (Ne eq_refl). destruct (member_equal m (members s)); [|apply U, (proj1 D)]. destruct (remove_first (meq m) (members s)); [|apply U, (proj1 D)].
    eapply goes_None; [exact Ne | exact D | apply Ep].
  - specialize (Ne eq_refl). destruct (py_pos (members s) i); [|apply U, (proj1 D)]. destruct (py_nth (members s) i); [|apply U, (proj1 D)].
    eapply goes_None; [exact Ne | exact D | apply Ep].
  - specialize (Ne eq_refl). refine (each_None _ D (Ep _)). intros a t t' q G E'. eapply goes_None; eassumption.
  - specialize (Ne eq_refl). destruct (py_pos (members s) i); [|apply U, (proj1 D)]. destruct (py_nth (members s) i); [|apply U, (proj1 D)].
    destruct D as (r' & D & _). eapply goes_None; [exact Ne | exact D | apply Ep].
  - specialize (Ne eq_refl). refine (each_None _ D E). intros a t t' q G E'. eapply goes_None; [exact Ne | exact G | exact E'].
  - destruct (py_pos (members s) i); [|apply U, (proj1 D)]. eapply comes_None; [exact D | apply Ep].
  - refine (each_None _ D (Ep _)). intros a t t' q C E'. eapply comes_None; eassumption.
  - refine (each_None _ D E). intros a t t' q (x & y & s1 & r1 & _ & _ & C1 & C2) E'.
    assert (index s1 g = None) as E1 by (eapply comes_None; [exact C1 | exact E']).
    destruct r1; try (destruct C2 as (_ & _ & C2); rewrite C2; exact E1). eapply comes_None; [exact C2 | exact E1].
Qed.
Lemma unused_None k es outs s g : ehistory k es outs s -> (forall o, In (Call o) es -> may_need g o = false) -> index s g = None.
Proof.
  intro H. induction H as [|es outs s o s' r H IH D|es outs s id f s' H IH [_ D]]; intro Hn; [reflexivity| |].
  - eapply does_None; [|exact D|apply IH; intros; apply Hn, in_or_app; auto]. apply Hn, in_or_app. right. left. reflexivity.
  - rewrite D, IH by (intros; apply Hn, in_or_app; auto). reflexivity.
Qed.

(** how many times [m], with the attributes it has, is to be listed by a lookup with one key *)
Definition shown (q : op) (m : mtch) : nat :=
  match q with
  | ONamed [n] => if option_eqb pstr_eqb (m_name m) (Some n) then 1 else 0
  | OTagged t => countb (pstr_eqb t) (m_tags m)
  | OStarting i => if m_start m =? i then 1 else 0
  | OEnding i => if m_end m =? i then 1 else 0
  | OAtIndex i => if (m_start m <=? i) && (i <? m_end m) then 1 else 0
  | _ => 0
  end.
Definition kind_of (q : op) : option family :=
  match q with
  | ONamed [_ :: _] => Some ByName
  | OTagged _ => Some ByTag | OStarting _ => Some ByStart | OEnding _ => Some ByEnd | OAtIndex _ => Some ByIndex
  | _ => None
  end.
Definition key_of (q : op) : key :=
  match q with
  | ONamed (n :: _) => KText n
  | OTagged t => KText t
  | OStarting i | OEnding i | OAtIndex i => KPos i
  | _ => KPos 0
  end.
Lemma listed_page k c s q f : sim k c s -> kind_of q = Some f ->
  listed c q = page (key_of q) (match index s f with Some cs => cs | None => all_cards f (members s) end).
Proof.
  intros (H1 & H2 & H3) Hq. destruct (listed_dict c) as (L1 & L2 & L3 & L4 & L5).
  assert (listed c q = dict_of f c (key_of q) /\ keyed f (key_of q)) as [-> Hk].
  { destruct q; try discriminate; [destruct ns as [|[|ch n] [|? ?]]; try discriminate| | | |]; injection Hq as <-; cbn [key_of keyed]; auto.
    split; [apply L1; discriminate | exact I]. }
  specialize (H3 f). destruct (index s f) as [cs|]; [apply (like1_dict H3 Hk)|].
  rewrite (unfilled_dict (proj2 (unfilled_none H3) eq_refl) Hk), H2. reflexivity.
Qed.
Lemma countb_range i : forall n a b, n = Z.to_nat (b - a) ->
  countb (key_eqb (KPos i)) (map KPos (zrange a b)) = if (a <=? i) && (i <? b) then 1%nat else 0%nat.
Proof.
  induction n as [|n IH]; intros a b E.
  - replace (zrange a b) with (@nil Z) by (unfold zrange; rewrite <- E; reflexivity).
    cbn [map]. destruct (a <=? i) eqn:?, (i <? b) eqn:?; cbn [andb]; try reflexivity. lia.
  - rewrite zrange_cons by lia. cbn [map]. rewrite countb_cons. cbn [key_eqb]. rewrite IH by lia.
    destruct (i =? a) eqn:?, (a <=? i) eqn:?, (i <? b) eqn:?, (a + 1 <=? i) eqn:?; cbn [andb]; try reflexivity; lia.
Qed.
Lemma page_repeat k m ks : page k (map (fun k => (k, m)) ks) = repeat m (countb (key_eqb k) ks).
Proof.
  unfold page. induction ks as [|k0 ks IH]; [reflexivity|]. rewrite countb_cons. cbn [map filter fst].
  destruct (key_eqb k k0); cbn [map snd repeat plus Nat.b2n]; rewrite IH; reflexivity.
Qed.
Lemma page_shown q f m : kind_of q = Some f -> page (key_of q) (cards_of f m) = repeat m (shown q m).
Proof.
  intro Hq. unfold cards_of. rewrite page_repeat. f_equal.
  destruct q; try discriminate; [destruct ns as [|[|ch n] [|? ?]]; try discriminate| | | |]; injection Hq as <-; cbn [key_of keys shown].
  - destruct (m_name m) as [[|c0 n0]|]; cbn [option_eqb]; try reflexivity.
    rewrite countb_cons, key_eqb_sym. cbn [key_eqb]. destruct (pstr_eqb (c0 :: n0) (ch :: n)); reflexivity.
  - apply countb_text.
  - rewrite countb_cons. cbn [key_eqb]. rewrite Z.eqb_sym. destruct (m_start m =? i); reflexivity.
  - rewrite countb_cons. cbn [key_eqb]. rewrite Z.eqb_sym. destruct (m_end m =? i); reflexivity.
  - apply countb_range with (n := Z.to_nat (m_end m - m_start m)). reflexivity.
Qed.
Lemma page_members q f l : kind_of q = Some f -> page (key_of q) (all_cards f l) = flat_map (fun m => repeat m (shown q m)) l.
Proof.
  intro Hq. induction l as [|m l IH]; [reflexivity|]. unfold all_cards in *. cbn [flat_map]. rewrite page_app, IH, (page_shown m Hq). reflexivity.
Qed.

(** ** C126 *)
(** A kind of lookup that no earlier call needed answers by what the members are now, whatever was changed. *)
Theorem C126_first_use_partial : forall k input es q f,
  kind_of q = Some f -> (forall o, In (Call o) es -> may_need f o = false) ->
  let c := erun (empty_coll k input) es in
  snd (step c q) = RList (flat_map (fun m => repeat m (shown q m)) (c_del c)).
Proof.
  intros k input es q f Hq Hn c. destruct (reach_events k input es) as (s & H1 & H2). fold c in H2.
  pose proof (unused_None H1 Hn) as E. pose proof (listed_page H2 Hq) as L. rewrite E, (page_members _ Hq), <- (sim_members H2) in L.
  rewrite <- L. unfold listed.
  destruct q; try discriminate; [destruct ns as [|[|ch n] [|? ?]]; try discriminate| | | |]; rewrite lookup_answer by reflexivity; reflexivity.
Qed.
(** Used before, it does not: the renamed match is listed under its former name; taking it out raises and leaves it listed. *)
Theorem C126_follow_refuted :
  let rename m := set_name m (Some (s "bar")) in
  let c := erun (empty_coll KMatches ex_input) [Call (OAppend ex_a); Call (ONamed [s "foo"]); Change 1 rename] in
  let c' := fst (step c (ORemove (rename ex_a))) in
  c_del c = [rename ex_a]
  /\ snd (step c (ONamed [s "bar"])) = RList [] /\ snd (step c (ONamed [s "foo"])) = RList [rename ex_a]
  /\ snd (step c (ORemove (rename ex_a))) = RErr ValueError
  /\ c_del c' = [] /\ snd (step c' (ONamed [s "foo"])) = RList [rename ex_a].
Proof. cbv zeta. repeat split; vm_compute; reflexivity. Qed.

(** ** C127 *)
Theorem C127_removal : forall k input es o x,
  let c := erun (empty_coll k input) es in
  let c1 := erun c (map Call one_of_each) in
  takes (c_del c) o = Some x ->
  let ok := match o with OPop _ => RMatch x | _ => RUnit end in
  (well_filed c x -> snd (step c o) = ok)
  /\ (snd (step c1 o) = ok <-> well_filed c x)
  /\ (snd (step c1 o) = RErr ValueError <-> ~ well_filed c x).
Proof.
  intros k input es o x c c1 Ht. destruct (reach_events k input es) as (s & _ & H). fold c in H. exact (removal_any H Ht).
Qed.

Theorem C127_changed_outside : forall k input es id f x,
  let c := erun (empty_coll k input) es in
  (forall y, In y (c_del c) -> update id f y = y) ->
  (forall q, kind_of q <> None -> forall y, In y (listed c q) -> update id f y = y) ->
  accepts k x = true ->
  let c' := erun c [Change id f; Call (OAppend x)] in
  c_del c' = c_del c ++ [x] /\ forall q, kind_of q <> None -> listed c' q = listed c q ++ repeat x (shown q x).
Proof.
  intros k input es id f x c Hd Hl Ha c'. destruct (reach_events k input es) as (s & _ & H). fold c in H.
  destruct (sim_edit id f H) as (s1 & [C1 C2] & H1). destruct (sim_step (OAppend x) H1) as (s2 & [D1 D2] & H2).
  rewrite Ha in D2. destruct D2 as [_ D2]. cbn [put members index] in D1, D2.
  change (fst (step (edited c id f) (OAppend x))) with c' in H2.
  assert (forall l, (forall y, In y l -> update id f y = y) -> map (update id f) l = l) as M.
  { clear. induction l as [|y l IH]; intro E; [reflexivity|]. cbn [map]. rewrite IH by (intros; apply E; right; assumption). rewrite E by (left; reflexivity). reflexivity. }
  pose proof (sim_members H) as S0.
  split. { rewrite (sim_members H2), D1, C1, <- S0, M by exact Hd. reflexivity. }
  intros q Hq. destruct (kind_of q) as [g|] eqn:Eq; [|congruence].
  specialize (Hl q). rewrite Eq in Hl. specialize (Hl ltac:(discriminate)).
  rewrite (listed_page H2 Eq). rewrite D1, D2, C1, C2, <- S0, (M _ Hd).
  rewrite (listed_page H Eq) in Hl |- *. rewrite <- S0 in *. destruct (index s g) as [cs|]; cbn [option_map] in *.
  - rewrite page_app, page_update, (page_shown x Eq), M by exact Hl. reflexivity.
  - unfold all_cards. rewrite flat_map_app, page_app. cbn [flat_map]. rewrite app_nil_r, (page_shown x Eq). reflexivity.
Qed.

(** Changing anything but names, tags and spans: every lookup lists the same objects, as they are now. *)
Theorem C126_other_attributes : forall k input es id f,
  let c := erun (empty_coll k input) es in
  (forall y, In y (c_del c) -> let y' := update id f y in
     m_name y' = m_name y /\ m_tags y' = m_tags y /\ m_start y' = m_start y /\ m_end y' = m_end y) ->
  let c' := erun c [Change id f] in
  c_del c' = map (update id f) (c_del c) /\ forall q, kind_of q <> None -> listed c' q = map (update id f) (listed c q).
Proof.
  intros k input es id f c Hk c'. destruct (reach_events k input es) as (s & _ & H). fold c in H.
  destruct (sim_edit id f H) as (s1 & [C1 C2] & H1). change (edited c id f) with c' in H1. split; [reflexivity|].
  intros q Hq. destruct (kind_of q) as [g|] eqn:Eq; [|congruence].
  rewrite (listed_page H1 Eq), (listed_page H Eq), C1, C2. pose proof (sim_members H) as S0. rewrite <- S0.
  destruct (index s g) as [cs|]; cbn [option_map]; [apply page_update|].
  rewrite !(page_members _ Eq). revert Hk. generalize (c_del c). induction l as [|y l IH]; intro Hk; [reflexivity|].
  cbn [map flat_map]. rewrite map_app, IH by (intros; apply Hk; right; assumption). f_equal.
  destruct (Hk y (or_introl eq_refl)) as (E1 & E2 & E3 & E4). cbv zeta in *.
  assert (shown q (update id f y) = shown q y) as ->.
  { destruct q; try discriminate; cbn [shown]; rewrite ?E1, ?E2, ?E3, ?E4; reflexivity. }
  clear. induction (shown q y); cbn [repeat map]; congruence.
Qed.

(** The length of the input the ranges are cut to, [max_end], is not told of changes of [end]. *)
Theorem C126_max_end : forall k input es id f,
  max_end (erun (empty_coll k input) (es ++ [Change id f])) = max_end (erun (empty_coll k input) es).
Proof. intros. rewrite erun_snoc. reflexivity. Qed.
(** so that a match moved beyond it is not found by [range], though it is listed where it starts now *)
Theorem C126_range_refuted :
  let far m := set_end (set_start m 30) 40 in
  let c := erun (empty_coll KMatches None) [Call (OAppend ex_a); Change 1 far] in
  c_del c = [far ex_a] /\ m_end (far ex_a) = 40 /\ max_end c = m_end ex_a /\ m_end ex_a < 40
  /\ snd (step c (ORange 0 None)) = RList [] /\ snd (step c (OStarting 30)) = RList [far ex_a].
Proof. cbv zeta. repeat split; vm_compute; reflexivity. Qed.

(** ** A changed match is changed wherever it is reached *)
(** going from a match to its parent, or to a child, again and again *)
Inductive way := ToParent | ToChild (i : nat).
Fixpoint walk (m : mtch) (p : list way) : option mtch :=
  match p with
  | [] => Some m
  | ToParent :: r => match m_parent m with Some q => walk q r | None => None end
  | ToChild i :: r => match nth_error (m_children m) i with Some q => walk q r | None => None end
  end.
Definition alone (m : mtch) : mtch := set_children (set_parent m None) [].
(** assigning attributes other than [parent] and [children] *)
Definition own_attributes (f : mtch -> mtch) : Prop :=
  forall m, alone (f m) = f (alone m) /\ m_parent (f m) = m_parent m /\ m_children (f m) = m_children m.
Lemma update_is id f m : update id f m =
  let m' := set_children (set_parent m (option_map (update id f) (m_parent m))) (map (update id f) (m_children m)) in
  if Nat.eqb (m_id m) id then f m' else m'.
Proof. destruct m; reflexivity. Qed.
Lemma update_seen id f m p : own_attributes f ->
  match walk m p, walk (update id f m) p with
  | Some x, Some x' => alone x' = if Nat.eqb (m_id x) id then f (alone x) else alone x
  | None, None => True
  | _, _ => False
  end.
Proof.
  intro Hf. revert m. induction p as [|w p IH]; intro m.
  - cbn [walk]. rewrite update_is. cbv zeta. destruct (Nat.eqb (m_id m) id); [rewrite (proj1 (Hf _))|]; reflexivity.
  - assert (m_parent (update id f m) = option_map (update id f) (m_parent m) /\ m_children (update id f m) = map (update id f) (m_children m)) as [E1 E2].
    { rewrite update_is. cbv zeta. destruct (Nat.eqb (m_id m) id); [rewrite (proj1 (proj2 (Hf _))), (proj2 (proj2 (Hf _)))|]; split; reflexivity. }
    destruct w as [|i]; cbn [walk].
    + rewrite E1. destruct (m_parent m); cbn [option_map]; [apply IH | exact I].
    + rewrite E2, nth_error_map. destruct (nth_error (m_children m) i); cbn [option_map]; [apply IH | exact I].
Qed.

(** from a member, by any way *)
Definition from_member (c : coll) (i : nat) (p : list way) : option mtch :=
  match nth_error (c_del c) i with Some m => walk m p | None => None end.
Theorem C126_seen : forall k input es id f i p, own_attributes f ->
  match from_member (erun (empty_coll k input) es) i p, from_member (erun (empty_coll k input) (es ++ [Change id f])) i p with
  | Some x, Some x' => alone x' = if Nat.eqb (m_id x) id then f (alone x) else alone x
  | None, None => True
  | _, _ => False
  end.
Proof.
  intros k input es id f i p Hf. unfold from_member. rewrite erun_snoc. cbn [estep edited c_del]. rewrite nth_error_map.
  destruct (nth_error _ i) as [m|]; cbn [option_map]; [apply update_seen, Hf | exact I].
Qed.
(** the child of the parent of the second member is the first member, hidden through it *)
Example C126_seen_case :
  let hide m := set_private m true in
  let es := [Call (OAppend ex_b); Call (OAppend (set_parent ex_c (Some (set_children ex_b [ex_a]))))] in
  own_attributes hide
  /\ from_member (erun (empty_coll KMatches ex_input) es) 1 [ToParent; ToChild 0] = Some ex_a
  /\ from_member (erun (empty_coll KMatches ex_input) (es ++ [Change 1 hide])) 1 [ToParent; ToChild 0] = Some (hide ex_a).
Proof. cbv zeta. split; [intro m; repeat split|]. split; vm_compute; reflexivity. Qed.

Definition entries (c : coll) : list mtch :=
  let all {K} (od : option (mdict K)) := match od with Some d => flat_map snd d | None => [] end in
  c_del c ++ all (c_named c) ++ all (c_tagged c) ++ all (c_starting c) ++ all (c_ending c) ++ all (c_indexed c).
Lemma dget_in {K} `{Eqb K} (d : mdict K) k y : In y (dget d k) -> In y (flat_map snd d).
Proof.
  unfold dget. intro H1. apply in_flat_map. induction d as [|[k0 l] d IH]; [contradiction|]. cbn [dfind] in H1. destruct (eqb k k0).
  - exists (k0, l). split; [left; reflexivity | exact H1].
  - destruct (IH H1) as (x & I1 & I2). exists x. split; [right; exact I1 | exact I2].
Qed.
Lemma listed_in c q y : kind_of q <> None -> In y (listed c q) -> In y (entries c).
Proof.
  intros Hq Hy. destruct (kind_of q) as [f|] eqn:Eq; [|congruence]. destruct (listed_dict c) as (L1 & L2 & L3 & L4 & L5).
  assert (listed c q = dict_of f c (key_of q) /\ keyed f (key_of q)) as [E Hk].
  { destruct q; try discriminate; [destruct ns as [|[|ch n] [|? ?]]; try discriminate| | | |]; injection Eq as <-; cbn [key_of keyed]; auto.
    split; [apply L1; discriminate | exact I]. }
  rewrite E in Hy. unfold entries. rewrite !in_app_iff.
  assert (unfilled f c -> In y (c_del c)) as U.
  { intro U. rewrite (unfilled_dict U Hk), (page_members _ Eq) in Hy. apply in_flat_map in Hy as (m & Hm & Hy). apply repeat_spec in Hy. subst. exact Hm. }
  clear E. destruct f, (key_of q); try contradiction; cbn [dict_of] in Hy; cbn [unfilled] in U.
  - unfold named_dict in Hy. destruct (c_named c); [|auto]. apply dget_in in Hy. auto.
  - unfold tagged_dict in Hy. destruct (c_tagged c); [|auto]. apply dget_in in Hy. auto.
  - unfold starting_dict in Hy. destruct (c_starting c); [|auto]. apply dget_in in Hy. auto.
  - unfold ending_dict in Hy. destruct (c_ending c); [|auto]. apply dget_in in Hy. auto 7.
  - unfold indexed_dict in Hy. destruct (c_indexed c); [|auto]. apply dget_in in Hy. auto 8.
Qed.

(** a member renamed the safe way; a change of privacy, seen through the parent of another match *)
Example C126_example :
  let hide m := set_private m true in
  let child := set_parent ex_b (Some ex_a) in
  let c := erun (empty_coll KMatches ex_input) [Call (OExtend [ex_a; child]); Call (ONamed [s "foo"]); Change 1 hide] in
  c_del c = [hide ex_a; set_parent ex_b (Some (hide ex_a))]
  /\ snd (step c (ONamed [s "foo"])) = RList [hide ex_a]
  /\ snd (step c (OTagged (s "y"))) = RList [hide ex_a; set_parent ex_b (Some (hide ex_a))]
  /\ (let c2 := erun c [Change 1 (fun m => set_tags m [s "z"])] in
      listed c2 (OTagged (s "z")) = [set_tags (hide ex_a) [s "z"]] /\ listed c2 (OTagged (s "x")) = []).
Proof. cbv zeta. repeat split; vm_compute; reflexivity. Qed.
Example C127_example :
  let rename m := set_name m (Some (s "bar")) in
  let c := erun (empty_coll KMatches ex_input) [Call (OExtend [ex_a; ex_b]); Call (ONamed [s "foo"]); Call (OPop 0)] in
  (forall y, In y (c_del c) -> update 1 rename y = y)
  /\ (forall q, kind_of q <> None -> forall y, In y (listed c q) -> update 1 rename y = y)
  /\ accepts KMatches (rename ex_a) = true
  /\ (let c' := erun c [Change 1 rename; Call (OAppend (rename ex_a))] in
      c_del c' = [ex_b; rename ex_a] /\ listed c' (ONamed [s "bar"]) = [ex_b; rename ex_a] /\ listed c' (ONamed [s "foo"]) = []).
Proof.
  cbv zeta. split; [|split; [|split; [reflexivity|]]].
  - intros y [<-|[]]. reflexivity.
  - intros q Hq y Hy. apply (listed_in Hq) in Hy.
    assert (In y [ex_b]) as [<-|[]]; [|reflexivity]. vm_compute in Hy. vm_compute. tauto.
  - repeat split; vm_compute; reflexivity.
Qed.
Print Assumptions C126_account.
Print Assumptions C126_derived.
Print Assumptions C126_first_use_partial.
Print Assumptions C126_other_attributes.
Print Assumptions C127_removal.
Print Assumptions C127_changed_outside.
Print Assumptions C126_max_end.
Print Assumptions C126_range_refuted.
Print Assumptions C126_seen.
