(** * Identities of the matches of a tree of chains (C120) *)
From Coq Require Import Permutation ZifyBool.
From Verif Require Import Base BaseFacts Match Spec MatchFacts Coll CollFacts SpecColl CollUniv Loose Conseq ConseqFacts Pattern PatternFacts PropsPattern Chain ChainFacts
  PropsChain2 SpecNest RebulkFacts SpecOnce.
Set Implicit Arguments.
Unset Strict Implicit.
Open Scope Z_scope.

Definition childless (m : mtch) : Prop := m_children m = [].
(** processing keeps the object and numbers it; it may drop children *)
Definition tame (pm : mtch -> nat -> bool -> mtch * bool) : Prop := forall m i child m' ok, pm m i child = (m', ok) ->
  m_id m' = m_id m /\ m_index m' = i /\ sublist (map m_id (m_children m')) (map m_id (m_children m)) /\ incl (m_children m') (m_children m).
Lemma pattern_tame p : tame (process_match p).
Proof.
  intros m i child m' ok H. rewrite process_match_eq in H. injection H as <- _. rewrite configure_id, configure_index, configure_children.
  split; [reflexivity|]. split; [reflexivity|]. split; [apply sublist_refl|apply incl_refl].
Qed.
Lemma remove_first_sub (f : mtch -> bool) : forall l l', remove_first f l = Some l' -> sublist l' l.
Proof.
  induction l as [|x l IH]; intros l' H; cbn [remove_first] in H; [discriminate|]. destruct (f x); [injection H as <-; constructor; apply sublist_refl|].
  destruct (remove_first f l) as [l1|]; [|discriminate]. injection H as <-. constructor. now apply IH.
Qed.
Lemma give_up_sub : forall g cs, sublist (fold_left (fun cs x => match remove_first (meq x) cs with Some cs' => cs' | None => cs end) g cs) cs.
Proof.
  induction g as [|x g IH]; intro cs; cbn [fold_left]; [apply sublist_refl|]. destruct (remove_first (meq x) cs) as [cs'|] eqn:E; [|apply IH].
  eapply sublist_trans; [apply IH|]. now apply remove_first_sub in E.
Qed.
Lemma shrink_tame p i child : forall groups m m', shrink p i child groups m = Some m' ->
  m_id m' = m_id m /\ m_index m' = i /\ sublist (m_children m') (m_children m).
Proof.
  induction groups as [|g r IH]; intros m m' H; cbn [shrink] in H; [discriminate|]. cbv zeta in H. rewrite process_match_eq in H.
  set (cs := fold_left _ g (m_children m)) in H. pose proof (give_up_sub g (m_children m) : sublist cs (m_children m)) as S.
  destruct (process_validator _ _ _).
  - injection H as <-. rewrite configure_id, configure_index, configure_children. simpl. auto.
  - destruct (IH _ _ H) as (A & B & C). rewrite configure_id in A. rewrite configure_children in C. simpl in *. split; auto. split; auto. eapply sublist_trans; eassumption.
Qed.
Lemma sublist_incl {A} (a b : list A) : sublist a b -> incl a b.
Proof. intros S x Hx. eapply sublist_In; eassumption. Qed.
Lemma chain_tame p : tame (chain_process_match p).
Proof.
  intros m i child m' ok H. unfold chain_process_match in H. rewrite process_match_eq in H.
  assert (forall ok0, (configure p i child m, ok0) = (m', ok) -> m_id m' = m_id m /\ m_index m' = i
    /\ sublist (map m_id (m_children m')) (map m_id (m_children m)) /\ incl (m_children m') (m_children m)) as D.
  { intros ok0 E. injection E as <- _. rewrite configure_id, configure_index, configure_children. split; [reflexivity|]. split; [reflexivity|].
    split; [apply sublist_refl|apply incl_refl]. }
  destruct (process_validator _ _ _); [exact (D _ H)|].
  destruct (rev _) as [|last r]; [exact (D _ H)|]. destruct (shrink _ _ _ _ _) as [m2|] eqn:E; [|exact (D _ H)].
  injection H as <- _. apply shrink_tame in E as (A & B & C). rewrite configure_id in A. rewrite configure_children in C.
  split; auto. split; auto. split; [now apply sublist_map|now apply sublist_incl].
Qed.

Lemma process_children_tame pm parent i : tame pm -> forall todo done cs, process_children pm parent i done todo = (cs, true) ->
  map m_id cs = map m_id done ++ map m_id todo /\ (Forall (fun c => m_index c = i) done -> Forall (fun c => m_index c = i) cs)
  /\ (Forall childless done -> Forall childless todo -> Forall childless cs).
Proof.
  intro T. induction todo as [|c r IH]; intros done cs H; cbn [process_children] in H.
  - injection H as <-. cbn [map]. rewrite app_nil_r. auto.
  - destruct (pm (relink (parent :: done) c) i true) as [c' ok] eqn:E. destruct ok; [|discriminate].
    apply T in E as (A & B & C & D). apply IH in H as (H1 & H2 & H3). split.
    + rewrite H1, map_app, <- app_assoc. cbn [map app]. rewrite A. reflexivity.
    + split; [intro F; apply H2, Forall_app; auto|]. intros F1 F2. inversion F2 as [|? ? F3 F4]; subst. apply H3; [|exact F4]. apply Forall_app. split; auto.
      constructor; [|constructor]. unfold childless in *. change (m_children (relink (parent :: done) c)) with (m_children c) in D. rewrite F3 in D.
      destruct (m_children c') as [|x l]; [reflexivity|]. destruct (D x (or_introl eq_refl)).
Qed.
Lemma process_matches_tame p pm m i raw outs : tame pm -> po_pre p = None -> po_post p = None -> process_matches p pm m i = Ok (raw, outs) ->
  outs = [] \/ exists m', outs = dispatch p m' /\ m_id m' = m_id m /\ m_index m' = i /\ sublist (map m_id (m_children m')) (map m_id (m_children m))
    /\ Forall (fun c => m_index c = i) (m_children m') /\ (Forall childless (m_children m) -> Forall childless (m_children m')).
Proof.
  intros T H1 H2 H. unfold process_matches in H. rewrite H1, H2 in H. cbn [apply_processor] in H. unfold stop_if_falsy in H.
  destruct (mbool m) as [[|]|]; [|injection H as _ <-; auto|discriminate].
  destruct (pm m i false) as [m2 ok] eqn:E. apply T in E as (A & B & C & D). destruct ok; cbn [negb] in H; [|injection H as _ <-; auto].
  destruct (process_children pm m2 i [] (m_children m2)) as [cs ok] eqn:E2. destruct ok; cbn [negb] in H; [|injection H as _ <-; auto].
  apply (process_children_tame T) in E2 as (E3 & E4 & E5). cbn [map app] in E3. specialize (E4 (Forall_nil _)).
  destruct (mbool (relink_children (set_children m2 cs))) as [[|]|]; [|injection H as _ <-; auto|discriminate].
  injection H as _ <-. right. exists (relink_children (relink_children (set_children m2 cs))). split; [reflexivity|]. split; [exact A|]. split; [exact B|].
  unfold relink_children. cbn [m_children set_children]. rewrite !map_map. cbn [m_id relink set_parent].
  assert (map (fun x => m_id (relink (m2 :: cs) x)) cs = map m_id cs) as Eid by (apply map_ext; reflexivity).
  split.
  - match goal with |- sublist ?x _ => replace x with (map m_id cs) by (rewrite !map_map; apply map_ext; reflexivity) end. rewrite E3. exact C.
  - split; [|intro F; assert (Forall childless cs) as F'].
    + rewrite Forall_forall in *. intros c Hc. apply in_map_iff in Hc as (c1 & <- & Hc). exact (E4 c1 Hc).
    + apply E5; [constructor|]. rewrite Forall_forall in *. intros c Hc. auto.
    + clear - F'. rewrite Forall_forall in *. intros c Hc. apply in_map_iff in Hc as (c1 & <- & Hc). exact (F' c1 Hc).
Qed.

(** ** Blocks: children alone, or a match followed by some of its children *)
Inductive blk := Leaves (l : list mtch) | Family (o : mtch) (k : list mtch).
Definition members (b : blk) : list mtch := match b with Leaves l => l | Family o k => o :: k end.
Definition foot (b : blk) : list nat := match b with Leaves l => map m_id l | Family o _ => m_id o :: map m_id (m_children o) end.
Definition same_index (l : list mtch) : Prop := exists i, Forall (fun m => m_index m = i) l.
Definition good (b : blk) : Prop := same_index (members b) /\
  match b with Leaves l => Forall childless l | Family o k => Forall childless k /\ incl k (m_children o) end.
Definition tidy_by (bs : list blk) (n n' : nat) (ms : list mtch) : Prop :=
  ms = flat_map members bs /\ Forall good bs /\ NoDup (flat_map foot bs) /\ Forall (fun i => n <= i < n')%nat (flat_map foot bs) /\ (n <= n')%nat.
Definition tidy (n n' : nat) (ms : list mtch) : Prop := exists bs, tidy_by bs n n' ms.

Lemma dispatch_block p m i : m_index m = i -> Forall (fun c => m_index c = i) (m_children m) ->
  shows_children p = false \/ Forall childless (m_children m) ->
  exists b, dispatch p m = members b /\ good b /\ sublist (foot b) (ids_of m).
Proof.
  intros I J C. unfold dispatch. assert (forall k, incl k (m_children m) -> same_index (m :: k) /\ same_index k) as S.
  { intros k K. assert (Forall (fun c => m_index c = i) k) as F by (rewrite Forall_forall in *; auto). split; exists i; auto. }
  assert (include_children p || po_private_children p = shows_children p)%bool as -> by (unfold include_children, shows_children; destruct (po_children p), (po_every p); reflexivity).
  destruct (shows_children p) eqn:Es.
  - destruct C as [C|C]; [discriminate|]. set (k := filter (not_ignored p) (m_children m)). assert (incl k (m_children m)) as K by (intros x Hx; apply filter_In in Hx; tauto).
    assert (Forall childless k) as Kc by (rewrite Forall_forall in *; auto). destruct (S k K) as [S1 S2].
    destruct (_ && _)%bool; [exists (Family m k)|exists (Leaves k)]; (split; [reflexivity|]); (split; [split; auto|]); [apply sublist_refl|].
    cbn [foot]. unfold ids_of. constructor. apply sublist_map, sublist_filter.
  - destruct (S [] (fun x (h : In x []) => match h with end)) as [S1 S2]. destruct (_ && _)%bool; [exists (Family m [])|exists (Leaves [])]; (split; [reflexivity|]); split.
    + split; [exact S1|]. split; [constructor|intros x []].
    + apply sublist_refl.
    + split; [exact S2|constructor].
    + apply sublist_nil_l.
Qed.
Lemma process_all_tame p pm : tame pm -> po_pre p = None -> po_post p = None -> forall ms i raws outs,
  process_all p pm i ms = Ok (raws, outs) ->
  sublist (map m_id outs) (all_ids ms)
  /\ (shows_children p = false \/ Forall (fun m => Forall childless (m_children m)) ms ->
      exists bs, outs = flat_map members bs /\ Forall good bs /\ sublist (flat_map foot bs) (all_ids ms)).
Proof.
  intros T H1 H2. induction ms as [|m r IH]; intros i raws outs H; cbn [process_all] in H.
  - injection H as <- <-. split; [constructor|]. intros _. exists []. split; [reflexivity|]. split; constructor.
  - destruct (process_matches p pm m i) as [[raw out]|] eqn:E; [|discriminate]. destruct (process_all p pm (S i) r) as [[raws' outs']|] eqn:E2; [|discriminate].
    injection H as <- <-. apply IH in E2 as [I1 I2]. apply (process_matches_tame T H1 H2) in E. unfold all_ids. cbn [flat_map]. split.
    + rewrite map_app. apply sublist_app; [|exact I1]. destruct E as [->|(m' & -> & A & B & C & _)]; [apply sublist_nil_l|].
      eapply sublist_trans; [apply dispatch_ids|]. unfold ids_of. rewrite A. constructor. exact C.
    + intro F. destruct I2 as (bs & -> & G & S). { destruct F as [F|F]; [auto|]. inversion F; auto. }
      destruct E as [->|(m' & -> & A & B & C & D & L)].
      * exists bs. split; [reflexivity|]. split; [exact G|]. apply (@sublist_app _ [] (ids_of m)); [apply sublist_nil_l|exact S].
      * destruct (@dispatch_block p m' i B D) as (b & Eb & Gb & Sb). { destruct F as [F|F]; [auto|]. inversion F; auto. }
        exists (b :: bs). cbn [flat_map]. rewrite Eb. split; [reflexivity|]. split; [constructor; auto|]. apply sublist_app; [|exact S].
        eapply sublist_trans; [exact Sb|]. unfold ids_of. rewrite A. constructor. exact C.
Qed.
Lemma process_patterns_tame p pm : tame pm -> po_pre p = None -> po_post p = None -> forall occ raws outs,
  process_patterns p pm occ = Ok (raws, outs) ->
  sublist (map m_id outs) (all_ids (concat occ))
  /\ (shows_children p = false \/ Forall (fun m => Forall childless (m_children m)) (concat occ) ->
      exists bs, outs = flat_map members bs /\ Forall good bs /\ sublist (flat_map foot bs) (all_ids (concat occ))).
Proof.
  intros T H1 H2. induction occ as [|o r IH]; intros raws outs H; cbn [process_patterns] in H.
  - injection H as <- <-. split; [constructor|]. intros _. exists []. split; [reflexivity|]. split; constructor.
  - destruct (process_all p pm 0 o) as [[raw out]|] eqn:E; [|discriminate]. destruct (process_patterns p pm r) as [[raws' outs']|] eqn:E2; [|discriminate].
    injection H as <- <-. destruct (IH _ _ eq_refl) as [I1 I2]. apply (process_all_tame T H1 H2) in E as [J1 J2]. unfold all_ids. cbn [concat]. rewrite flat_map_app. split.
    + rewrite map_app. now apply sublist_app.
    + intro F. destruct I2 as (bs & -> & G & S). { destruct F as [F|F]; [auto|]. apply Forall_app in F. tauto. }
      destruct J2 as (bs0 & -> & G0 & S0). { destruct F as [F|F]; [auto|]. apply Forall_app in F. tauto. }
      exists (bs0 ++ bs). rewrite !flat_map_app. split; [reflexivity|]. split; [apply Forall_app; auto|]. now apply sublist_app.
Qed.

(** ** Patterns *)
Lemma number_lists_childless : forall l n, Forall (fun m => Forall childless (m_children m)) (concat l) ->
  Forall (fun m => Forall childless (m_children m)) (concat (snd (number_lists n l))).
Proof.
  assert (forall p cs k, Forall childless cs -> Forall childless (number_children p k cs)) as A.
  { intros p cs. induction cs as [|c r IH]; intros k F; cbn [number_children]; constructor; inversion F; subst; auto. }
  assert (forall ms k, Forall (fun m => Forall childless (m_children m)) ms -> Forall (fun m => Forall childless (m_children m)) (snd (number_all k ms))) as B.
  { induction ms as [|m r IH]; intros k F; cbn [number_all]; [constructor|]. inversion F; subst. specialize (IH (S k + length (m_children m))%nat H2).
    destruct (number_all _ r) as [k' r']. cbn [snd] in *. constructor; [|exact IH]. unfold number_one. cbn [m_children set_children]. now apply A. }
  induction l as [|o r IH]; intros n F; cbn [number_lists concat]; [constructor|]. cbn [concat] in F. apply Forall_app in F as [F1 F2].
  specialize (B o n F1). destruct (number_all n o) as [k o']. specialize (IH k F2). destruct (number_lists k r) as [k' r']. cbn [snd concat] in *. apply Forall_app. auto.
Qed.
Lemma number_lists_bare : forall l n, Forall childless (concat l) -> Forall childless (concat (snd (number_lists n l))).
Proof.
  assert (forall ms k, Forall childless ms -> Forall childless (snd (number_all k ms))) as B.
  { induction ms as [|m r IH]; intros k F; cbn [number_all]; [constructor|]. inversion F; subst. specialize (IH (S k + length (m_children m))%nat H2).
    destruct (number_all _ r) as [k' r']. cbn [snd] in *. constructor; [|exact IH]. unfold number_one, childless in *. cbn [m_children set_children]. now rewrite H1. }
  induction l as [|o r IH]; intros n F; cbn [number_lists concat]; [constructor|]. cbn [concat] in F. apply Forall_app in F as [F1 F2].
  specialize (B o n F1). destruct (number_all n o) as [k o']. specialize (IH k F2). destruct (number_lists k r) as [k' r']. cbn [snd concat] in *. apply Forall_app. auto.
Qed.
Lemma keep_truthy_Forall (P : mtch -> Prop) ms r : keep_truthy ms = Ok r -> Forall P ms -> Forall P r.
Proof. intros H F. apply keep_truthy_inv in H as [_ ->]. rewrite Forall_forall in *. intros m Hm. apply filter_In in Hm. apply F. tauto. Qed.
Lemma append_children_Forall (P : mtch -> Prop) : forall cs main m, append_children main cs = Ok m -> Forall P (m_children main) -> Forall P cs -> Forall P (m_children m).
Proof.
  induction cs as [|c r IH]; intros main m H F1 F2; cbn [append_children] in H; [injection H as <-; exact F1|]. inversion F2; subst.
  destruct (mbool c) as [[|]|]; [|eauto|discriminate]. destruct (m_marker c); [discriminate|]. eapply IH; [exact H| |assumption].
  cbn [m_children set_children]. apply Forall_app. auto.
Qed.
(** the matches found by a pattern have children without children; without groups they have none *)
Lemma found_shallow p src input found : finds p input src found -> Forall (fun m => Forall childless (m_children m)) (concat found)
  /\ (groupless (CPattern p src) -> Forall childless (concat found)).
Proof.
  assert (forall l : list mtch, Forall childless l -> Forall (fun m => Forall childless (m_children m)) l) as W.
  { intros l F. rewrite Forall_forall in *. intros m Hm. rewrite (F m Hm). constructor. }
  intro F. destruct src as [lower o subs|repeated rxs|fs]; cbn [finds] in F.
  - assert (Forall childless (concat found)) as B; [|auto]. induction F as [|sub ms subs found E F IH]; cbn [concat]; [constructor|]. apply Forall_app. split; [|exact IH].
    unfold string_match in E. destruct (find_all_n _ _ _ _ _ _ _) as [l|]; [|discriminate]. eapply keep_truthy_Forall; [exact E|]. apply Forall_forall.
    intros m Hm. apply in_map_iff in Hm as (i & <- & _). reflexivity.
  - split.
    + induction F as [|rx ms rxs found E F IH]; cbn [concat]; [constructor|]. apply Forall_app. split; [|exact IH]. unfold re_match in E.
      destruct (sequence _ _) as [l|] eqn:Es; [|discriminate]. apply sequence_ok in Es. eapply keep_truthy_Forall; [exact E|]. clear - Es.
      induction Es as [|o m os ms E Es IH]; constructor; auto. unfold re_one in E. eapply append_children_Forall; [exact E|constructor|].
      apply Forall_forall. intros c Hc. apply in_flat_map in Hc as (g & _ & Hc). unfold re_child in Hc. apply in_map_iff in Hc as (sp & <- & _). reflexivity.
    + intro G. cbn [groupless] in G. induction F as [|rx ms rxs found E F IH]; cbn [concat]; [constructor|]. inversion G; subst. apply Forall_app. split; [|now apply IH]. unfold re_match in E.
      destruct (sequence _ _) as [l|] eqn:Es; [|discriminate]. apply sequence_ok in Es. eapply keep_truthy_Forall; [exact E|]. rewrite H1 in Es. clear - Es.
      induction Es as [|o m os ms E Es IH]; constructor; auto. unfold re_one in E. cbn [combine flat_map append_children] in E. injection E as <-. reflexivity.
  - assert (Forall childless (concat found)) as B; [|auto]. induction F as [|f ms fs found E F IH]; cbn [concat]; [constructor|]. apply Forall_app. split; [|exact IH].
    unfold functional_match in E. destruct (sequence _ _) as [l|] eqn:Es; [|discriminate]. apply sequence_ok in Es. eapply keep_truthy_Forall; [exact E|]. clear - Es.
    induction Es as [|x m xs ms E Es IH]; constructor; auto. unfold functional_one in E.
    repeat match type of E with context [match ?x with _ => _ end] => destruct x end; try discriminate; injection E as <-; reflexivity.
Qed.
Lemma pattern_found p src n input r : pattern_matches p src n input = Ok r -> exists found, finds p input src found
  /\ exists q, finish_matches p (process_match p) (snd (number_lists n found)) = Ok q /\ r = (fst (number_lists n found), q).
Proof.
  intro H. assert (forall A (subs : list A) match_, run_pattern p subs match_ n input = Ok r ->
    exists found, Forall2 (fun sub ms => match_ sub input = Ok ms) subs found
      /\ exists q, finish_matches p (process_match p) (snd (number_lists n found)) = Ok q /\ r = (fst (number_lists n found), q)) as W.
  { intros A subs match_ R. unfold run_pattern in R. destruct (sequence _ _) as [found|] eqn:E; [|discriminate]. apply sequence_ok in E.
    exists found. split; [exact E|]. destruct (number_lists n found) as [k occ]. cbn [fst snd]. destruct (finish_matches _ _ _) as [q|]; [|discriminate].
    injection R as <-. eauto. }
  destruct src; cbn [pattern_matches] in H; apply W in H as (found & F & X); exists found; repeat split; auto.
Qed.

Lemma process_patterns_bare p pm : tame pm -> po_pre p = None -> po_post p = None -> forall occ raws outs,
  process_patterns p pm occ = Ok (raws, outs) -> Forall childless (concat occ) -> Forall childless outs.
Proof.
  intros T H1 H2.
  assert (forall ms i raws outs, process_all p pm i ms = Ok (raws, outs) -> Forall childless ms -> Forall childless outs) as A.
  { induction ms as [|m r IH]; intros i raws outs H F; cbn [process_all] in H; [injection H as <- <-; constructor|].
    destruct (process_matches p pm m i) as [[raw out]|] eqn:E; [|discriminate]. destruct (process_all p pm (S i) r) as [[raws' outs']|] eqn:E2; [|discriminate].
    injection H as <- <-. inversion F as [|? ? Fm Fr]; subst. apply Forall_app. split; [|eapply IH; eassumption].
    apply (process_matches_tame T H1 H2) in E as [->|(m' & -> & _ & _ & S & _)]; [constructor|]. unfold childless in Fm. rewrite Fm in S.
    assert (m_children m' = []) as N. { destruct (m_children m'); [reflexivity|]. inversion S. }
    unfold dispatch. rewrite N. cbn [filter]. apply Forall_app. split; [destruct (_ && _)%bool|destruct (_ || _)%bool]; repeat constructor. exact N. }
  induction occ as [|o r IH]; intros raws outs H F; cbn [process_patterns] in H; [injection H as <- <-; constructor|].
  destruct (process_all p pm 0 o) as [[raw out]|] eqn:E; [|discriminate]. destruct (process_patterns p pm r) as [[raws' outs']|] eqn:E2; [|discriminate].
  injection H as <- <-. cbn [concat] in F. apply Forall_app in F as [F1 F2]. apply Forall_app. split; [eapply A; eassumption|eapply IH; [reflexivity|exact F2]].
Qed.
Lemma seq_range n k : Forall (fun i => n <= i < n + k)%nat (seq n k).
Proof. apply Forall_forall. intros i Hi. now apply in_seq in Hi. Qed.
Lemma sub_Forall {A} (P : A -> Prop) a b : sublist a b -> Forall P b -> Forall P a.
Proof. intros S F. rewrite Forall_forall in *. intros x Hx. apply F. eapply sublist_In; eassumption. Qed.
Lemma pattern_tidy p src n input n' ms raws : no_processor p -> pattern_matches p src n input = Ok (n', (ms, raws)) ->
  tidy n n' ms /\ (groupless (CPattern p src) -> Forall childless ms)
  /\ NoDup (map m_id ms) /\ Forall (fun i => n <= i < n')%nat (map m_id ms) /\ (n <= n')%nat.
Proof.
  intros (N1 & N2 & N3) H. apply pattern_found in H as (found & F & q & Q & E). destruct (found_shallow F) as [S1 S2].
  destruct (number_lists_ids found n) as (k & K1 & K2). pose proof (@number_lists_childless found n S1) as S1'.
  pose proof (fun g => @number_lists_bare found n (S2 g)) as S2'. destruct (number_lists n found) as [k' occ]. cbn [fst snd] in *. injection E as -> <-.
  unfold finish_matches in Q. destruct (process_patterns p (process_match p) occ) as [[raws1 outs1]|] eqn:E2; [|discriminate]. rewrite N3 in Q. injection Q as <- <-.
  split; [|split; [intro G; eapply process_patterns_bare; [apply pattern_tame|exact N1|exact N2|exact E2|auto]|]].
  2:{ apply (process_patterns_tame (@pattern_tame p) N1 N2) in E2 as [S _]. rewrite K2 in S. split; [eapply sublist_NoDup; [exact S|apply seq_NoDup]|].
      split; [|lia]. rewrite K1. eapply sub_Forall; [exact S|apply seq_range]. }
  apply (process_patterns_tame (@pattern_tame p) N1 N2) in E2 as [_ E2]. destruct (E2 (or_intror S1')) as (bs & -> & G & S). rewrite K2 in S.
  exists bs. split; [reflexivity|]. split; [exact G|]. split; [eapply sublist_NoDup; [exact S|apply seq_NoDup]|].
  split; [|lia]. rewrite K1. eapply sub_Forall; [exact S|apply seq_range].
Qed.

(** ** Operations on blocks *)
Lemma tidy_weaken n n' k k' ms : tidy n n' ms -> (k <= n)%nat -> (n' <= k')%nat -> tidy k k' ms.
Proof.
  intros (bs & A & B & C & D & E) H1 H2. exists bs. split; [exact A|]. split; [exact B|]. split; [exact C|]. split; [|lia].
  eapply Forall_impl; [|exact D]. cbv beta. lia.
Qed.
Lemma tidy_nil n : tidy n n [].
Proof. exists []. repeat split; try constructor. Qed.
Lemma same_index_incl l l' : incl l' l -> same_index l -> same_index l'.
Proof. intros H (i & F). exists i. rewrite Forall_forall in *. auto. Qed.
Lemma prefix_blocks : forall bs a b, flat_map members bs = a ++ b -> Forall good bs ->
  exists bs', a = flat_map members bs' /\ Forall good bs' /\ sublist (flat_map foot bs') (flat_map foot bs).
Proof.
  induction bs as [|x bs IH]; intros a b H G; cbn [flat_map] in H.
  - symmetry in H. apply app_eq_nil in H as [-> ->]. exists []. repeat split; constructor.
  - inversion G as [|? ? Gx Gbs]; subst. apply app_eq_app in H as (l & [[H1 H2]|[H1 H2]]).
    + destruct Gx as [[i I] Gx]. rewrite H1 in I. apply Forall_app in I as [I _]. destruct x as [ls|o k]; cbn [members] in H1.
      * subst ls. apply Forall_app in Gx as [Gx _]. exists [Leaves a]. cbn [flat_map members foot]. rewrite !app_nil_r. split; [reflexivity|]. split.
        { constructor; [|constructor]. split; [exists i; exact I|exact Gx]. }
        rewrite map_app. rewrite <- (app_nil_r (map m_id a)) at 1. rewrite <- app_assoc. apply sublist_app; [apply sublist_refl|apply sublist_nil_l].
      * destruct a as [|o' a]; [exists []; repeat split; [constructor|apply sublist_nil_l]|]. cbn [app] in H1. injection H1 as -> ->. destruct Gx as [Gx Gi]. apply Forall_app in Gx as [Gx _].
        exists [Family o' a]. cbn [flat_map members]. rewrite !app_nil_r. split; [reflexivity|]. split.
        { constructor; [|constructor]. split; [exists i; exact I|]. split; [exact Gx|]. intros y Hy. apply Gi, in_or_app. auto. }
        cbn [foot]. rewrite <- (app_nil_r (m_id o' :: map m_id (m_children o'))) at 1. apply sublist_app; [apply sublist_refl|apply sublist_nil_l].
    + subst a. destruct (IH l b H2 Gbs) as (bs' & -> & G' & S'). exists (x :: bs'). cbn [flat_map]. split; [reflexivity|]. split; [constructor; auto|].
      apply sublist_app; [apply sublist_refl|exact S'].
Qed.
Lemma tidy_prefix n n' a b : tidy n n' (a ++ b) -> tidy n n' a.
Proof.
  intros (bs & A & B & C & D & E). destruct (@prefix_blocks bs a b (eq_sym A) B) as (bs' & -> & G & S). exists bs'.
  split; [reflexivity|]. split; [exact G|]. split; [eapply sublist_NoDup; eassumption|]. split; [eapply sub_Forall; eassumption|exact E].
Qed.
Definition index_is (f : nat -> bool) (b : blk) : bool := match members b with m :: _ => f (m_index m) | [] => false end.
Lemma filter_same (f : nat -> bool) l : same_index l -> filter (fun m => f (m_index m)) l = match l with m :: _ => if f (m_index m) then l else [] | [] => [] end.
Proof.
  intros (i & F). destruct l as [|m r]; [reflexivity|]. inversion F as [|? ? Fm Fr]; subst. destruct (f (m_index m)) eqn:E.
  - apply filter_all. intros x Hx. rewrite Forall_forall in F. rewrite (F x Hx). exact E.
  - apply filter_nil_iff. intros x Hx. rewrite Forall_forall in F. rewrite (F x Hx). exact E.
Qed.
Lemma filter_blocks f : forall bs, Forall good bs -> filter (fun m => f (m_index m)) (flat_map members bs) = flat_map members (filter (index_is f) bs).
Proof.
  induction bs as [|b bs IH]; intro G; [reflexivity|]. inversion G as [|? ? Gb Gbs]; subst. cbn [flat_map filter]. rewrite filter_app, IH by exact Gbs.
  rewrite (filter_same f (proj1 Gb)). unfold index_is at 2. destruct (members b) as [|m r] eqn:E; [reflexivity|]. destruct (f (m_index m)); cbn [flat_map]; [rewrite E|]; reflexivity.
Qed.
Lemma sublist_flat_map {A B} (f : A -> list B) a b : sublist a b -> sublist (flat_map f a) (flat_map f b).
Proof. induction 1; cbn [flat_map]; [constructor|apply sublist_app; [apply sublist_refl|assumption]|]. apply (@sublist_app _ [] (f x)); [apply sublist_nil_l|assumption]. Qed.
Lemma tidy_filter f n n' ms : tidy n n' ms -> tidy n n' (filter (fun m => f (m_index m)) ms).
Proof.
  intros (bs & -> & B & C & D & E). rewrite (filter_blocks f B). exists (filter (index_is f) bs).
  pose proof (sublist_flat_map foot (sublist_filter (index_is f) bs)) as S. split; [reflexivity|]. split; [eapply sub_Forall; [apply sublist_filter|exact B]|].
  split; [eapply sublist_NoDup; eassumption|]. split; [eapply sub_Forall; eassumption|exact E].
Qed.
Lemma contiguous_prefix input : forall r m, exists b, m :: r = contiguous input m r ++ b.
Proof.
  induction r as [|m' r IH]; intro m; cbn [contiguous]; [exists []; reflexivity|]. destruct (separated _ _ _); [exists (m' :: r); reflexivity|].
  destruct (IH m') as (b & E). exists b. cbn [app]. now rewrite <- E.
Qed.
Lemma tidy_truncate first rend n n' ms input : tidy n n' ms -> tidy n n' (truncate_repeater first rend ms input).
Proof.
  intro T. destruct ms as [|m r]; cbn [truncate_repeater]; [exact T|]. destruct (_ && _)%bool; [exact (@tidy_prefix n n' [] (m :: r) T)|].
  cbv zeta. destruct (contiguous_prefix input r m) as (b & E). rewrite E in T. apply tidy_prefix in T. destruct rend as [e|]; [|exact T].
  exact (@tidy_filter (fun i => Z.of_nat i <? e) n n' _ T).
Qed.
Definition shift_blk input off (b : blk) : blk := match b with Leaves l => Leaves (map (shift input off) l) | Family o k => Family (shift input off o) (map (shift input off) k) end.
Lemma shift_id input off m : m_id (shift input off m) = m_id m. Proof. destruct m; reflexivity. Qed.
Lemma shift_index input off m : m_index (shift input off m) = m_index m. Proof. destruct m; reflexivity. Qed.
Lemma shift_children input off m : m_children (shift input off m) = map (shift input off) (m_children m). Proof. destruct m; reflexivity. Qed.
Lemma shift_childless input off m : childless m -> childless (shift input off m). Proof. unfold childless. rewrite shift_children. now intros ->. Qed.
Lemma Forall_map_impl {A B} (P : A -> Prop) (Q : B -> Prop) (f : A -> B) l : (forall x, P x -> Q (f x)) -> Forall P l -> Forall Q (map f l).
Proof. intros H F. induction F; cbn [map]; constructor; auto. Qed.
Lemma tidy_shift input off n n' ms : tidy n n' ms -> tidy n n' (map (shift input off) ms).
Proof.
  intros (bs & -> & B & C & D & E). exists (map (shift_blk input off) bs).
  assert (flat_map foot (map (shift_blk input off) bs) = flat_map foot bs) as F.
  { clear. induction bs as [|b bs IH]; cbn [map flat_map]; [reflexivity|]. rewrite IH. f_equal. destruct b as [l|o k]; cbn [foot shift_blk].
    - rewrite map_map. apply map_ext. intro; apply shift_id.
    - rewrite shift_id, shift_children, map_map. f_equal. apply map_ext. intro; apply shift_id. }
  split.
  { clear. induction bs as [|b bs IH]; cbn [map flat_map]; [reflexivity|]. rewrite map_app, IH. f_equal. destruct b; reflexivity. }
  rewrite F. split; [|auto]. apply Forall_map_impl with (P := good); [|exact B]. intros b [(i & I) G]. split.
  - exists i. destruct b as [l|o k]; cbn [members shift_blk] in *; [|change (shift input off o :: map (shift input off) k) with (map (shift input off) (o :: k))];
      (eapply Forall_map_impl; [|exact I]); intros x Hx; now rewrite shift_index.
  - destruct b as [l|o k]; cbn [shift_blk]; [eapply Forall_map_impl; [|exact G]; intro; apply shift_childless|]. destruct G as [G1 G2]. split.
    + eapply Forall_map_impl; [|exact G1]. intro; apply shift_childless.
    + rewrite shift_children. intros x Hx. apply in_map_iff in Hx as (y & <- & Hy). apply in_map; auto.
Qed.

(** ** One part of a chain *)
Lemma sublist_left {A} (a b : list A) : sublist a (a ++ b).
Proof. rewrite <- (app_nil_r a) at 1. apply sublist_app; [apply sublist_refl|apply sublist_nil_l]. Qed.
Lemma NoDup_app_intro {A} (a b : list A) : NoDup a -> NoDup b -> (forall x, In x a -> In x b -> False) -> NoDup (a ++ b).
Proof.
  intros Na Nb D. induction Na as [|x a Hx Na IH]; cbn [app]; [exact Nb|]. constructor; [|apply IH; intros y Hy; apply D; right; exact Hy].
  intro H. apply in_app_or in H as [H|H]; [exact (Hx H)|]. exact (D x (or_introl eq_refl) H).
Qed.
Definition among (keys : list nat) (j : nat) : bool := existsb (Nat.eqb j) keys.
Lemma Permutation_split {A} (f g h : A -> bool) l : (forall x, h x = f x || g x)%bool -> (forall x, f x = true -> g x = false) ->
  Permutation (filter h l) (filter f l ++ filter g l).
Proof.
  intros H D. induction l as [|x l IH]; cbn [filter]; [reflexivity|]. rewrite H. destruct (f x) eqn:E.
  - rewrite (D x E). cbn [orb app]. now constructor.
  - cbn [orb]. destruct (g x); [|exact IH]. rewrite IH. apply Permutation_middle.
Qed.
Lemma sublist_nil_r {A} (l : list A) : sublist l [] -> l = [].
Proof. destruct l; [reflexivity|]. intro H. inversion H. Qed.
Lemma next_groups_blocks breaker hidden input ms bsv : ms = flat_map members bsv -> Forall good bsv ->
  forall groups st st' bsc, next_groups breaker hidden input (group_by_index ms) groups st = Ok st' ->
  NoDup (map fst groups) -> cs_current st = flat_map members bsc -> Forall good bsc ->
  NoDup (flat_map foot (bsc ++ filter (index_is (among (map fst groups))) bsv)) ->
  cs_next st' = cs_next st /\ exists bsc', cs_current st' = flat_map members bsc' /\ Forall good bsc' /\ NoDup (flat_map foot bsc')
    /\ incl bsc' (bsc ++ bsv).
Proof.
  intros Em Gv. induction groups as [|[i g] r IH]; intros st st' bsc H N C G D; cbn [next_groups] in H.
  - injection H as <-. split; [reflexivity|]. exists bsc. split; [exact C|]. split; [exact G|]. rewrite flat_map_app in D. split; [eapply sublist_NoDup; [|exact D]; apply sublist_left|].
    intros x Hx. apply in_or_app. auto.
  - cbn [map fst] in N. inversion N as [|? ? N1 N2]; subst x l.
    assert (Permutation (filter (index_is (among (i :: map fst r))) bsv) (filter (index_is (Nat.eqb i)) bsv ++ filter (index_is (among (map fst r))) bsv)) as P.
    { apply Permutation_split.
      - intro b. unfold index_is, among. destruct (members b); [reflexivity|]. cbn [existsb]. rewrite (Nat.eqb_sym (m_index m) i). reflexivity.
      - intros b. unfold index_is, among. destruct (members b) as [|m l]; [reflexivity|]. intro E. apply Nat.eqb_eq in E. subst i.
        apply Bool.not_true_is_false. intro X. apply existsb_exists in X as (y & Y1 & Y2). apply Nat.eqb_eq in Y2. subst y. exact (N1 Y1). }
    cbn [map fst] in D.
    assert (NoDup (flat_map foot ((bsc ++ filter (index_is (Nat.eqb i)) bsv) ++ filter (index_is (among (map fst r))) bsv))) as D1.
    { rewrite <- app_assoc. eapply Permutation_NoDup; [|exact D]. rewrite !flat_map_app. apply Permutation_app_head. rewrite <- flat_map_app.
      apply Permutation_flat_map. exact P. }
    assert (NoDup (flat_map foot (bsc ++ filter (index_is (among (map fst r))) bsv))) as D2.
    { eapply sublist_NoDup; [|exact D1]. apply sublist_flat_map. rewrite <- app_assoc. apply sublist_app; [apply sublist_refl|].
      apply (@sublist_app _ [] (filter (index_is (Nat.eqb i)) bsv)); [apply sublist_nil_l|apply sublist_refl]. }
    cbv zeta in H. destruct hidden.
    + destruct (IH _ _ bsc H N2 C G D2) as (A & B). split; [exact A|exact B].
    + set (gm := match dfind (group_by_index ms) i with Some l => l | None => [] end) in H.
      assert (gm = flat_map members (filter (index_is (Nat.eqb i)) bsv) \/ gm = []) as Eg.
      { unfold gm. destruct (dfind (group_by_index ms) i) as [l|] eqn:Ed; [|auto]. left. apply dfind_In in Ed.
        destruct (groups_spec ms) as (_ & _ & F). rewrite Forall_forall in F. specialize (F _ Ed). cbn [fst snd] in F. rewrite F, Em.
        exact (filter_blocks (Nat.eqb i) Gv). }
      destruct (breaker_allows breaker (cs_current st ++ gm)) as [b|]; [|discriminate].
      destruct b; [|destruct (IH _ _ bsc H N2 C G D2) as (A & B); split; [exact A|exact B]].
      destruct Eg as [Eg|Eg].
      * destruct (IH _ _ (bsc ++ filter (index_is (Nat.eqb i)) bsv) H N2) as (A & bsc' & B1 & B2 & B3 & B4).
        { cbn [cs_current]. rewrite flat_map_app, C, Eg. reflexivity. }
        { apply Forall_app. split; [exact G|]. eapply sub_Forall; [apply sublist_filter|exact Gv]. }
        { exact D1. }
        split; [exact A|]. exists bsc'. split; [exact B1|]. split; [exact B2|]. split; [exact B3|]. intros x Hx. apply B4 in Hx. rewrite !in_app_iff in *.
        rewrite filter_In in Hx. tauto.
      * rewrite Eg, app_nil_r in H. destruct (IH _ _ bsc H N2 C G D2) as (A & B). split; [exact A|exact B].
Qed.
Lemma groups_keys_NoDup l : NoDup (map fst (group_by_index l)).
Proof.
  destruct (groups_spec l) as (S & _). induction S as [|a r S IH F]; constructor; auto. intro H. rewrite Forall_forall in F. specialize (F a H). lia.
Qed.
Lemma In_members_flat b bs x : In b bs -> In x (members b) -> In x (flat_map members bs).
Proof. intros H1 H2. apply in_flat_map. eauto. Qed.

(** what the parts of a chain promise: [bare] means their matches have no children *)
Definition promises (bare : bool) (f : matcher) : Prop := forall n input n' ms raws, f n input = Ok (n', (ms, raws)) ->
  tidy n n' ms /\ (bare = true -> Forall childless ms).
Definition held (bare : bool) (n : nat) (st : cstate) : Prop :=
  tidy n (cs_next st) (cs_current st) /\ (bare = true -> Forall childless (cs_current st)).
Lemma run_parts_held bare breaker input n0 : forall parts first st st' valid, Forall (fun cp => promises bare (cp_match cp)) parts ->
  run_parts breaker input first parts st = Ok (st', valid) -> held bare n0 st -> held bare n0 st'.
Proof.
  induction parts as [|cp r IH]; intros first st st' valid P H Hd; cbn [run_parts] in H; [injection H as <- _; exact Hd|].
  inversion P as [|? ? Pc Pr]; subst.
  destruct (part_matches first cp (cs_next st) (cs_text st)) as [[n1 [ms raws]]|e] eqn:E.
  2:{ destruct e; try discriminate. injection H as <- _. destruct (cs_current st) as [|m l] eqn:Ec; [exact Hd|]. unfold held in *. cbn [cs_next cs_current]. rewrite <- Ec. exact Hd. }
  destruct (to_next_part _ _ _ _ _ _) as [st1|] eqn:E2; [|discriminate]. refine (IH _ _ _ _ Pr H _). clear H IH.
  apply part_matches_ok in E as (ms0 & raws0 & E & -> & -> & _). apply Pc in E as [T B]. destruct Hd as [(bsc & C1 & C2 & C3 & C4 & C5) Cb].
  unfold to_next_part in E2. cbn [cs_offset] in E2. set (ms1 := map _ (truncate_repeater _ _ ms0 _)) in E2.
  assert (tidy (cs_next st) n1 ms1) as T1 by (apply tidy_shift, tidy_truncate; exact T). destruct T1 as (bsv & V1 & V2 & V3 & V4 & V5).
  eapply (@next_groups_blocks breaker (cp_hidden cp) input ms1 bsv V1 V2) in E2 as (N & bsc' & A1 & A2 & A3 & A4); [| |exact C1|exact C2|].
  - cbn [cs_next] in N. split.
    + exists bsc'. split; [exact A1|]. split; [exact A2|]. split; [exact A3|]. rewrite N. split; [|lia]. apply Forall_forall. intros i Hi. apply in_flat_map in Hi as (b & Hb & Hi).
      apply A4 in Hb. apply in_app_or in Hb as [Hb|Hb]; rewrite Forall_forall in C4, V4.
      * assert (In i (flat_map foot bsc)) as X by (apply in_flat_map; eauto). apply C4 in X. lia.
      * assert (In i (flat_map foot bsv)) as X by (apply in_flat_map; eauto). apply V4 in X. lia.
    + intro Eb. specialize (B Eb). specialize (Cb Eb). rewrite A1. apply Forall_forall. intros x Hx. apply in_flat_map in Hx as (b & Hb & Hx). apply A4 in Hb.
      apply in_app_or in Hb as [Hb|Hb].
      * rewrite Forall_forall in Cb. apply Cb. rewrite C1. eapply In_members_flat; eassumption.
      * assert (In x ms1) as X by (rewrite V1; eapply In_members_flat; eassumption). unfold ms1 in X. apply in_map_iff in X as (y & <- & Y). apply truncate_In in Y.
        rewrite Forall_forall in B. apply shift_childless. auto.
  - apply groups_keys_NoDup.
  - rewrite flat_map_app. apply NoDup_app_intro; [exact C3| |].
    + eapply sublist_NoDup; [|exact V3]. apply sublist_flat_map, sublist_filter.
    + intros i H1 H2. rewrite Forall_forall in C4, V4. apply C4 in H1. assert (In i (flat_map foot bsv)) as X.
      { eapply sublist_In; [|exact H2]. apply sublist_flat_map, sublist_filter. }
      apply V4 in X. lia.
Qed.

(** ** The match of a chain *)
Lemma append_all_ok : forall add cs cs', append_all cs add = Ok cs' -> cs' = cs ++ add.
Proof.
  induction add as [|c r IH]; intros cs cs' H; cbn [append_all] in H; [injection H as <-; now rewrite app_nil_r|]. unfold append_child in H.
  destruct (m_marker c); [discriminate|]. apply IH in H. now rewrite <- app_assoc in H.
Qed.
Lemma chain_children_app main : forall a b cs r, chain_children main (a ++ b) cs = Ok r -> exists cs1, chain_children main a cs = Ok cs1 /\ chain_children main b cs1 = Ok r.
Proof.
  induction a as [|m a IH]; intros b cs r H; cbn [app chain_children] in *; [eauto|]. destruct (append_all cs (m_children m)) as [cs1|]; [|discriminate].
  destruct (mem meq m cs1); [eauto|]. destruct (append_child _ _) as [cs2|]; [eauto|discriminate].
Qed.
Lemma known_children main : forall k cs r, chain_children main k cs = Ok r -> Forall childless k -> incl k cs -> r = cs.
Proof.
  induction k as [|m k IH]; intros cs r H F I; cbn [chain_children] in H; [congruence|]. inversion F as [|? ? Fm Fk]; subst. unfold childless in Fm. rewrite Fm in H. cbn [append_all] in H.
  assert (mem meq m cs = true) as M. { apply existsb_exists. exists m. split; [apply I; left; reflexivity|apply meq_refl]. }
  rewrite M in H. apply IH in H; auto. intros x Hx. apply I. right. exact Hx.
Qed.
Lemma leaf_children main : forall l cs r, chain_children main l cs = Ok r -> Forall childless l -> exists add, r = cs ++ add /\ sublist (map m_id add) (map m_id l)
  /\ Forall childless add.
Proof.
  induction l as [|m l IH]; intros cs r H F; cbn [chain_children] in H; [injection H as <-; exists []; rewrite app_nil_r; repeat split; constructor|].
  inversion F as [|? ? Fm Fl]; subst. unfold childless in Fm. rewrite Fm in H. cbn [append_all] in H. destruct (mem meq m cs).
  - destruct (IH _ _ H Fl) as (add & A & B & C). exists add. split; [exact A|]. split; [constructor; exact B|exact C].
  - unfold append_child in H. destruct (m_marker _); [discriminate|]. destruct (IH _ _ H Fl) as (add & A & B & C).
    exists (set_parent m (Some (shell main)) :: add). rewrite <- app_assoc in A. split; [exact A|]. split; [cbn [map m_id set_parent]; constructor; exact B|constructor; [exact Fm|exact C]].
Qed.
Lemma chain_children_ids main : forall bs cs r, chain_children main (flat_map members bs) cs = Ok r -> Forall good bs ->
  exists add, r = cs ++ add /\ (exists ids, Permutation ids (flat_map foot bs) /\ sublist (map m_id add) ids)
    /\ (Forall childless (flat_map members bs) -> Forall childless add).
Proof.
  induction bs as [|b bs IH]; intros cs r H G; cbn [flat_map] in H.
  - cbn [chain_children] in H. injection H as <-. exists []. rewrite app_nil_r. split; [reflexivity|]. split; [exists []; split; constructor|intros _; constructor].
  - inversion G as [|? ? Gb Gbs]; subst. apply chain_children_app in H as (cs1 & H1 & H2).
    destruct (IH _ _ H2 Gbs) as (add2 & -> & (ids2 & P2 & S2) & C2).
    assert (exists add1, cs1 = cs ++ add1 /\ (exists ids, Permutation ids (foot b) /\ sublist (map m_id add1) ids) /\ (Forall childless (members b) -> Forall childless add1)) as (add1 & -> & (ids1 & P1 & S1) & C1).
    { destruct b as [l|o k]; cbn [members foot] in *.
      - destruct (leaf_children H1 (proj2 Gb)) as (add & A & B & C). exists add. split; [exact A|]. split; [exists (map m_id l); auto|auto].
      - destruct Gb as [_ [Gk Gi]]. cbn [chain_children] in H1. destruct (append_all cs (m_children o)) as [c1|] eqn:Ea; [|discriminate]. apply append_all_ok in Ea. subst c1.
        assert (forall add, chain_children main k (cs ++ m_children o ++ add) = Ok cs1 -> sublist (map m_id add) [m_id o] -> (childless o -> Forall childless add) ->
          exists add1, cs1 = cs ++ add1 /\ (exists ids, Permutation ids (m_id o :: map m_id (m_children o)) /\ sublist (map m_id add1) ids)
            /\ (Forall childless (o :: k) -> Forall childless add1)) as W.
        { intros add Hk Sa Ca. apply known_children in Hk; [|exact Gk|]. 2:{ intros x Hx. apply in_or_app. right. apply in_or_app. left. auto. }
          exists (m_children o ++ add). split; [exact Hk|]. split.
          - exists (map m_id (m_children o) ++ [m_id o]). split; [symmetry; apply Permutation_cons_append|]. rewrite map_app. apply sublist_app; [apply sublist_refl|exact Sa].
          - intro F. inversion F as [|? ? Fo Fk]; subst. specialize (Ca Fo). unfold childless in Fo. rewrite Fo. exact Ca. }
        destruct (mem meq o _).
        + apply (W []); [rewrite app_nil_r; exact H1|apply sublist_nil_l|intros _; constructor].
        + unfold append_child in H1. destruct (m_marker _); [discriminate|]. rewrite <- app_assoc in H1. apply (W _ H1); [apply sublist_refl|]. intro Fo. constructor; [exact Fo|constructor]. }
    exists (add1 ++ add2). rewrite app_assoc. split; [reflexivity|]. split.
    + exists (ids1 ++ ids2). cbn [flat_map]. split; [now apply Permutation_app|]. rewrite map_app. now apply sublist_app.
    + cbn [flat_map]. intro F. apply Forall_app in F as [F1 F2]. apply Forall_app. auto.
Qed.
(** a chain match carries distinct objects from the supply *)
Definition fresh_one (bare : bool) (n n' : nat) (m : mtch) : Prop :=
  NoDup (ids_of m) /\ Forall (fun i => n <= i < n')%nat (ids_of m) /\ (bare = true -> Forall childless (m_children m)).
Lemma build_fresh bare p n k cur input m : tidy n k cur -> (bare = true -> Forall childless cur) -> build_chain_match p k cur input = Ok m -> fresh_one bare n (S k) m.
Proof.
  intros (bs & E1 & E2 & E3 & E4 & E5) B H. unfold build_chain_match in H. destruct cur as [|x r] eqn:Ec; [discriminate|]. rewrite <- Ec in *. clear Ec.
  cbv zeta in H. set (main := new_match _ _ _ _ _ _) in H. destruct (chain_children main cur []) as [cs|] eqn:E; [|discriminate]. injection H as <-.
  rewrite E1 in E, B. apply chain_children_ids in E as (add & -> & (ids & P & S) & C); [|exact E2]. cbn [app].
  assert (NoDup (map m_id add)) as N. { eapply sublist_NoDup; [exact S|]. eapply Permutation_NoDup; [symmetry; exact P|exact E3]. }
  assert (Forall (fun i => n <= i < k)%nat (map m_id add)) as R.
  { eapply sub_Forall; [exact S|]. rewrite Forall_forall in *. intros i Hi. apply E4. eapply Permutation_in; eassumption. }
  assert (ids_of (relink_children (set_children main add)) = k :: map m_id add) as I.
  { unfold ids_of, relink_children. cbn [m_id m_children set_children]. f_equal. rewrite map_map. apply map_ext. reflexivity. }
  unfold fresh_one. rewrite I. split; [|split].
  - constructor; [|exact N]. intro H. rewrite Forall_forall in R. apply R in H. lia.
  - constructor; [lia|]. eapply Forall_impl; [|exact R]. cbv beta. lia.
  - intro Eb. specialize (C (B Eb)). unfold relink_children. cbn [m_children set_children]. eapply Forall_map_impl; [|exact C]. intros y Hy. exact Hy.
Qed.
Definition fresh_all (bare : bool) (n n' : nat) (ms : list mtch) : Prop :=
  NoDup (all_ids ms) /\ Forall (fun i => n <= i < n')%nat (all_ids ms) /\ (bare = true -> Forall (fun m => Forall childless (m_children m)) ms) /\ (n <= n')%nat.
Lemma chain_loop_fresh bare p breaker parts input n0 : Forall (fun cp => promises bare (cp_match cp)) parts ->
  forall fuel n text off acc n' ms, chain_loop fuel p breaker parts input n text off acc = Ok (n', ms) -> fresh_all bare n0 n acc -> fresh_all bare n0 n' ms.
Proof.
  intro P. assert (forall n k acc, fresh_all bare n0 n acc -> (n <= k)%nat -> fresh_all bare n0 k acc) as W.
  { intros n k acc (A & B & C & D) L. split; [exact A|]. split; [|split; [exact C|lia]]. eapply Forall_impl; [|exact B]. cbv beta. lia. }
  induction fuel as [|f IH]; intros n text off acc n' ms H F; cbn [chain_loop] in H; (destruct (off <? zlen input); [|injection H as <- <-; exact F]); [discriminate|].
  destruct (run_parts breaker input true parts (CState n false text off [])) as [[st valid]|] eqn:E; [|discriminate].
  assert (held bare n (CState n false text off [])) as H0. { split; [apply tidy_nil|intros _; constructor]. }
  destruct (run_parts_held P E H0) as [T B]. assert (n <= cs_next st)%nat as L by (destruct T as (? & ? & ? & ? & ? & ?); assumption).
  destruct (negb (cs_found st)); [injection H as <- <-; eapply W; eassumption|].
  destruct (cs_current st) as [|x r] eqn:Ec; [refine (IH _ _ _ _ _ _ H _); eapply W; eassumption|].
  destruct valid; [|refine (IH _ _ _ _ _ _ H _); eapply W; eassumption].
  destruct (build_chain_match p (cs_next st) (x :: r) input) as [m|] eqn:Eb; [|discriminate]. refine (IH _ _ _ _ _ _ H _).
  destruct (build_fresh T B Eb) as (M1 & M2 & M3). destruct F as (F1 & F2 & F3 & F4).
  split; [|split; [|split; [|lia]]].
  - unfold all_ids. rewrite flat_map_app. cbn [flat_map]. rewrite app_nil_r. apply NoDup_app_intro; [exact F1|exact M1|]. intros i I1 I2. rewrite Forall_forall in F2, M2.
    apply F2 in I1. apply M2 in I2. lia.
  - unfold all_ids. rewrite flat_map_app. cbn [flat_map]. rewrite app_nil_r. apply Forall_app. split; [eapply Forall_impl; [|exact F2]; cbv beta; lia|].
    eapply Forall_impl; [|exact M2]. cbv beta. lia.
  - intro Eq. apply Forall_app. split; [auto|]. constructor; [auto|constructor].
Qed.
Lemma chain_once bare fuel p breaker parts n input n' ms raws : no_processor p -> Forall (fun cp => promises bare (cp_match cp)) parts ->
  chain_matches fuel p breaker parts n input = Ok (n', (ms, raws)) ->
  (NoDup (map m_id ms) /\ Forall (fun i => n <= i < n')%nat (map m_id ms) /\ (n <= n')%nat)
  /\ (shows_children p = false \/ bare = true -> tidy n n' ms).
Proof.
  intros (N1 & N2 & N3) P H. unfold chain_matches, chain_match in H. destruct (chain_loop fuel p breaker parts input n input 0 []) as [[k found]|] eqn:E; [|discriminate].
  eapply (@chain_loop_fresh bare p breaker parts input n P) in E as (F1 & F2 & F3 & F4). 2:{ repeat split; try constructor. }
  unfold finish_matches in H. destruct (process_patterns p (chain_process_match p) [found]) as [[raws1 outs1]|] eqn:E2; [|discriminate]. rewrite N3 in H. injection H as <- <- <-.
  apply (process_patterns_tame (@chain_tame p) N1 N2) in E2 as [S1 S2]. cbn [concat] in S1, S2. rewrite app_nil_r in S1, S2. split.
  - split; [eapply sublist_NoDup; eassumption|]. split; [eapply sub_Forall; eassumption|exact F4].
  - intro C. destruct S2 as (bs & -> & G & S). { destruct C as [C|C]; auto. } exists bs. split; [reflexivity|]. split; [exact G|].
    split; [eapply sublist_NoDup; eassumption|]. split; [eapply sub_Forall; eassumption|exact F4].
Qed.

(** ** Trees *)

Lemma flat_part_promises : forall c, flat_part c -> promises false (tree_matches c) /\ (groupless c -> promises true (tree_matches c)).
Proof.
  fix IH 2. intros c F. destruct F as [p src N|p breaker parts N F C].
  - split; [intros n input n' ms raws H|intros G n input n' ms raws H]; apply (pattern_tidy N) in H as (A & B & _); split; auto; discriminate.
  - split; [|intros []].
    assert (forall b : bool, (b = true -> forall x, In x parts -> groupless (fst x)) -> Forall (fun cp => promises b (cp_match cp)) (map tree_part parts)) as P.
    { intros b Hb. apply Forall_forall. intros cp Hc. apply in_map_iff in Hc as ([c [[a e] h]] & <- & Hc). cbn [tree_part cp_match].
      destruct (IH _ (F _ Hc)) as [P1 P2]. destruct b; [apply P2; exact (Hb eq_refl _ Hc)|exact P1]. }
    intros n input n' ms raws H. split; [|discriminate].
    change (chain_matches (S (length input)) p breaker (map tree_part parts) n input = Ok (n', (ms, raws))) in H.
    destruct C as [C|C].
    + eapply (@chain_once false); [exact N|apply P; discriminate|exact H|auto].
    + eapply (@chain_once true); [exact N|apply P; auto|exact H|auto].
Qed.
Lemma flat_once c n input n' ms raws : flat c -> tree_matches c n input = Ok (n', (ms, raws)) ->
  NoDup (map m_id ms) /\ Forall (fun i => n <= i < n')%nat (map m_id ms) /\ (n <= n')%nat.
Proof.
  intros F H. destruct F as [p src N|p breaker parts N F].
  - apply (pattern_tidy N) in H. tauto.
  - change (chain_matches (S (length input)) p breaker (map tree_part parts) n input = Ok (n', (ms, raws))) in H.
    eapply (@chain_once false) in H as [A _]; [exact A|exact N|]. apply Forall_forall. intros cp Hc. apply in_map_iff in Hc as ([c [[a e] h]] & <- & Hc).
    cbn [tree_part cp_match]. exact (proj1 (flat_part_promises (F _ Hc))).
Qed.
