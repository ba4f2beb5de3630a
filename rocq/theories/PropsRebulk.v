(** * Properties C47-C49 and C53: the Rebulk object *)
From Verif Require Import Base BaseFacts Match Spec MatchFacts Coll CollFacts CollQuery CollSem CollSem2 SpecColl CollHist CollUniv
  Loose PropsLoose Conseq ConseqFacts Processors ProcFacts PropsProc Topo TopoFacts Rules RulesFacts Pattern PatternFacts PropsPattern
  Typed PropsTyped Rebulk RebulkFacts.
From Coq Require Import ZifyBool.
From Coq Require String.
Export Coq.Strings.String.StringSyntax.
Set Implicit Arguments.
Unset Strict Implicit.
Open Scope Z_scope.

(** ** C47: specification *)
Section C47.
  Context {Ctx : Type}.
  Definition enabled_children (ctx : Ctx) (r : rb Ctx) : list (rb Ctx) := filter (fun c => negb (rb_disabled c ctx)) (rb_children r).
  (** the Rebulk object and its enabled children *)
  Definition participants (ctx : Ctx) (r : rb Ctx) : list (rb Ctx) := r :: enabled_children ctx r.
  (** a number names one pattern object *)
  Definition one_object_per_id (ctx : Ctx) (r : rb Ctx) : Prop :=
    forall p q, In p (flat_map (@rb_patterns Ctx) (participants ctx r)) -> In q (flat_map (@rb_patterns Ctx) (participants ctx r)) -> pt_id p = pt_id q -> p = q.
  (** the first entry for [n] in a list of dictionaries *)
  Fixpoint first_entry {V} (n : pstr) (ds : list (dict pstr V)) : option V :=
    match ds with
    | [] => None
    | d :: r => match dfind d n with Some v => Some v | None => first_entry n r end
    end.
  Definition drop_disabled (ctx : Ctx) (r : rb Ctx) : rb Ctx :=
    Rb (rb_disabled r) (filter (fun p => negb (pt_disabled p ctx)) (rb_patterns r)) (rb_rules r) (rb_keys r) (rb_children r).
  (** [r] without what is disabled *)
  Definition prune (ctx : Ctx) (r : rb Ctx) : rb Ctx :=
    Rb (rb_disabled r) (filter (fun p => negb (pt_disabled p ctx)) (rb_patterns r)) (rb_rules r) (rb_keys r)
       (map (drop_disabled ctx) (enabled_children ctx r)).
  (** [r] whose children have no children *)
  Definition one_level (r : rb Ctx) : rb Ctx :=
    Rb (rb_disabled r) (rb_patterns r) (rb_rules r) (rb_keys r)
       (map (fun c => Rb (rb_disabled c) (rb_patterns c) (rb_rules c) (rb_keys c) []) (rb_children r)).
End C47.

(** ** Proofs: merging the children *)
Lemma new_elements_firsts {A} (eq : A -> A -> bool) : forall l seen, new_elements eq seen l = firsts eq seen l.
Proof.
  induction l as [|x l IH]; intro seen; simpl; [reflexivity|]. destruct (existsb (eq x) seen); simpl; rewrite ?app_nil_r, IH; reflexivity.
Qed.
Lemma firsts_app {A} (eq : A -> A -> bool) : forall a seen b, firsts eq seen (a ++ b) = firsts eq seen a ++ firsts eq (seen ++ firsts eq seen a) b.
Proof.
  induction a as [|x a IH]; intros seen b; simpl; [now rewrite app_nil_r|]. destruct (existsb (eq x) seen) eqn:E; [apply IH|].
  simpl. rewrite IH, <- app_assoc. reflexivity.
Qed.
Lemma fold_extend {Ctx A} (eq : A -> A -> bool) (g : rb Ctx -> list A) ctx : (forall x, eq x x = true) -> forall cs acc,
  fold_left (fun l c => if rb_disabled c ctx then l else extend_safe eq (fun _ => true) l (g c)) cs acc
  = acc ++ firsts eq acc (flat_map g (filter (fun c => negb (rb_disabled c ctx)) cs)).
Proof.
  intros R. induction cs as [|c cs IH]; intro acc; simpl; [now rewrite app_nil_r|]. rewrite IH. destruct (rb_disabled c ctx); simpl; [reflexivity|].
  destruct (@C23_extend_safe A eq R (fun _ => true) acc (g c)) as (-> & _). rewrite new_elements_firsts, firsts_app, <- app_assoc. reflexivity.
Qed.
Lemma firsts_incl {A} (eq : A -> A -> bool) : forall l seen x, In x (firsts eq seen l) -> In x l.
Proof. induction l as [|y l IH]; intros seen x H; simpl in *; [exact H|]. destruct (existsb (eq y) seen); [right; eauto|]. destruct H as [->|H]; [auto|right; eauto]. Qed.
Lemma firsts_cover {A} (eq : A -> A -> bool) (R : forall x, eq x x = true) : forall l seen x, In x l -> exists y, In y (seen ++ firsts eq seen l) /\ eq x y = true.
Proof.
  induction l as [|z l IH]; intros seen x H; [contradiction|]. simpl. destruct (existsb (eq z) seen) eqn:E.
  - destruct H as [->|H]; [|auto]. apply existsb_exists in E as (y & Hy & E). exists y. split; [apply in_or_app; auto|exact E].
  - destruct H as [->|H]; [exists x; split; [apply in_or_app; right; left; reflexivity|apply R]|].
    destruct (IH (seen ++ [z]) x H) as (y & Hy & Ey). exists y. rewrite <- app_assoc in Hy. auto.
Qed.
Lemma firsts_disjoint {A} (eq : A -> A -> bool) : forall l seen, ForallOrdPairs (fun a b => eq b a = false) (firsts eq seen l)
  /\ forall x y, In x (firsts eq seen l) -> In y seen -> eq x y = false.
Proof.
  induction l as [|z l IH]; intro seen; simpl; [split; [constructor|intros; contradiction]|].
  destruct (existsb (eq z) seen) eqn:E; [apply IH|]. destruct (IH (seen ++ [z])) as [A1 A2]. split.
  - constructor; [|exact A1]. apply Forall_forall. intros x Hx. apply A2; [exact Hx|apply in_or_app; right; left; reflexivity].
  - intros x y [<-|Hx] Hy; [apply (proj1 (existsb_false_iff _ _) E), Hy|apply A2; [exact Hx|apply in_or_app; auto]].
Qed.
Lemma filter_firsts {A} (eq : A -> A -> bool) (P : A -> bool) : forall l seen,
  (forall x y, In x l -> In y (seen ++ l) -> eq x y = true -> P x = P y) ->
  filter P (firsts eq seen l) = firsts eq (filter P seen) (filter P l).
Proof.
  induction l as [|x l IH]; intros seen H; simpl; [reflexivity|].
  assert (P x = true -> existsb (eq x) (filter P seen) = existsb (eq x) seen) as Hs.
  { intro Px. apply eq_true_iff_eq. rewrite !existsb_exists. split; intros (y & Hy & Ey); exists y; split; auto.
    - apply filter_In in Hy. tauto.
    - apply filter_In. split; [exact Hy|]. rewrite <- (H x y); [exact Px|left; reflexivity|apply in_or_app; auto|exact Ey]. }
  destruct (existsb (eq x) seen) eqn:E.
  - rewrite IH; [|intros a b Ha Hb; apply H; [right; exact Ha|apply in_app_iff in Hb as [Hb|Hb]; apply in_or_app; simpl; auto]].
    destruct (P x) eqn:Px; simpl; [rewrite (Hs eq_refl); reflexivity|reflexivity].
  - cbn [filter]. assert (filter P (firsts eq (seen ++ [x]) l) = firsts eq (filter P (seen ++ [x])) (filter P l)) as ->.
    { apply IH. intros a b Ha Hb. apply H; [right; exact Ha|]. rewrite <- app_assoc in Hb. exact Hb. }
    rewrite filter_app. simpl. destruct (P x) eqn:Px; simpl; [rewrite (Hs eq_refl); reflexivity|now rewrite app_nil_r].
Qed.
Lemma merge_keys_find {V} : forall (new keys : dict pstr V) n, dfind (merge_keys keys new) n = match dfind keys n with Some v => Some v | None => dfind new n end.
Proof.
  induction new as [|[k v] new IH]; intros keys n; unfold merge_keys in *; cbn [fold_left fst snd dfind]; [destruct (dfind keys n); reflexivity|].
  rewrite IH. unfold dsetdefault. destruct (dfind keys k) as [w|] eqn:E.
  - destruct (dfind keys n) eqn:E2; [reflexivity|]. destruct (eqb n k) eqn:E3; [|reflexivity]. apply eqb_eq in E3. subst. congruence.
  - rewrite dfind_dset. destruct (eqb n k) eqn:E3; [|reflexivity]. apply eqb_eq in E3. subst. rewrite E. reflexivity.
Qed.
Lemma effective_keys_find {Ctx} ctx (r : rb Ctx) n : dfind (effective_keys ctx r) n = first_entry n (map (@rb_keys Ctx) (participants ctx r)).
Proof.
  unfold effective_keys, participants, enabled_children. simpl. generalize (rb_keys r). induction (rb_children r) as [|c cs IH]; intro ks; simpl.
  - destruct (dfind ks n); reflexivity.
  - rewrite IH. destruct (rb_disabled c ctx); simpl; [reflexivity|]. rewrite merge_keys_find. destruct (dfind ks n); reflexivity.
Qed.

(** ** C47: theorems *)
Theorem C86_disabled_rebulk : forall Ctx R env perm (bh : Ctx -> behav found R) isinst check (r : rb Ctx) ctx input,
  rb_disabled r ctx = true ->
  exists f, rb_matches env perm bh isinst check r ctx input = Ok f /\ c_del (fd_matches f) = [] /\ c_del (fd_markers f) = [] /\ fd_keys f = [].
Proof.
  intros Ctx R env perm bh isinst check r ctx input D. unfold rb_matches, matches_patterns, execute_rules. rewrite D. simpl.
  destruct check; simpl; eauto 10.
Qed.
(** what the object and its enabled children contribute: own objects first, then the ones of each child not met before *)
Theorem C86_contributions : forall Ctx (ctx : Ctx) (r : rb Ctx) env,
  (effective_patterns ctx r = rb_patterns r ++ firsts pat_eq (rb_patterns r) (flat_map (@rb_patterns Ctx) (enabled_children ctx r)))
  /\ (one_object_per_id ctx r -> forall p, In p (effective_patterns ctx r) <-> In p (flat_map (@rb_patterns Ctx) (participants ctx r)))
  /\ (NoDup (map (@pt_id Ctx) (rb_patterns r)) -> NoDup (map (@pt_id Ctx) (effective_patterns ctx r)))
  /\ (effective_rules env ctx r = rb_rules r ++ firsts (rule_eq env) (rb_rules r) (flat_map (@rb_rules Ctx) (enabled_children ctx r)))
  /\ (forall x, In x (effective_rules env ctx r) -> In x (flat_map (@rb_rules Ctx) (participants ctx r)))
  /\ (forall x, In x (flat_map (@rb_rules Ctx) (participants ctx r)) -> exists y, In y (effective_rules env ctx r) /\ r_class env x = r_class env y)
  /\ (NoDup (map (r_class env) (rb_rules r)) -> NoDup (map (r_class env) (effective_rules env ctx r)))
  /\ (forall n, dfind (effective_keys ctx r) n = first_entry n (map (@rb_keys Ctx) (participants ctx r))).
Proof.
  intros Ctx ctx r env.
  assert (Hp : forall x : pat Ctx, pat_eq x x = true) by (intro; apply Nat.eqb_refl).
  assert (Hr : forall x, rule_eq env x x = true) by (intro; apply Nat.eqb_refl).
  assert (EP : effective_patterns ctx r = rb_patterns r ++ firsts pat_eq (rb_patterns r) (flat_map (@rb_patterns Ctx) (enabled_children ctx r))) by (apply fold_extend, Hp).
  assert (ER : effective_rules env ctx r = rb_rules r ++ firsts (rule_eq env) (rb_rules r) (flat_map (@rb_rules Ctx) (enabled_children ctx r))) by (apply fold_extend, Hr).
  assert (forall A (f : A -> nat) own l, NoDup (map f own) -> NoDup (map f (own ++ firsts (fun a b => Nat.eqb (f a) (f b)) own l))) as ND.
  { intros A f own l H. destruct (@firsts_disjoint A (fun a b => Nat.eqb (f a) (f b)) l own) as [D1 D2]. rewrite map_app.
    set (fs := firsts (fun a b : A => Nat.eqb (f a) (f b)) own l) in *. clearbody fs. assert (NoDup (map f fs)) as N2.
    { clear - D1. induction D1 as [|a t F D1 IH]; simpl; constructor; auto. rewrite in_map_iff. intros (y & E & Hy). rewrite Forall_forall in F.
      specialize (F y Hy). simpl in F. apply Nat.eqb_neq in F. congruence. }
    assert (forall k, In k (map f own) -> ~ In k (map f fs)) as D3.
    { intros k Hk Hk'. apply in_map_iff in Hk as (a & <- & Ha). apply in_map_iff in Hk' as (b & E & Hb). specialize (D2 b a Hb Ha). simpl in D2. apply Nat.eqb_neq in D2. congruence. }
    revert H N2 D3. generalize (map f own), (map f fs). clear. induction l as [|a l IH]; intros l0 H N2 D3; simpl; [exact N2|].
    inversion H; subst. constructor; [rewrite in_app_iff; intros [X|X]; [auto|apply (D3 a); simpl; auto]|apply IH; auto; intros k Hk; apply D3; right; exact Hk]. }
  split; [exact EP|]. split; [|split; [|split; [exact ER|split; [|split; [|split]]]]].
  - intros OB p. rewrite EP. cbn [participants flat_map]. rewrite !in_app_iff. split; [intros [H|H]; [auto|right; eapply firsts_incl; eassumption]|].
    intros [H|H]; [auto|]. destruct (@firsts_cover _ pat_eq Hp (flat_map (@rb_patterns Ctx) (enabled_children ctx r)) (rb_patterns r) p H) as (q & Hq & E).
    apply Nat.eqb_eq in E. assert (p = q) as <-; [|apply in_app_iff, Hq]. apply OB; [| |exact E].
    + cbn [participants flat_map]. apply in_app_iff. auto.
    + cbn [participants flat_map]. apply in_app_iff in Hq as [Hq|Hq]; apply in_app_iff; [auto|right; eapply firsts_incl; eassumption].
  - intro H. rewrite EP. apply ND, H.
  - intros x Hx. rewrite ER in Hx. cbn [participants flat_map]. apply in_app_iff in Hx as [Hx|Hx]; apply in_app_iff; [auto|right; eapply firsts_incl; eassumption].
  - intros x Hx. cbn [participants flat_map] in Hx. rewrite ER. apply in_app_iff in Hx as [Hx|Hx]; [exists x; split; [apply in_app_iff; auto|reflexivity]|].
    destruct (@firsts_cover _ (rule_eq env) Hr _ (rb_rules r) x Hx) as (y & Hy & E). exists y. split; [exact Hy|apply Nat.eqb_eq, E].
  - intro H. rewrite ER. apply ND, H.
  - intro n. apply effective_keys_find.
Qed.

Lemma run_patterns_filter {Ctx} (ctx : Ctx) input : forall ps f, run_patterns ctx input ps f = run_patterns ctx input (filter (fun p => negb (pt_disabled p ctx)) ps) f.
Proof.
  induction ps as [|p ps IH]; intro f; simpl; [reflexivity|]. destruct (pt_disabled p ctx) eqn:D; simpl; [apply IH|]. rewrite D.
  destruct (pt_match p ctx (fd_next f) input) as [[n1 [ms raws]]|]; [|reflexivity]. destruct (put _ ms); [apply IH|reflexivity].
Qed.
Lemma flat_map_filter_map {A B C} (P : B -> bool) (f : A -> list B) (g : A -> C) (h : C -> list B) l :
  (forall x, In x l -> h (g x) = filter P (f x)) -> filter P (flat_map f l) = flat_map h (map g l).
Proof.
  induction l as [|x l IH]; intro H; simpl; [reflexivity|]. rewrite filter_app, IH by (intros; apply H; right; assumption). rewrite H by (left; reflexivity). reflexivity.
Qed.
(** Removing what is disabled changes nothing *)
Theorem C86_disabled_contribute_nothing : forall Ctx R env perm (bh : Ctx -> behav found R) isinst check (r : rb Ctx) ctx input,
  one_object_per_id ctx r ->
  rb_matches env perm bh isinst check r ctx input = rb_matches env perm bh isinst check (prune ctx r) ctx input.
Proof.
  intros Ctx R env perm bh isinst check r ctx input OB.
  assert (EN : filter (fun c => negb (rb_disabled c ctx)) (map (drop_disabled ctx) (enabled_children ctx r)) = map (drop_disabled ctx) (enabled_children ctx r)).
  { apply filter_all. intros c Hc. apply in_map_iff in Hc as (c0 & <- & Hc). apply filter_In in Hc. simpl. tauto. }
  assert (EC : forall A (g : rb Ctx -> list A), (forall c, g (drop_disabled ctx c) = g c) -> flat_map g (map (drop_disabled ctx) (enabled_children ctx r)) = flat_map g (enabled_children ctx r)).
  { clear EN. intros A g Hg. induction (enabled_children ctx r) as [|c l IH]; simpl; [reflexivity|]. now rewrite Hg, IH. }
  assert (ER : effective_rules env ctx (prune ctx r) = effective_rules env ctx r).
  { unfold effective_rules. rewrite !fold_extend by (intro; apply Nat.eqb_refl). simpl. rewrite EN, EC by reflexivity. reflexivity. }
  assert (EK : effective_keys ctx (prune ctx r) = effective_keys ctx r).
  { unfold effective_keys, prune, enabled_children. simpl. generalize (rb_keys r). induction (rb_children r) as [|c l IH]; intro ks; simpl; [reflexivity|].
    destruct (rb_disabled c ctx) eqn:E; simpl; rewrite ?E; auto. }
  assert (EPT : filter (fun p => negb (pt_disabled p ctx)) (effective_patterns ctx (prune ctx r)) = filter (fun p => negb (pt_disabled p ctx)) (effective_patterns ctx r)).
  { unfold effective_patterns. rewrite !fold_extend by (intro; apply Nat.eqb_refl). simpl. rewrite EN.
    assert (forall x y, In x (flat_map (@rb_patterns Ctx) (enabled_children ctx r)) -> In y (rb_patterns r ++ flat_map (@rb_patterns Ctx) (enabled_children ctx r)) ->
              pat_eq x y = true -> negb (pt_disabled x ctx) = negb (pt_disabled y ctx)) as HP.
    { intros x y Hx Hy E. apply Nat.eqb_eq in E. assert (x = y) as ->; [|reflexivity]. apply OB; [| |exact E]; cbn [participants flat_map]; apply in_or_app; [auto|apply in_app_iff in Hy; exact Hy]. }
    fold (enabled_children ctx r). rewrite !filter_app.
    rewrite (@filter_firsts _ pat_eq (fun p => negb (pt_disabled p ctx)) (flat_map (@rb_patterns Ctx) (enabled_children ctx r)) (rb_patterns r) HP).
    rewrite (@flat_map_filter_map _ _ _ (fun p => negb (pt_disabled p ctx)) (@rb_patterns Ctx) (drop_disabled ctx) (@rb_patterns Ctx)) by reflexivity.
    set (fl := filter (fun p : pat Ctx => negb (pt_disabled p ctx)) (rb_patterns r)).
    assert (filter (fun p : pat Ctx => negb (pt_disabled p ctx)) fl = fl) as -> by (apply filter_all; intros p Hp; apply filter_In in Hp; tauto).
    f_equal. apply filter_all. intros p Hp. apply firsts_incl in Hp. apply in_flat_map in Hp as (c & Hc & Hp). apply in_map_iff in Hc as (c0 & <- & _).
    simpl in Hp. apply filter_In in Hp. tauto. }
  unfold rb_matches, matches_patterns, execute_rules. rewrite ER, EK. simpl.
  destruct (rb_disabled r ctx); [reflexivity|]. rewrite (run_patterns_filter ctx input (effective_patterns ctx r)), (run_patterns_filter ctx input (effective_patterns ctx (prune ctx r))), EPT.
  reflexivity.
Qed.
(** ... but a child's own children never contribute, enabled or not *)
Theorem C86_children_of_children_ignored : forall Ctx R env perm (bh : Ctx -> behav found R) isinst check (r : rb Ctx) ctx input,
  rb_matches env perm bh isinst check r ctx input = rb_matches env perm bh isinst check (one_level r) ctx input.
Proof.
  intros Ctx R env perm bh isinst check r ctx input.
  assert (EC : forall A (g : rb Ctx -> A -> A), (forall c x, g (Rb (rb_disabled c) (rb_patterns c) (rb_rules c) (rb_keys c) []) x = g c x) -> forall l acc,
    fold_left (fun a c => g c a) (map (fun c => Rb (rb_disabled c) (rb_patterns c) (rb_rules c) (rb_keys c) []) l) acc = fold_left (fun a c => g c a) l acc).
  { intros A g Hg. induction l as [|c l IH]; intro acc; simpl; [reflexivity|]. now rewrite Hg, IH. }
  assert (effective_patterns ctx (one_level r) = effective_patterns ctx r) as E1.
  { apply (EC _ (fun child ps => if rb_disabled child ctx then ps else extend_safe pat_eq (fun _ => true) ps (rb_patterns child))). reflexivity. }
  assert (effective_rules env ctx (one_level r) = effective_rules env ctx r) as E2.
  { apply (EC _ (fun child ps => if rb_disabled child ctx then ps else extend_safe (rule_eq env) (fun _ => true) ps (rb_rules child))). reflexivity. }
  assert (effective_keys ctx (one_level r) = effective_keys ctx r) as E3.
  { apply (EC _ (fun child ks => if rb_disabled child ctx then ks else merge_keys ks (rb_keys child))). reflexivity. }
  unfold rb_matches, matches_patterns, execute_rules. rewrite E1, E2, E3. reflexivity.
Qed.

(** ** C48 *)
Definition fresh (input : pstr) (keys : dict pstr key) : found :=
  Found 0 (empty_coll KMatches (Some input)) (empty_coll KMarkers (Some input)) keys.
Lemma stage_del input keys outs n' :
  let f := stage_result (fresh input keys) outs n' in
  c_del (fd_matches f) = filter (fun m => negb (m_marker m)) (concat outs) /\ c_del (fd_markers f) = filter m_marker (concat outs)
  /\ lookups_agree (fd_matches f) /\ lookups_agree (fd_markers f).
Proof.
  intro f. unfold f, stage_result, fresh. cbn [fd_matches fd_markers].
  assert (Forall (fun m => accepts KMatches m = true) (filter not_marker (concat outs))) as A1 by (apply Forall_forall; intros m Hm; apply filter_In in Hm; tauto).
  assert (Forall (fun m => accepts KMarkers m = true) (filter m_marker (concat outs))) as A2 by (apply Forall_forall; intros m Hm; apply filter_In in Hm; tauto).
  destruct (@reached_ok KMatches (Some input) _ (appends_acceptable A1 []) (appends_no_assignment _)) as (I1 & D1 & _).
  destruct (@reached_ok KMarkers (Some input) _ (appends_acceptable A2 []) (appends_no_assignment _)) as (I2 & D2 & _).
  unfold reached in *. rewrite appends_list in D1, D2. simpl in D1, D2.
  split; [exact D1|]. split; [exact D2|]. split; apply Inv_agree; assumption.
Qed.
(** The pattern stage of a call: every match returned by an enabled pattern goes to exactly one
    of the two collections, in order, according to its [marker] attribute. *)
Theorem C87_separated : forall Ctx (ctx : Ctx) (r : rb Ctx) input keys,
  rb_disabled r ctx = false ->
  (forall f, matches_patterns ctx input r (fresh input keys) = Ok f ->
     exists outs n', yields ctx input (effective_patterns ctx r) 0 outs n'
       /\ c_del (fd_matches f) = filter (fun m => negb (m_marker m)) (concat outs) /\ c_del (fd_markers f) = filter m_marker (concat outs)
       /\ lookups_agree (fd_matches f) /\ lookups_agree (fd_markers f))
  /\ (forall outs n', yields ctx input (effective_patterns ctx r) 0 outs n' ->
     exists f, matches_patterns ctx input r (fresh input keys) = Ok f
       /\ c_del (fd_matches f) = filter (fun m => negb (m_marker m)) (concat outs) /\ c_del (fd_markers f) = filter m_marker (concat outs)).
Proof.
  intros Ctx ctx r input keys D. unfold matches_patterns. rewrite D.
  destruct (@run_patterns_spec Ctx ctx input (effective_patterns ctx r) (fresh input keys) eq_refl eq_refl) as [A B]. split.
  - intros f E. destruct (A f E) as (outs & n' & Y & ->). exists outs, n'. split; [exact Y|]. apply stage_del.
  - intros outs n' Y. eexists. split; [apply B; exact Y|]. destruct (stage_del input keys outs n') as (E1 & E2 & _). split; [exact E1|exact E2].
Qed.
(** The matches of a string or regex pattern are all markers, or none is, as the pattern says *)
Theorem C87_marker_option : forall p src n input n' outs raws m,
  no_processor p -> ~ functional src -> pattern_matches p src n input = Ok (n', (outs, raws)) -> In m outs ->
  (m_marker m = true <-> mo_marker (po_kw p) = Some true).
Proof.
  intros p src n input n' outs raws m N HM H Hm. destruct (returned N H) as (found & F & R).
  pose proof (found_made HM F) as MD.
  destruct (R m Hm) as (o & i & Ho & [(E & S & _)|(c & P & E & Hc & S & _)]); destruct (MD o Ho) as [M1 M2];
    [|specialize (M2 c Hc)]; destruct S as [(_ & _ & _ & -> & _) _ _ _ _].
  - destruct M1 as (_ & _ & -> & _). destruct (mo_marker (po_kw p)) as [[]|]; simpl; intuition congruence.
  - destruct M2 as (_ & _ & -> & _). destruct (mo_marker (po_kw p)) as [[]|]; simpl; intuition congruence.
Qed.

(** A marker regex pattern raises AssertionError as soon as a group captures some text *)
Lemma append_children_marker : forall cs main, Forall (fun c => 0 <= mlen c) cs -> Forall (fun c => m_marker c = true) cs ->
  append_children main cs = if existsb mtrue cs then Err AssertionError else Ok main.
Proof.
  induction cs as [|c r IH]; intros main F1 F2; cbn [append_children existsb]; [reflexivity|].
  inversion F1; inversion F2; subst. unfold mbool. destruct (Z.ltb_spec (mlen c) 0); [lia|]. fold (mtrue c).
  destruct (mtrue c); [now rewrite H5|]. apply IH; auto.
Qed.
Lemma sequence_err {A B} (f : A -> res B) e : forall l, (forall x, In x l -> f x = Err e \/ exists y, f x = Ok y) -> (exists x, In x l /\ f x = Err e) -> sequence f l = Err e.
Proof.
  induction l as [|x l IH]; intros H1 (z & Hz & E); [contradiction|]. simpl. destruct (H1 x (or_introl eq_refl)) as [Ex|(y & Ex)]; rewrite Ex; [reflexivity|].
  destruct Hz as [->|Hz]; [congruence|]. rewrite IH; [reflexivity|intros; apply H1; right; assumption|eauto].
Qed.
Definition captures_text (repeated : bool) (rx : regex) (input : pstr) : Prop :=
  exists o g, In o (rx_finditer rx input) /\ In g (captures repeated rx o) /\ nonempty_span (snd g) = true.
Theorem C87_regex_groups_refused : forall p repeated rxs n input,
  mo_marker (po_kw p) = Some true -> Forall (fun rx => engine_ok rx input) rxs -> Exists (fun rx => captures_text repeated rx input) rxs ->
  pattern_matches p (SRegex repeated rxs) n input = Err AssertionError.
Proof.
  intros p repeated rxs n input HM F X. simpl. unfold re_matches, run_pattern.
  assert (forall rx, engine_ok rx input -> forall o, In o (rx_finditer rx input) ->
    re_one p repeated (rx_groups rx) input o = if existsb (fun g => nonempty_span (snd g)) (captures repeated rx o) then Err AssertionError
      else Ok (new_match 0 (fst (oc_span o)) (snd (oc_span o)) (filter_match_kwargs (po_kw p) false) (po_id p) input)) as One.
  { intros rx E o Ho. unfold engine_ok in E. rewrite Forall_forall in E. destruct (E o Ho) as (O1 & O2 & O3). unfold re_one.
    set (main := new_match 0 (fst (oc_span o)) (snd (oc_span o)) (filter_match_kwargs (po_kw p) false) (po_id p) input).
    set (child := fun g : option pstr * (Z * Z) => set_parent (set_name (new_match 0 (fst (snd g)) (snd (snd g)) (filter_match_kwargs (po_kw p) true) (po_id p) input)
                                      (match fst g with Some nm => Some nm | None => m_name main end)) (Some (shell main))).
    assert (flat_map (fun g => re_child p input main g repeated) (combine (rx_groups rx) (oc_groups o)) = map child (captures repeated rx o)) as EC.
    { unfold captures. rewrite <- flat_map_map_out. apply flat_map_ext_in'. intros [nm caps] Hin. apply in_combine_r in Hin.
      rewrite Forall_forall in O3. unfold re_child. simpl. rewrite (@group_spans_taken input); auto. rewrite map_map. reflexivity. }
    assert (Forall (fun g => span_ok input (snd g)) (captures repeated rx o)) as OK.
    { apply Forall_forall. intros g Hg. unfold captures in Hg. apply in_flat_map in Hg as ([nm caps] & Hc & Hg). apply in_combine_r in Hc.
      rewrite Forall_forall in O3. specialize (O3 caps Hc). rewrite Forall_forall in O3. apply in_map_iff in Hg as (sp & <- & Hsp). simpl in *.
      apply O3. destruct repeated; auto. destruct (rev caps) eqn:Er; [contradiction|]. destruct Hsp as [<-|[]]. apply in_rev. rewrite Er. now left. }
    rewrite EC. rewrite append_children_marker.
    - rewrite Forall_forall in OK. assert (existsb mtrue (map child (captures repeated rx o)) = existsb (fun g => nonempty_span (snd g)) (captures repeated rx o)) as ->; [|reflexivity].
      clear EC. induction (captures repeated rx o) as [|g l IH]; simpl; [reflexivity|]. rewrite IH by (intros; apply OK; right; assumption). f_equal.
      unfold mtrue, mlen, nonempty_span, child. simpl. destruct (Z.eqb_spec (snd (snd g) - fst (snd g)) 0), (Z.eqb_spec (fst (snd g)) (snd (snd g))); simpl; auto; lia.
    - rewrite Forall_forall in *. intros c Hc. apply in_map_iff in Hc as (g & <- & Hg). destruct (OK g Hg). unfold mlen, child. simpl. lia.
    - apply Forall_forall. intros c Hc. apply in_map_iff in Hc as (g & <- & Hg). unfold child. simpl. now rewrite HM. }
  assert (forall rx, In rx rxs -> re_match p repeated rx input = Err AssertionError \/ exists ms, re_match p repeated rx input = Ok ms) as Each.
  { intros rx Hrx. rewrite Forall_forall in F. specialize (F rx Hrx). specialize (One rx F). unfold re_match.
    assert (sequence (re_one p repeated (rx_groups rx) input) (rx_finditer rx input) = Err AssertionError
      \/ exists ms, sequence (re_one p repeated (rx_groups rx) input) (rx_finditer rx input) = Ok ms /\ Forall (fun m => 0 <= mlen m) ms) as [-> | (ms & -> & L)].
    - unfold engine_ok in F. clear X HM. induction (rx_finditer rx input) as [|o l IH]; simpl; [right; exists []; split; constructor|].
      inversion F; subst. rewrite One by (left; reflexivity). destruct (existsb _ _); [left; reflexivity|].
      destruct IH as [-> | (ms & -> & L)]; [assumption|intros; apply One; right; assumption|left; reflexivity|right].
      eexists. split; [reflexivity|]. constructor; [|exact L]. unfold mlen. simpl. destruct H1 as [[? ?] _]. lia.
    - left. reflexivity.
    - right. rewrite keep_truthy_ok by exact L. eauto. }
  rewrite (@sequence_err _ _ (fun sub => re_match p repeated sub input) AssertionError); [reflexivity|exact Each|].
  apply Exists_exists in X as (rx & Hrx & o & g & Ho & Hg & Ne). exists rx. split; [exact Hrx|]. unfold re_match.
  rewrite Forall_forall in F. specialize (One rx (F rx Hrx)).
  rewrite (@sequence_err _ _ (re_one p repeated (rx_groups rx) input) AssertionError); [reflexivity| |].
  - intros x Hx. rewrite One by exact Hx. destruct (existsb _ _); [auto|right; eauto].
  - exists o. split; [exact Ho|]. rewrite One by exact Ho. assert (existsb (fun g => nonempty_span (snd g)) (captures repeated rx o) = true) as ->; [|reflexivity].
    apply existsb_exists. eauto.
Qed.

(** ** C49: the default rules *)
Lemma default_schedule perm : (forall l, Permutation l (perm l)) -> schedule default_env perm default_rules = ([0; 1]%nat, Ok tt).
Proof.
  intro H. assert (perm [] = []) as P0 by (apply Permutation_nil, H).
  assert (forall x, perm [x] = [x]) as P1 by (intro x; apply Permutation_length_1_inv, H).
  unfold schedule. change (map snd (groupby (r_prio default_env) (sorted_rules default_env default_rules))) with [[0]; [1]]%nat.
  assert (forall r, (r = 0 \/ r = 1)%nat -> run_group default_env perm default_rules [r] = ([r], Ok tt)) as G.
  { intros r Hr. unfold run_group. cbn [dup_class inb existsb orb]. unfold group_graph. cbn [map]. unfold toposort, no_self, complete, extra_items.
    cbn [map fst snd dep_classes r_deps default_env flat_map fold_left filter set_union app]. rewrite P0. cbn [map app length topo_loop ready filter snd fst].
    rewrite P1. destruct Hr as [-> | ->]; reflexivity. }
  unfold run_groups. rewrite !G by auto. reflexivity.
Qed.
Lemma conflict_inv solvers order c c' : Inv no_ghost c -> conflict_rule solvers order c = (c', Ok tt) ->
  exists c1 rm, conflict_when solvers c = (c1, Ok rm) /\ Inv no_ghost c1 /\ c_del c1 = c_del c /\ Inv no_ghost c'
    /\ drop_ret (remove_then c1 (Many (order rm))) = (c', Ok tt).
Proof.
  intros HI E. unfold conflict_rule in E. destruct (conflict_when solvers c) as [c1 [rm|e]] eqn:Ew; [|discriminate]. exists c1, rm. split; [reflexivity|].
  assert (obs c c1) as Ho.
  { unfold conflict_when in Ew. change c1 with (fst (c1, @Ok (list mtch) rm)). rewrite <- Ew. generalize (@nil mtch). 
    assert (forall ms c2 l, obs c c2 -> obs c (fst (conflict_loop solvers c2 l ms))) as L; [|intro; apply L, obs_refl].
    induction ms as [|m ms IH]; intros c2 l Ho; simpl; [exact Ho|]. destruct (q_conflicting_rel m Ho) as [A _]. destruct (q_conflicting c2 m) as [c3 [confl|e]]; simpl in *; [|exact A].
    destruct (mark_all solvers l m (by_length confl)); [apply IH, A|exact A]. }
  assert (Inv no_ghost c1) as HI1 by (eapply obs_Inv; eassumption). split; [exact HI1|]. split; [apply Ho|].
  split; [|exact E]. destruct (@remove_many_ok no_ghost (order rm) c1 HI1) as (c2 & E2 & _ & HI2 & _).
  unfold remove_then, drop_ret in E. rewrite E2 in E. simpl in E. injection E as <-. exact HI2.
Qed.
Lemma default_exec solvers order perm (f : found) c1 c2 : an_order order -> (forall l, Permutation l (perm l)) -> Inv no_ghost (fd_matches f) ->
  conflict_rule solvers order (fd_matches f) = (c1, Ok tt) -> private_rule c1 = (c2, Ok tt) ->
  exists f' ret, execute_all_rules default_env perm (default_behav solvers order) default_rules f = (f', Ok ret)
    /\ c_del (fd_matches f') = c_del c2 /\ fd_markers f' = fd_markers f /\ fd_keys f' = fd_keys f /\ Inv no_ghost (fd_matches f').
Proof.
  intros Ho Hp HI Ec Epr. destruct (conflict_inv HI Ec) as (c0 & rm & Ew & HI0 & Hd0 & HI1 & Er).
  unfold execute_all_rules. rewrite default_schedule by exact Hp.
  assert (exists cc o, execute_rule (default_behav solvers order) 0 f = (with_matches f cc, Ok o) /\ c_del cc = c_del c1 /\ Inv no_ghost cc) as (cc & o & Eo & Hdc & HIc).
  { unfold execute_rule. cbn [default_behav b_enabled b_when b_then b_truthy]. rewrite Ew. destruct rm as [|x rm].
    - exists c0, None. split; [reflexivity|]. split; [|exact HI0]. assert (order [] = []) as E0 by (apply Permutation_nil, Ho). rewrite E0 in Er. simpl in Er. now injection Er as ->.
    - exists c1, (Some (x :: rm)). cbn [fd_matches with_matches]. rewrite Er. split; [reflexivity|]. split; [reflexivity|exact HI1]. }
  destruct (@remove_many_ok no_ghost (filter m_private (c_del c1)) c1 HI1) as (c2' & E2 & _ & HI2 & _ & Hd2).
  unfold private_rule, remove_then, drop_ret in Epr. rewrite E2 in Epr. simpl in Epr. injection Epr as ->.
  destruct (@remove_many_ok no_ghost (filter m_private (c_del cc)) cc HIc) as (c3 & E3 & _ & HI3 & _ & Hd3).
  assert (exists c4 o4, execute_rule (default_behav solvers order) 1 (with_matches f cc) = (with_matches f c4, Ok o4) /\ c_del c4 = c_del c2 /\ Inv no_ghost c4)
    as (c4 & o4 & Eo4 & Hd4 & HI4).
  { unfold execute_rule. cbn [default_behav b_enabled b_when b_then b_truthy fd_matches with_matches]. destruct (filter m_private (c_del cc)) as [|y ys] eqn:Ef.
    - exists cc, None. split; [reflexivity|]. rewrite Hd2, <- Hdc, Ef. auto.
    - exists c3, (Some (y :: ys)). unfold remove_then. rewrite E3. split; [reflexivity|]. rewrite Hd3, Hd2, <- Hdc, Ef. auto. }
  cbn [exec]. rewrite Eo, Eo4. eexists _, _. split; [reflexivity|]. auto.
Qed.

(** A public match stays iff no longer public match overlaps it *)
Definition outlasts (l : list mtch) (x : mtch) : bool :=
  negb (m_private x) && negb (existsb (fun y => negb (m_private y) && overlapsb x y && (mlen x <? mlen y)) l).
Theorem C49_default_rules : forall Ctx (ctx : Ctx) (r : rb Ctx) input solvers order perm isinst check outs n',
  an_order order -> (forall l, Permutation l (perm l)) ->
  rb_disabled r ctx = false -> effective_rules default_env ctx r = default_rules ->
  yields ctx input (effective_patterns ctx r) 0 outs n' ->
  let ms := filter (fun m => negb (m_marker m)) (concat outs) in
  NoDup (map m_id ms) -> Forall (fun m => m_solver m = None /\ m_parent m = None /\ nonempty m) ms -> respects_eq_on ms m_private ->
  (check = true -> Forall (fun m => violates isinst (effective_keys ctx r) m = false) ms) ->
  exists f, rb_matches default_env perm (fun _ => default_behav solvers order) isinst check r ctx input = Ok f
    /\ c_del (fd_matches f) = filter (outlasts ms) ms /\ c_del (fd_markers f) = filter m_marker (concat outs)
    /\ fd_keys f = effective_keys ctx r /\ lookups_agree (fd_matches f).
Proof.
  intros Ctx ctx r input solvers order perm isinst check outs n' Ho Hp D ER Y ms ND Hm Hpr Hchk.
  rewrite Forall_forall in Hm.
  set (ops := map OAppend ms).
  assert (Forall (fun m => accepts KMatches m = true) ms) as Acc by (apply Forall_forall; intros m Hin; apply filter_In in Hin; tauto).
  assert (Lst : list_run [] ops = ms) by (unfold ops; apply appends_list).
  assert (Hnd : all_handed ops = ms) by apply appends_handed.
  assert (identities ms) as Hid.
  { clear - ND. intros a b Ha Hb E. revert Ha Hb. induction ms as [|x l IH]; intros Ha Hb; [contradiction|]. simpl in ND. inversion ND; subst.
    destruct Ha as [->|Ha], Hb as [->|Hb]; auto; exfalso; apply H1; [rewrite E|rewrite <- E]; now apply in_map. }
  assert (situation KMatches ops) as Hs.
  { constructor; try rewrite Hnd; try rewrite Lst; auto.
    - apply appends_acceptable, Acc.
    - apply appends_no_assignment.
    - intros m Hin _. apply Hm, Hin. }
  destruct (@C37_longest_wins solvers order KMatches (Some input) ops Hs) as (c1 & E1 & _ & Hd1).
  { unfold no_custom_solver. rewrite Hnd. apply Forall_forall. intros m Hin. apply Hm, Hin. }
  { exact Ho. }
  { rewrite Hnd. apply Forall_forall. intros m Hin. apply Hm, Hin. }
  { rewrite Lst. apply (NoDup_map_inv m_id), ND. }
  rewrite Lst in Hd1.
  destruct (@reached_ok KMatches (Some input) ops (sit_ok Hs) (sit_na Hs)) as (HI & Hd & _). unfold reached in *. rewrite Lst in Hd.
  destruct (conflict_inv HI E1) as (_ & _ & _ & _ & _ & HI1 & _).

  assert (exists c2, private_rule c1 = (c2, Ok tt) /\ c_del c2 = filter (outlasts ms) ms) as (c2 & E2 & Hd2).
  { destruct (@remove_many_ok no_ghost (filter m_private (c_del c1)) c1 HI1) as (c2 & E2 & _ & _ & _ & Hd2). exists c2.
    split; [unfold private_rule, remove_then, drop_ret; rewrite E2; reflexivity|]. rewrite Hd2.
    rewrite (@take_out_all_filter (fun x => negb (m_private x))).
    - rewrite Hd1, filter_filter. apply filter_ext_in'. intros x Hx. unfold outlasts. destruct (m_private x); cbn [negb andb]; rewrite ?andb_true_r, ?andb_false_r, ?andb_true_l, ?orb_false_l; try reflexivity.
    - intros x Hx. assert (In x ms) as Hxm by (rewrite Hd1 in Hx; apply filter_In in Hx; tauto). destruct (m_private x) eqn:Ep; simpl.
      + unfold countb. rewrite filter_filter. rewrite (filter_ext_in' (fun z => m_private z && meq x z) (meq x)); [lia|].
        intros z Hz. assert (In z ms) as Hzm by (rewrite Hd1 in Hz; apply filter_In in Hz; tauto).
        destruct (meq x z) eqn:Ez; [|apply andb_false_r]. rewrite <- (Hpr x z Hxm Hzm Ez), Ep. reflexivity.
      + apply countb_zero. intros z Hz. apply filter_In in Hz as [Hz Pz]. assert (In z ms) as Hzm by (rewrite Hd1 in Hz; apply filter_In in Hz; tauto).
        destruct (meq x z) eqn:Ez; [|reflexivity]. rewrite (Hpr x z Hxm Hzm Ez) in Ep. congruence. }
  unfold rb_matches, matches_patterns, execute_rules. rewrite D.
  destruct (@run_patterns_spec Ctx ctx input (effective_patterns ctx r) (fresh input (effective_keys ctx r)) eq_refl eq_refl) as [_ B].
  change {| fd_next := 0; fd_matches := empty_coll KMatches (Some input); fd_markers := empty_coll KMarkers (Some input); fd_keys := effective_keys ctx r |}
    with (fresh input (effective_keys ctx r)). rewrite (B outs n' Y).
  set (f1 := stage_result (fresh input (effective_keys ctx r)) outs n').
  assert (fd_matches f1 = run (empty_coll KMatches (Some input)) ops) as Ef1 by reflexivity.
  destruct (stage_del input (effective_keys ctx r) outs n') as (S1 & S2 & _). fold f1 in S1, S2.
  assert ((if check then check_declared_keys isinst (fd_keys f1) (fd_matches f1) else Ok tt) = Ok tt) as ->.
  { destruct check; [|reflexivity]. unfold check_declared_keys. rewrite S1. change (fd_keys f1) with (effective_keys ctx r). specialize (Hchk eq_refl).
    fold ms. assert (existsb (violates isinst (effective_keys ctx r)) ms = false) as ->; [|reflexivity]. apply existsb_false_iff. rewrite Forall_forall in Hchk. exact Hchk. }
  rewrite ER. rewrite <- Ef1 in HI, E1.
  destruct (@default_exec solvers order perm f1 c1 c2 Ho Hp HI E1 E2) as (f' & ret & Ex & X1 & X2 & X3 & X4). rewrite Ex.
  exists f'. split; [reflexivity|]. split; [congruence|]. split; [rewrite X2; exact S2|]. split; [rewrite X3; reflexivity|apply Inv_agree, X4].
Qed.

(** ** C49: string patterns *)
Record strpat := StrPat { sp_opts : popts; sp_lower : pstr -> pstr; sp_search : string_opts; sp_texts : list pstr }.
Definition str_pat {Ctx} (info : pinfo) (sp : strpat) : pat Ctx :=
  Pat (po_id (sp_opts sp)) (fun _ => false) (fun _ => pattern_matches (sp_opts sp) (SString (sp_lower sp) (sp_search sp) (sp_texts sp))) info.
(** [Rebulk().string('text', ...)] without options changing which matches are returned *)
Record ordinary (sp : strpat) : Prop := {
  od_plain : plain (sp_opts sp);
  od_case : so_ignore_case (sp_search sp) = false;
  od_texts : Forall (fun t => t <> []) (sp_texts sp);
  od_marker : given (mo_marker (po_kw (sp_opts sp))) false = false;
  od_private : given (mo_private (po_kw (sp_opts sp))) false = false /\ po_private_names (sp_opts sp) = [] /\ po_private_parent (sp_opts sp) = false;
  od_solver : given (mo_solver (po_kw (sp_opts sp))) None = None
}.
(** [spans] are the occurrences of the texts of [sp], text by text, from left to right *)
Definition found_by (input : pstr) (sp : strpat) (spans : list (Z * Z)) : Prop :=
  exists ls, Forall2 (fun sub l => greedy input sub (so_start (sp_search sp)) (so_end (sp_search sp)) l) (sp_texts sp) ls
    /\ spans = concat (map (fun sl => map (fun i => (i, i + zlen (fst sl))) (snd sl)) (combine (sp_texts sp) ls)).

Lemma string_returned sp n input n' outs raws m : ordinary sp ->
  pattern_matches (sp_opts sp) (SString (sp_lower sp) (sp_search sp) (sp_texts sp)) n input = Ok (n', (outs, raws)) -> In m outs ->
  m_marker m = false /\ m_private m = false /\ m_solver m = None /\ m_parent m = None.
Proof.
  intros [PL C T M (V1 & V2 & V3) S] H Hm. pose proof PL as (N & _). destruct (returned N H) as (found & F & R).
  assert (~ functional (SString (sp_lower sp) (sp_search sp) (sp_texts sp))) as NF by (intros []). pose proof (found_made NF F) as MD.
  destruct (R m Hm) as (o & i & Ho & [(E & St & _)|(c & P & E & Hc & _)]).
  - destruct (MD o Ho) as [(_ & _ & M3 & M4 & _ & M6 & _) _]. destruct St as [(_ & _ & _ & A4 & A5 & _) _ A _ _].
    split; [congruence|]. split; [|split; [congruence|exact E]]. destruct (m_private m) eqn:Ep; [|reflexivity]. exfalso.
    destruct (proj1 A eq_refl) as [X|[(nm & _ & _ & X)|[[_ X]|[X _]]]]; [congruence|rewrite V2 in X; contradiction|congruence|discriminate].
  - exfalso. simpl in F. apply in_concat in Ho as (ms & Hms & Ho). clear - F Hms Ho Hc. induction F; [contradiction|]. destruct Hms as [->|Hms]; auto.
    apply string_match_raw in H. rewrite Forall_forall in H. destruct (H o Ho) as (_ & E & _). rewrite E in Hc. contradiction.
Qed.
Theorem C49_string_patterns : forall Ctx (ctx : Ctx) input solvers order perm isinst check (info : strpat -> pinfo) sps,
  an_order order -> (forall l, Permutation l (perm l)) -> Forall ordinary sps ->
  exists f outss,
    rb_matches default_env perm (fun _ => default_behav solvers order) isinst check (simple (map (fun sp => str_pat (info sp) sp) sps)) ctx input = Ok f
    (* what each pattern finds *)
    /\ Forall2 (fun sp outs => found_by input sp (map m_span outs)) sps outss
    (* the result: what is not overlapped by something longer, in order *)
    /\ c_del (fd_matches f) = filter (fun x => negb (existsb (fun y => overlapsb x y && (mlen x <? mlen y)) (concat outss))) (concat outss)
    /\ c_del (fd_markers f) = [] /\ lookups_agree (fd_matches f)
    /\ forall m, In m (c_del (fd_matches f)) -> m_private m = false /\ 0 <= m_start m < m_end m /\ m_end m <= zlen input
                 /\ exists sp text, In sp sps /\ In text (sp_texts sp) /\ m_raw m = VStr text.
Proof.
  intros Ctx ctx input solvers order perm isinst check info sps Ho Hp F.
  set (ps := map (fun sp => @str_pat Ctx (info sp) sp) sps).
  assert (exists outss n', yields ctx input ps 0 outss n' /\ Forall2 (fun sp outs => found_by input sp (map m_span outs)) sps outss
    /\ Forall2 (fun sp outs => forall m, In m outs -> m_marker m = false /\ m_private m = false /\ m_solver m = None /\ m_parent m = None
                  /\ 0 <= m_start m < m_end m /\ m_end m <= zlen input /\ exists text, In text (sp_texts sp) /\ m_raw m = VStr text) sps outss)
    as (outss & n' & Y & F1 & F2).
  { unfold ps. generalize 0%nat. clear ps. induction F as [|sp sps O F IH]; intro n; simpl.
    - exists [], n. split; constructor; auto.
    - pose proof O as [PL C T M V S].
      destruct (@C22_string_exact (sp_opts sp) (sp_lower sp) (sp_search sp) (sp_texts sp) n input PL C T) as (n1 & outs & raws & ls & E & L & Sp).
      destruct (IH n1) as (outss & n' & Y & F1 & F2). exists (outs :: outss), n'. split; [econstructor; [reflexivity|exact E|exact Y]|].
      split; [constructor; [exists ls; auto|exact F1]|]. constructor; [|exact F2]. intros m Hm.
      destruct (string_returned O E Hm) as (X1 & X2 & X3 & X4).
      destruct (@C22_string_text (sp_opts sp) (sp_lower sp) (sp_search sp) (sp_texts sp) n input n1 outs raws m (proj1 PL) C T E Hm)
        as (sub & i & Hs & _ & _ & _ & B1 & B2 & B3).
      repeat (split; [assumption|]). exists sub. auto. }
  assert (forall m, In m (concat outss) -> m_marker m = false /\ m_private m = false /\ m_solver m = None /\ m_parent m = None
                  /\ 0 <= m_start m < m_end m /\ m_end m <= zlen input /\ exists sp text, In sp sps /\ In text (sp_texts sp) /\ m_raw m = VStr text) as G.
  { intros m Hm. apply in_concat in Hm as (outs & Hout & Hm). clear - F2 Hout Hm. induction F2; [contradiction|]. destruct Hout as [->|Hout].
    - destruct (H m Hm) as (A1 & A2 & A3 & A4 & A5 & A6 & text & A7 & A8). repeat (split; [assumption|]). exists x, text. split; [now left|auto].
    - destruct (IHF2 Hout) as (A1 & A2 & A3 & A4 & A5 & A6 & sp & text & A7 & A8). repeat (split; [assumption|]). exists sp, text. split; [now right|auto]. }
  assert (filter (fun m => negb (m_marker m)) (concat outss) = concat outss) as E1.
  { apply filter_all. intros m Hm. destruct (G m Hm) as (-> & _). reflexivity. }
  assert (filter m_marker (concat outss) = []) as E2.
  { apply filter_nil_iff. intros m Hm. apply (G m Hm). }
  destruct (@C49_default_rules Ctx ctx (simple ps) input solvers order perm isinst check outss n' Ho Hp eq_refl eq_refl Y) as (f & Ef & D1 & D2 & _ & D3).
  - rewrite E1. destruct (@yields_ids Ctx ctx input ps 0 outss n' Y) as (d & _ & Sub); [|eapply sublist_NoDup; [exact Sub|apply seq_NoDup]].
    intros p k k' out raws Hin E. unfold ps in Hin. apply in_map_iff in Hin as (sp & <- & Hsp). rewrite Forall_forall in F.
    destruct (F sp Hsp) as [((N1 & N2 & N3) & _) _ _ _ _ _]. eapply run_pattern_ids in E; eauto.
    intros sub ms _ Em. apply string_match_raw in Em. eapply Forall_impl; [|exact Em]. intros z (Z1 & _). exact Z1.
  - rewrite E1. apply Forall_forall. intros m Hm. destruct (G m Hm) as (_ & _ & A & B & C1 & _). repeat split; auto. unfold nonempty. lia.
  - rewrite E1. intros a b Ha Hb _. destruct (G a Ha) as (_ & -> & _). destruct (G b Hb) as (_ & -> & _). reflexivity.
  - intros _. rewrite E1. apply Forall_forall. intros m Hm. unfold violates. simpl. destruct (m_name m) as [[|]|]; reflexivity.
  - exists f, outss. split; [exact Ef|]. split; [exact F1|]. rewrite E1 in D1. 
    assert (c_del (fd_matches f) = filter (fun x => negb (existsb (fun y => overlapsb x y && (mlen x <? mlen y)) (concat outss))) (concat outss)) as D1'.
    { rewrite D1. apply filter_ext_in'. intros x Hx. unfold outlasts. destruct (G x Hx) as (_ & -> & _). simpl. f_equal.
      clear - G. induction (concat outss) as [|y l IH]; simpl; [reflexivity|]. destruct (G y (or_introl eq_refl)) as (_ & -> & _). simpl. f_equal. apply IH. intros m Hm. apply G. now right. }
    split; [exact D1'|]. split; [congruence|]. split; [exact D3|]. intros m Hm. rewrite D1' in Hm. apply filter_In in Hm as [Hm _].
    destruct (G m Hm) as (_ & A & _ & _ & B & C1 & X). auto.
Qed.

(** ** C53: specification *)
(** a pattern can emit the name: one of its properties, its own name, a group of one of its
    expressions, a name a part of it can emit *)
Inductive can_emit : pinfo -> pstr -> Prop :=
| emit_property i n : In n (dkeys (pi_properties i)) -> can_emit i n
| emit_name i n : pi_name i = Some n -> n <> [] -> can_emit i n
| emit_group i gs g n : pi_shape i = ShRegex gs -> In g gs -> In n g -> can_emit i n
| emit_part i parts p n : pi_shape i = ShChain parts -> In p parts -> can_emit p n -> can_emit i n.
Definition family {Ctx} (r : rb Ctx) : list (rb Ctx) := r :: rb_children r.
Definition declared_in {Ctx} (r : rb Ctx) (n : pstr) : Prop := exists q, In q (family r) /\ In n (dkeys (rb_keys q)).
Definition emitted_in {Ctx} (r : rb Ctx) (n : pstr) : Prop := exists q p, In q (family r) /\ In p (rb_patterns q) /\ can_emit (pt_info p) n.
(** order of strings: by the first code point which differs, a prefix being smaller *)
Inductive str_before : pstr -> pstr -> Prop :=
| before_prefix a c t : str_before a (a ++ c :: t)
| before_differ p x y a b : (x < y)%N -> str_before (p ++ x :: a) (p ++ y :: b).

(** ** C53: proofs *)
Lemma pstr_lt_before : forall a b, pstr_lt a b = true <-> str_before a b.
Proof.
  assert (forall a b, str_before a b -> forall x, str_before (x :: a) (x :: b)) as Cons.
  { intros a b [a' c t|p x y a' b' L] z; [exact (before_prefix (z :: a') c t)|exact (before_differ (z :: p) a' b' L)]. }
  assert (forall a b, str_before a b -> match a, b with _, [] => False | [], _ :: _ => True | x :: a', y :: b' => (x < y)%N \/ (x = y /\ str_before a' b') end) as Inv0.
  { intros a b [a' c t|p x y a' b' L].
    - destruct a' as [|z a']; simpl; [exact I|]. right. split; [reflexivity|constructor].
    - destruct p as [|z p]; simpl; [left; exact L|]. right. split; [reflexivity|constructor; exact L]. }
  induction a as [|x a IH]; intros [|y b]; simpl.
  - split; [discriminate|]. intro H. apply Inv0 in H. destruct H.
  - split; [intros _; apply (before_prefix [] y b)|auto].
  - split; [discriminate|]. intro H. apply Inv0 in H. destruct H.
  - rewrite orb_true_iff, andb_true_iff, IH, N.ltb_lt, N.eqb_eq. split.
    + intros [L|[-> H]]; [apply (before_differ [] a b L)|apply Cons, H].
    + intro H. apply Inv0 in H. exact H.
Qed.
Lemma pstr_lt_irrefl : forall a, pstr_lt a a = false.
Proof. induction a as [|x a IH]; simpl; [reflexivity|]. rewrite N.ltb_irrefl, N.eqb_refl, IH. reflexivity. Qed.
Lemma pstr_lt_trans : forall a b c, pstr_lt a b = true -> pstr_lt b c = true -> pstr_lt a c = true.
Proof.
  induction a as [|x a IH]; intros [|y b] [|z c] H1 H2; simpl in *; try congruence. revert H1 H2. rewrite !orb_true_iff, !andb_true_iff, !N.ltb_lt, !N.eqb_eq.
  intros [L|[-> H]] [L'|[-> H']]; [left; lia|left; assumption|left; assumption|right; split; [reflexivity|eapply IH; eassumption]].
Qed.
Lemma pstr_lt_total : forall a b, pstr_lt a b = false -> a = b \/ pstr_lt b a = true.
Proof.
  induction a as [|x a IH]; intros [|y b]; simpl; [auto|discriminate|auto|]. rewrite orb_false_iff, andb_false_iff, N.ltb_ge, N.eqb_neq.
  rewrite orb_true_iff, andb_true_iff, N.ltb_lt, N.eqb_eq. intros [L [N0|H]]; [right; left; lia|].
  destruct (N.eq_dec x y) as [->|N0]; [|right; left; lia]. destruct (IH b H) as [->|H2]; auto.
Qed.

Lemma producible_spec : forall i n, In n (producible_names i) <-> can_emit i n.
Proof.
  assert (forall i n, In n (str_truthy (pi_name i)) <-> pi_name i = Some n /\ n <> []) as T.
  { intros i n. destruct (pi_name i) as [[|ch nm]|]; simpl.
    - split; [contradiction|]. intros [E N0]. injection E as <-. congruence.
    - split; [intros [<-|[]]; split; [reflexivity|discriminate]|intros [E _]; left; congruence].
    - split; [contradiction|]. intros [E _]. discriminate. }
  (* induction on a bound of the nesting *)
  set (go := fix go (l : list pinfo) := match l with [] => [] | p :: r => producible_names p ++ go r end).
  assert (forall l n, In n (go l) <-> exists p, In p l /\ In n (producible_names p)) as Go.
  { induction l as [|p l IH]; intro n; simpl; [split; [contradiction|intros (? & [] & _)]|]. rewrite in_app_iff, IH. split.
    - intros [H|(q & ? & ?)]; [exists p|exists q]; auto.
    - intros (q & [->|Hq] & H); [auto|right; eauto]. }
  assert (forall i, producible_names i = dkeys (pi_properties i) ++ str_truthy (pi_name i)
            ++ match pi_shape i with ShRegex gs => concat gs | ShChain parts => go parts | _ => [] end) as Eq by (intros []; reflexivity).
  intros i n. split.
  - revert i n. fix IH 1. intros i n. rewrite Eq, !in_app_iff. intros [H|[H|H]]; [apply emit_property, H|apply T in H as [? ?]; now apply emit_name|].
    destruct i as [nm pr vals pv mk pn pc [texts|gs| |parts]]; cbn [pi_shape] in *; try contradiction.
    + apply in_concat in H as (g & Hg & H). now apply (@emit_group _ gs g).
    + assert (exists p, In p parts /\ can_emit p n) as (p & Hp & C).
      { clear - IH H. induction parts as [|p parts IHp]; simpl in H; [contradiction|]. apply in_app_iff in H as [H|H].
        - exists p. split; [left; reflexivity|apply IH, H].
        - destruct (IHp H) as (q & ? & ?). exists q. split; [right|]; assumption. }
      now apply (@emit_part _ parts p).
  - induction 1; rewrite Eq, !in_app_iff; auto.
    + right. left. apply T. auto.
    + right. right. rewrite H. apply in_concat. eauto.
    + right. right. rewrite H. apply Go. eauto.
Qed.

Lemma declared_fold {Ctx} : forall (cs : list (rb Ctx)) ks n,
  dfind (fold_left (fun ks child => merge_keys ks (rb_keys child)) cs ks) n = first_entry n (ks :: map (@rb_keys Ctx) cs).
Proof.
  induction cs as [|c cs IH]; intros ks n; simpl; [destruct (dfind ks n); reflexivity|]. rewrite IH. simpl. rewrite merge_keys_find. destruct (dfind ks n); reflexivity.
Qed.
Lemma dsetdefault_NoDup {V} (d : dict pstr V) k v : NoDup (dkeys d) -> NoDup (dkeys (dsetdefault d k v)).
Proof. intro H. unfold dsetdefault. destruct (dfind d k); [exact H|apply NoDup_dkeys_dset, H]. Qed.
Lemma merge_keys_NoDup {V} : forall (new keys : dict pstr V), NoDup (dkeys keys) -> NoDup (dkeys (merge_keys keys new)).
Proof. induction new as [|[k v] new IH]; intros keys H; simpl; [exact H|]. apply IH, dsetdefault_NoDup, H. Qed.
Lemma declared_NoDup {Ctx} : forall (cs : list (rb Ctx)) ks, NoDup (dkeys ks) -> NoDup (dkeys (fold_left (fun ks child => merge_keys ks (rb_keys child)) cs ks)).
Proof. induction cs as [|c cs IH]; intros ks H; simpl; [exact H|]. apply IH, merge_keys_NoDup, H. Qed.
Lemma first_entry_In {V} n : forall (ds : list (dict pstr V)), (exists v, first_entry n ds = Some v) <-> exists d, In d ds /\ In n (dkeys d).
Proof.
  induction ds as [|d ds IH]; simpl; [split; [intros (v & E); discriminate|intros (d & [] & _)]|]. destruct (dfind d n) as [v|] eqn:E.
  - split; [|eauto]. intros _. exists d. split; [auto|]. apply dmem_In. unfold dmem. now rewrite E.
  - rewrite IH. apply dfind_None in E. split; [intros (d' & ? & ?); eauto|]. intros (d' & [<-|H] & H'); [contradiction|eauto].
Qed.

(** ** C53: theorems *)
Theorem C53_exact : forall Ctx (r : rb Ctx) allowed, NoDup (dkeys (rb_keys r)) ->
  (forall n, In n (check_keys allowed r) <-> declared_in r n /\ ~ emitted_in r n /\ ~ In n allowed)
  /\ StronglySorted str_before (check_keys allowed r) /\ NoDup (check_keys allowed r).
Proof.
  intros Ctx r allowed ND. unfold check_keys.
  set (declared := fold_left (fun ks child => merge_keys ks (rb_keys child)) (rb_children r) (rb_keys r)).
  set (pats := rb_patterns r ++ flat_map (@rb_patterns Ctx) (rb_children r)).
  set (sel := filter _ (dkeys declared)).
  assert (match declared with [] => [] | _ :: _ => sort_by pstr_lt sel end = sort_by pstr_lt sel) as ->.
  { unfold sel. destruct declared; reflexivity. }
  assert (NoDup (dkeys declared)) as ND1 by (apply declared_NoDup, ND).
  assert (NoDup (sort_by pstr_lt sel)) as ND2.
  { eapply Permutation_NoDup; [symmetry; apply sort_by_perm|apply NoDup_filter, ND1]. }
  split; [|split; [|exact ND2]].
  - intro n. rewrite sort_by_in. unfold sel. rewrite filter_In, andb_true_iff, !negb_true_iff.
    assert (forall l, mem pstr_eqb n l = false <-> ~ In n l) as M.
    { intro l. unfold mem. rewrite existsb_false_iff. split.
      - intros H Hin. specialize (H n Hin). rewrite pstr_eqb_refl in H. discriminate.
      - intros H x Hx. destruct (pstr_eqb n x) eqn:E; [|reflexivity]. apply pstr_eqb_eq in E. subst. contradiction. }
    rewrite !M.
    assert (In n (dkeys declared) <-> declared_in r n) as ->.
    { rewrite <- dmem_In. unfold dmem, declared. rewrite declared_fold. unfold declared_in, family.
      destruct (first_entry n (rb_keys r :: map (@rb_keys Ctx) (rb_children r))) as [v|] eqn:E.
      - split; [|auto]. intros _. assert (exists v, first_entry n (rb_keys r :: map (@rb_keys Ctx) (rb_children r)) = Some v) as X by eauto.
        apply first_entry_In in X as (d & Hd & H). change (rb_keys r :: map (@rb_keys Ctx) (rb_children r)) with (map (@rb_keys Ctx) (r :: rb_children r)) in Hd.
        apply in_map_iff in Hd as (q & <- & Hq). eauto.
      - split; [discriminate|]. intros (q & Hq & H). assert (exists v, first_entry n (map (@rb_keys Ctx) (r :: rb_children r)) = Some v) as (v & X).
        { apply first_entry_In. exists (rb_keys q). split; [apply in_map, Hq|exact H]. }
        simpl in X, E. congruence. }
    assert (In n (flat_map (fun p => producible_names (pt_info p)) pats) <-> emitted_in r n) as ->; [|tauto].
    rewrite in_flat_map. unfold emitted_in, family. split.
    + intros (p & Hp & H). apply producible_spec in H. unfold pats in Hp. apply in_app_iff in Hp as [Hp|Hp]; [exists r, p; split; [left; reflexivity|auto]|].
      apply in_flat_map in Hp as (q & Hq & Hp). exists q, p. split; [right; exact Hq|auto].
    + intros (q & p & [<-|Hq] & Hp & H); exists p; (split; [unfold pats; apply in_app_iff|apply producible_spec, H]); [auto|]. right. apply in_flat_map. eauto.
  - assert (StronglySorted (fun a b => pstr_lt b a = false) (sort_by pstr_lt sel)) as SS.
    { apply sort_by_sorted; [|].
      - intros a b c H1 H2. destruct (pstr_lt c a) eqn:E; [|reflexivity]. destruct (pstr_lt_total H1) as [->|L1]; [congruence|].
        rewrite (pstr_lt_trans E L1) in H2. discriminate.
      - intros a b H. destruct (pstr_lt b a) eqn:E; [|reflexivity]. pose proof (pstr_lt_trans H E) as X. rewrite pstr_lt_irrefl in X. discriminate. }
    revert SS ND2. clear. induction (sort_by pstr_lt sel) as [|a l IH]; intros SS ND; constructor; inversion SS; inversion ND; subst; auto.
    rewrite Forall_forall in *. intros b Hb. apply pstr_lt_before. destruct (pstr_lt_total (H2 b Hb)) as [->|L]; [contradiction|exact L].
Qed.

(** *** What the patterns really emit *)
(** [info] describes the pattern built with options [p] and source [src] *)
Definition named_groups (rx : regex) : list pstr := flat_map (fun g => match g with Some n => [n] | None => [] end) (rx_groups rx).
Definition describes (p : popts) (src : psource) (i : pinfo) : Prop :=
  pi_name i = given (mo_name (po_kw p)) None
  /\ pi_shape i = match src with
                  | SString _ _ texts => ShString texts
                  | SRegex _ rxs => ShRegex (map named_groups rxs)
                  | SFunctional _ => ShFunctional
                  end.
Lemma re_match_names p repeated rx input ms : re_match p repeated rx input = Ok ms ->
  Forall (fun m => m_name m = given (mo_name (po_kw p)) None
                   /\ Forall (fun c => m_name c = given (mo_name (po_kw p)) None \/ exists n, m_name c = Some n /\ In n (named_groups rx)) (m_children m)) ms.
Proof.
  unfold re_match. destruct (sequence _ _) as [l|] eqn:E; [|discriminate]. intro H. apply keep_truthy_inv in H as [_ ->].
  apply sequence_ok in E. apply Forall_forall. intros m Hm. apply filter_In in Hm as [Hm _].
  induction E as [|o m' os l E0 E IH]; [contradiction|]. destruct Hm as [<-|Hm]; auto. clear - E0.
  unfold re_one in E0. apply append_children_parent in E0 as (_ & _ & _ & A4 & _ & _ & A7). split; [rewrite A7; reflexivity|].
  rewrite A4. cbn [m_children new_match app]. apply Forall_forall. intros c Hc. apply filter_In in Hc as [Hc _].
  apply in_flat_map in Hc as (g & Hg & Hc). unfold re_child in Hc. apply in_map_iff in Hc as (sp & <- & _).
  cbn. destruct g as [[n|] caps]; [|left; reflexivity]. right. exists n. split; [reflexivity|].
  apply in_combine_l in Hg. unfold named_groups. apply in_flat_map. exists (Some n). split; [exact Hg|left; reflexivity].
Qed.
Lemma emitted_names p src i n input n' outs raws m nm : no_processor p -> ~ functional src -> describes p src i ->
  pattern_matches p src n input = Ok (n', (outs, raws)) -> In m outs -> m_name m = Some nm -> nm <> [] -> can_emit i nm.
Proof.
  intros N NF [D1 D2] H Hm En Ne. destruct (returned N H) as (found & F & R).
  assert (forall o, In o (concat found) -> (forall k, m_name o = Some k -> k <> [] -> can_emit i k)
            /\ forall c, In c (m_children o) -> forall k, m_name c = Some k -> k <> [] -> can_emit i k) as G.
  { intros o Ho. apply in_concat in Ho as (ms & Hms & Ho). destruct src as [lower so texts|rep rxs|fs]; [| |destruct (NF I)]; cbn [finds] in F.
    - assert (exists sub, string_match lower p so sub input = Ok ms) as (sub & E).
      { clear - F Hms. induction F; [contradiction|]. destruct Hms as [->|Hms]; eauto. }
      pose proof (string_match_raw E) as A. pose proof (string_match_made E) as B. rewrite Forall_forall in A, B. destruct (A o Ho) as (_ & C & _). rewrite C. split; [|intros ? []].
      intros k Ek Nk. apply emit_name; [|exact Nk]. rewrite D1, <- Ek. symmetry. destruct (B o Ho) as (_ & _ & _ & _ & _ & _ & _ & _ & _ & _ & B2). now apply B2.
    - assert (exists rx, In rx rxs /\ re_match p rep rx input = Ok ms) as (rx & Hrx & E).
      { clear - F Hms. induction F; [contradiction|]. destruct Hms as [->|Hms]; [eexists; split; [left; reflexivity|eassumption]|].
        destruct (IHF Hms) as (rx & ? & ?). exists rx. split; [right|]; assumption. }
      pose proof (re_match_names E) as A. rewrite Forall_forall in A. destruct (A o Ho) as [A1 A2]. rewrite Forall_forall in A2. split.
      + intros k Ek Nk. apply emit_name; congruence.
      + intros c Hc k Ek Nk. destruct (A2 c Hc) as [X|(n0 & X & Hn)]; [apply emit_name; congruence|]. rewrite X in Ek. injection Ek as <-.
        eapply emit_group; [exact D2|apply in_map, Hrx|exact Hn]. }
  destruct (R m Hm) as (o & j & Ho & [(_ & St & _)|(c & P & _ & Hc & St & _)]); destruct St as [(_ & X & _) _ _ _ _]; rewrite X in En; destruct (G o Ho); eauto.
Qed.
(** every pattern is a string or regex pattern, described by its attributes *)
Definition built_patterns {Ctx} (r : rb Ctx) : Prop := forall q pt, In q (family r) -> In pt (rb_patterns q) ->
  exists p src, no_processor p /\ ~ functional src /\ describes p src (pt_info pt) /\ forall ctx, pt_match pt ctx = pattern_matches p src.
Lemma effective_from {Ctx} (ctx : Ctx) r p : In p (effective_patterns ctx r) -> exists q, In q (family r) /\ In p (rb_patterns q).
Proof.
  unfold effective_patterns, family. intro H. rewrite fold_extend in H by (intro; apply Nat.eqb_refl). apply in_app_iff in H as [H|H]; [exists r; simpl; auto|].
  apply firsts_incl in H. apply in_flat_map in H as (q & Hq & H). apply filter_In in Hq as [Hq _]. exists q. simpl. auto.
Qed.
Theorem C53_reported_names_are_never_found : forall Ctx (r : rb Ctx) allowed n ctx input keys f,
  NoDup (dkeys (rb_keys r)) -> built_patterns r -> In n (check_keys allowed r) -> n <> [] ->
  matches_patterns ctx input r (fresh input keys) = Ok f ->
  forall m, In m (c_del (fd_matches f)) \/ In m (c_del (fd_markers f)) -> m_name m <> Some n.
Proof.
  intros Ctx r allowed n ctx input keys f ND B Hn Ne E m Hm En.
  apply (proj1 (@C53_exact Ctx r allowed ND)) in Hn as (_ & NE & _). apply NE. clear NE.
  destruct (rb_disabled r ctx) eqn:D.
  - unfold matches_patterns in E. rewrite D in E. injection E as <-. simpl in Hm. tauto.
  - destruct (proj1 (@C87_separated Ctx ctx r input keys D) f E) as (outs & n' & Y & E1 & E2 & _).
    assert (In m (concat outs)) as Hc by (rewrite E1, E2 in Hm; destruct Hm as [Hm|Hm]; apply filter_In in Hm; tauto).
    assert (exists pt k k' out raws, In pt (effective_patterns ctx r) /\ pt_match pt ctx k input = Ok (k', (out, raws)) /\ In m out) as (pt & k & k' & out & raws & Hpt & Ep & Hout).
    { clear - Y Hc. induction Y; [contradiction| |].
      - destruct (IHY Hc) as (pt & k & k' & out & raws & A & A' & A''). exists pt, k, k', out, raws. split; [right; exact A|auto].
      - simpl in Hc. apply in_app_iff in Hc as [Hc|Hc]; [exists p, n, n1, out, raws; split; [left; reflexivity|auto]|].
        destruct (IHY Hc) as (pt & k & k' & out' & raws' & A & A' & A''). exists pt, k, k', out', raws'. split; [right; exact A|auto]. }
    apply effective_from in Hpt as (q & Hq & Hpt). destruct (B q pt Hq Hpt) as (p & src & N & NF & Dd & Em). rewrite Em in Ep.
    exists q, pt. split; [exact Hq|split; [exact Hpt|]]. eapply emitted_names; eassumption.
Qed.

(** ** Concrete cases *)
Section Examples.
  Let u : pstr -> pstr := fun x => x.
  Definition ex_opts (id : nat) (nm : option pstr) (marker : bool) : popts :=
    new_pattern id (MOpts None (Some nm) None (Some marker) None None None) DNone DNone DNone false false false false [] [] false false None None None.
  Definition ex_info (nm : option pstr) (marker : bool) (sh : pshape pinfo) : pinfo := PInfo nm [] [] false marker [] false sh.
  Definition ex_string (id : nat) (nm text : String.string) (marker : bool) (dis : bool) : pat bool :=
    Pat id (fun ctx => dis && ctx) (fun _ => pattern_matches (ex_opts id (Some (s nm)) marker) (SString u (StringOpts None None false) [s text]))
        (ex_info (Some (s nm)) marker (ShString [s text])).
  Definition names_of (c : coll) : list (option pstr * (Z * Z)) := map (fun m => (m_name m, m_span m)) (c_del c).
  Definition ex_run (r : rb bool) (ctx : bool) (input : String.string) : res (list (option pstr * (Z * Z)) * list (option pstr * (Z * Z))) :=
    match rb_matches default_env (fun l => l) (fun _ => default_behav (fun _ _ _ => VNothing) (fun l => l)) (fun _ _ => true) false r ctx (s input) with
    | Ok f => Ok (names_of (fd_matches f), names_of (fd_markers f))
    | Err e => Err e
    end.
End Examples.
Open Scope string_scope.
Open Scope list_scope.
Open Scope Z_scope.
(** a child with a pattern disabled in context [true], a disabled child, a grandchild *)
Definition ex_grandchild : rb bool := Rb (fun _ => false) [ex_string 4 "d" "two" false false] [] [] [].
Definition ex_child : rb bool := Rb (fun _ => false) [ex_string 2 "b" "one" false true; ex_string 1 "a" "one" false false] [] [] [ex_grandchild].
Definition ex_off : rb bool := Rb (fun ctx => ctx) [ex_string 3 "c" "two" false false] [] [(s "k", Key (s "k") 0 None)] [].
Definition ex_root : rb bool := Rb (fun _ => false) [ex_string 0 "z" "zero" false false] default_rules [] [ex_child; ex_off].
Example C86_example :
  ex_run ex_root true "zero one two" = Ok ([(Some (s "z"), (0, 4)); (Some (s "a"), (5, 8))], [])
  /\ ex_run ex_root false "zero one two"
     = Ok ([(Some (s "z"), (0, 4)); (Some (s "b"), (5, 8)); (Some (s "a"), (5, 8)); (Some (s "c"), (9, 12))], [])
  /\ ex_run (Rb (fun _ => true) (rb_patterns ex_root) default_rules [] []) true "zero one two" = Ok ([], []).
Proof. vm_compute. auto. Qed.
(** the grandchild's pattern would match, alone *)
Theorem C47_grandchildren_refuted : ex_run ex_grandchild true "zero one two" = Ok ([(Some (s "d"), (9, 12))], [])
  /\ ex_run (Rb (fun _ => false) [] default_rules [] [Rb (fun _ => false) [] [] [] [ex_grandchild]]) true "zero one two" = Ok ([], []).
Proof. vm_compute. auto. Qed.
Example C87_example : ex_run (simple [ex_string 0 "a" "one" true false; ex_string 1 "b" "one" false false]) true "one two one"
  = Ok ([(Some (s "b"), (0, 3)); (Some (s "b"), (8, 11))], [(Some (s "a"), (0, 3)); (Some (s "a"), (8, 11))]).
Proof. vm_compute. auto. Qed.
(** a marker pattern whose expression has a group: \[(\w+)\] *)
Definition ex_brackets : regex := Regex [None] (fun _ => [Occurrence (0, 5) [[(1, 4)]]]).
Theorem C48_regex_groups_refuted :
  pattern_matches (ex_opts 0 None true) (SRegex false [ex_brackets]) 0%nat (s "[abc]") = Err AssertionError
  /\ match pattern_matches (ex_opts 0 None false) (SRegex false [ex_brackets]) 0%nat (s "[abc]") with
     | Ok (_, (out, _)) => map m_span out = [(0, 5)] | Err _ => False end.
Proof. vm_compute. auto. Qed.
(** 'lakers' wins over 'la' where they overlap; equal spans are both kept *)
Example C49_example : ex_run (simple [ex_string 0 "a" "la" false false; ex_string 1 "b" "lakers" false false; ex_string 2 "c" "lakers" false false]) true "la lakers"
  = Ok ([(Some (s "a"), (0, 2)); (Some (s "b"), (3, 9)); (Some (s "c"), (3, 9))], []).
Proof. vm_compute. auto. Qed.
Definition ex_keyed : rb bool :=
  Rb (fun _ => false) [ex_string 0 "year" "one" false false] default_rules
     [(s "yeer", Key (s "yeer") 0 None); (s "year", Key (s "year") 0 None)]
     [Rb (fun _ => true) [Pat 1 (fun _ => true) (fun _ => pattern_matches (ex_opts 1 None false) (SRegex false [Regex [Some (s "month"); None] (fun _ => [])]))
                              (ex_info None false (ShRegex [[s "month"]]))]
         [] [(s "month", Key (s "month") 0 None); (s "day", Key (s "day") 0 None); (s "rule", Key (s "rule") 0 None)] []].
Example C53_example : check_keys [s "rule"] ex_keyed = [s "day"; s "yeer"] /\ check_keys [] ex_keyed = [s "day"; s "rule"; s "yeer"].
Proof. vm_compute. auto. Qed.
Example C53_example_built : built_patterns ex_keyed.
Proof.
  intros q pt [<-|[<-|[]]] [<-|[]].
  - exists (ex_opts 0 (Some (s "year")) false), (SString (fun x => x) (StringOpts None None false) [s "one"]).
    split; [repeat split|]. split; [intros []|]. split; [split; reflexivity|reflexivity].
  - exists (ex_opts 1 None false), (SRegex false [Regex [Some (s "month"); None] (fun _ => [])]).
    split; [repeat split|]. split; [intros []|]. split; [split; reflexivity|reflexivity].
Qed.
Example C49_example_ordinary : ordinary (StrPat (ex_opts 0 (Some (s "a")) false) (fun x => x) (StringOpts None None false) [s "la"]).
Proof. constructor; try reflexivity; [apply default_plain|repeat constructor; discriminate|repeat split]. Qed.
