(** * Property C56: introspection *)
From Verif Require Import Base BaseFacts Match Spec MatchFacts Coll CollFacts CollQuery CollSem CollSem2 SpecColl CollHist CollUniv
  Loose PropsLoose Conseq Processors Topo Rules Pattern PatternFacts PropsPattern Chain SpecChain ChainFacts PropsChain Typed PropsTyped Rebulk RebulkFacts PropsRebulk Introspect.
From Coq Require String.
Export Coq.Strings.String.StringSyntax.
Set Implicit Arguments.
Unset Strict Implicit.
Open Scope Z_scope.

(** ** Specification *)
(** the pattern's explicit values: [value_given i k v] when [v] is the last value, not None,
    given for [k] -- by its name, or by no name when [k] is the name of the pattern *)
Definition value_for (i : pinfo) (k : option pstr) (e : option pstr * pyval) : Prop :=
  snd e <> VNone /\ k = (match fst e with Some (c :: r) => Some (c :: r) | _ => pi_name i end).
Definition value_given (i : pinfo) (k : option pstr) (v : pyval) : Prop :=
  exists a e b, pi_values i = a ++ (e, v) :: b /\ value_for i k (e, v) /\ forall e', In e' b -> ~ value_for i k e'.
Definition public (i : pinfo) (n : pstr) : Prop := n <> [] /\ ~ In n (pi_private_names i).
(** the pattern says it can produce [v] under the name [k] *)
Inductive lists (i : pinfo) : option pstr -> pyval -> Prop :=
| lists_property n vs v : In (n, vs) (pi_properties i) -> In v vs -> lists i (Some n) v
| lists_value k v : pi_properties i = [] -> value_given i k v -> lists i k v
| lists_text texts t : pi_properties i = [] -> (forall k v, ~ value_given i k v) -> pi_shape i = ShString texts -> In t texts ->
    lists i (pi_name i) (VStr t)
| lists_name n : pi_properties i = [] -> (forall k v, ~ value_given i k v) -> ((exists gs, pi_shape i = ShRegex gs) \/ pi_shape i = ShFunctional) ->
    pi_name i = Some n -> public i n -> lists i (Some n) VNone
| lists_group gs g n : pi_properties i = [] -> (forall k v, ~ value_given i k v) -> pi_shape i = ShRegex gs -> pi_private_children i = false ->
    In g gs -> In n g -> ~ In n (pi_private_names i) -> lists i (Some n) VNone.
(** ... or only the name: a property without values, a string pattern without texts *)
Definition mentions (i : pinfo) (k : option pstr) : Prop :=
  (exists v, lists i k v) \/ (exists n, k = Some n /\ In n (dkeys (pi_properties i)))
  \/ (pi_properties i = [] /\ (forall k v, ~ value_given i k v) /\ pi_shape i = ShString [] /\ k = pi_name i).

(** ** Proofs: extending the lists of a dictionary *)
Definition values_for (k : option pstr) (es : list (option pstr * list pyval)) : list pyval := flat_map (fun e => if eqb k (fst e) then snd e else []) es.
Lemma extend_all_dget : forall es d k, dget (extend_all d es) k = dget d k ++ firsts py_eqb (dget d k) (values_for k es).
Proof.
  induction es as [|[k0 vs] es IH]; intros d k; cbn [extend_all fold_left values_for flat_map fst snd]; [symmetry; apply app_nil_r|].
  change (fold_left extend_entry es (extend_entry d (k0, vs))) with (extend_all (extend_entry d (k0, vs)) es). rewrite IH.
  assert (dget (extend_entry d (k0, vs)) k = dget d k ++ (if eqb k k0 then firsts py_eqb (dget d k) vs else [])) as ->.
  { unfold extend_entry, dget at 1. cbn [fst snd]. rewrite dfind_dset. destruct (eqb k k0) eqn:E.
    - apply eqb_eq in E. subst. destruct (@C23_extend_safe pyval py_eqb py_eqb_refl value_hashable (dget d k0) vs) as (-> & _). now rewrite new_elements_firsts.
    - now rewrite app_nil_r. }
  destruct (eqb k k0).
  - rewrite firsts_app, <- app_assoc. reflexivity.
  - rewrite app_nil_r. reflexivity.
Qed.
Lemma extend_all_keys : forall es d k, In k (dkeys (extend_all d es)) <-> In k (dkeys d) \/ In k (map fst es).
Proof.
  induction es as [|[k0 vs] es IH]; intros d k; cbn [extend_all fold_left map fst]; [simpl; tauto|].
  change (fold_left extend_entry es (extend_entry d (k0, vs))) with (extend_all (extend_entry d (k0, vs)) es). rewrite IH.
  unfold extend_entry at 1. cbn [fst]. rewrite dkeys_dset_In. simpl. intuition.
Qed.
Lemma extend_all_NoDup : forall es d, NoDup (dkeys d) -> NoDup (dkeys (extend_all d es)).
Proof. induction es as [|e es IH]; intros d H; simpl; [exact H|]. apply IH. unfold extend_entry. apply NoDup_dkeys_dset, H. Qed.
Lemma fold_extend_all {A} (f : A -> list (option pstr * list pyval)) : forall l d, fold_left (fun d x => extend_all d (f x)) l d = extend_all d (flat_map f l).
Proof. induction l as [|x l IH]; intro d; simpl; [reflexivity|]. rewrite IH. unfold extend_all. now rewrite fold_left_app. Qed.

(** membership, coverage and distinctness of the lists built from nothing *)
Lemma built es : let d := extend_all [] es in
  NoDup (dkeys d) /\ (forall k, In k (dkeys d) <-> In k (map fst es))
  /\ forall k, dget d k = firsts py_eqb [] (values_for k es).
Proof.
  simpl. split; [apply extend_all_NoDup; constructor|]. split; [intro k; rewrite extend_all_keys; simpl; tauto|]. intro k. rewrite extend_all_dget. reflexivity.
Qed.
Lemma dget_In {V} (d : dict (option pstr) (list V)) k v : In v (dget d k) -> exists vs, In (k, vs) d /\ In v vs.
Proof. unfold dget. destruct (dfind d k) as [vs|] eqn:E; [|intros []]. intro H. exists vs. split; [apply BaseFacts.dfind_In, E|exact H]. Qed.
Lemma values_for_In k es v : In v (values_for k es) <-> exists vs, In (k, vs) es /\ In v vs.
Proof.
  unfold values_for. rewrite in_flat_map. split.
  - intros ([k0 vs] & He & H). cbn [fst snd] in H. destruct (eqb k k0) eqn:E; [|destruct H]. apply eqb_eq in E. subst. eauto.
  - intros (vs & He & H). exists (k, vs). split; [exact He|]. cbn [fst snd]. rewrite (proj2 (eqb_eq k k) eq_refl). exact H.
Qed.

Definition value_in (i : pinfo) (l : list (option pstr * pyval)) (k : option pstr) (v : pyval) : Prop :=
  exists a e b, l = a ++ (e, v) :: b /\ value_for i k (e, v) /\ forall e', In e' b -> ~ value_for i k e'.
Lemma value_in_snoc i l e k v : value_in i (l ++ [e]) k v <-> (value_for i k e /\ v = snd e) \/ (~ value_for i k e /\ value_in i l k v).
Proof.
  assert (value_for i k e \/ ~ value_for i k e) as D.
  { unfold value_for. destruct (snd e) eqn:Es; try (destruct (option_eqb pstr_eqb k (match fst e with Some (c :: r) => Some (c :: r) | _ => pi_name i end)) eqn:Ek;
      [apply opt_pstr_eqb_eq in Ek; left; split; [discriminate|exact Ek]|right; intros [_ X]; apply opt_pstr_eqb_eq in X; congruence]). right. intros [X _]. congruence. }
  split.
  - intros (a & e0 & b & E & V & L). destruct b as [|x b] using rev_ind.
    + apply app_inj_tail in E as [<- ->]. left. auto.
    + clear IHb. rewrite app_comm_cons, app_assoc in E. apply app_inj_tail in E as [-> ->]. right. split; [apply L, in_or_app; right; left; reflexivity|].
      exists a, e0, b. split; [reflexivity|]. split; [exact V|]. intros e' He. apply L, in_or_app. auto.
  - intros [[V ->]|[N0 (a & e0 & b & -> & V & L)]].
    + destruct e as [e v]. exists l, e, []. split; [reflexivity|]. split; [exact V|intros ? []].
    + exists a, e0, (b ++ [e]). split; [now rewrite <- app_assoc|]. split; [exact V|]. intros e' He. apply in_app_iff in He as [He|[<-|[]]]; auto.
Qed.
Lemma pattern_values_spec i k v : dfind (pattern_values i) k = Some v <-> value_given i k v.
Proof.
  change (value_given i k v) with (value_in i (pi_values i) k v). unfold pattern_values. set (stp := fun (d : dict (option pstr) pyval) kv => _).
  induction (pi_values i) as [|e l IH] using rev_ind.
  - simpl. split; [discriminate|]. intros (a & e0 & b & E & _). destruct a; discriminate.
  - rewrite fold_left_app, value_in_snoc, <- IH. clear IH. cbn [fold_left]. generalize (fold_left stp l []). intro d.
    assert (stp d e = match snd e with VNone => d | v => dset d (match fst e with Some (c :: r) => Some (c :: r) | _ => pi_name i end) v end) as ->.
    { unfold stp. destruct (snd e); try reflexivity; destruct (fst e) as [[|]|]; reflexivity. }
    unfold value_for. destruct (snd e) eqn:Es.
    1: split; [intro H; right; split; [intros [X _]; congruence|exact H]|intros [[[X _] _]|[_ H]]; [congruence|exact H]].
    all: rewrite dfind_dset; set (ke := match fst e with Some (c :: r) => Some (c :: r) | _ => pi_name i end);
      destruct (eqb k ke) eqn:Ek; [apply eqb_eq in Ek; split;
        [intro H; injection H as <-; left; split; [split; [discriminate|exact Ek]|reflexivity]
        |intros [[_ ->]|[X _]]; [reflexivity|destruct X; split; [discriminate|exact Ek]]]
      |split; [intro H; right; split; [intros [_ X]; apply eqb_eq in X; congruence|exact H]
        |intros [[[_ X] _]|[_ H]]; [apply eqb_eq in X; congruence|exact H]]].
Qed.
Lemma pattern_values_NoDup i : NoDup (dkeys (pattern_values i)).
Proof.
  unfold pattern_values. assert (NoDup (dkeys (@nil (option pstr * pyval)))) as H by constructor. revert H. generalize (@nil (option pstr * pyval)) as d.
  induction (pi_values i) as [|e l IH]; intros d H; simpl; [exact H|]. apply IH. destruct (snd e); auto; apply NoDup_dkeys_dset, H.
Qed.
Lemma pattern_values_In i k v : In (k, v) (pattern_values i) <-> value_given i k v.
Proof.
  rewrite <- pattern_values_spec. split; [apply (dfind_NoDup_In _ _ _ (pattern_values_NoDup i))|apply BaseFacts.dfind_In].
Qed.
Lemma pattern_values_nil i : pattern_values i = [] <-> forall k v, ~ value_given i k v.
Proof.
  split; [intros E k v H; apply pattern_values_In in H; rewrite E in H; contradiction|]. intro H. destruct (pattern_values i) as [|[k v] l] eqn:E; [reflexivity|].
  destruct (H k v). apply pattern_values_In. rewrite E. left. reflexivity.
Qed.

(** the successive extensions made by a description *)
Definition entries (i : pinfo) : list (option pstr * list pyval) :=
  match pi_properties i with
  | (_ :: _) as ps => map (fun e => (Some (fst e), snd e)) ps
  | [] => match pattern_values i with
          | (_ :: _) as vs => map (fun kv => (fst kv, [snd kv])) vs
          | [] => match pi_shape i with
                  | ShString texts => [(pi_name i, map VStr texts)]
                  | ShRegex gs => own_name i ++ (if pi_private_children i then [] else map (fun g => (Some g, [VNone])) (filter (public_name i) (concat gs)))
                  | ShFunctional => own_name i
                  | ShChain _ => []
                  end
          end
  end.
Lemma description_entries i : pattern_description i = extend_all [] (entries i).
Proof.
  unfold pattern_description, entries. destruct (pi_properties i); [|reflexivity]. destruct (pattern_values i); [|reflexivity].
  destruct (pi_shape i); try reflexivity. destruct (pi_private_children i); [now rewrite app_nil_r|]. unfold extend_all. now rewrite fold_left_app.
Qed.
Lemma public_name_iff i n : public_name i n = true <-> ~ In n (pi_private_names i).
Proof.
  unfold public_name. rewrite negb_true_iff. unfold mem. rewrite existsb_false_iff. split.
  - intros H Hin. specialize (H n Hin). rewrite pstr_eqb_refl in H. discriminate.
  - intros H x Hx. destruct (pstr_eqb n x) eqn:E; [|reflexivity]. apply pstr_eqb_eq in E. subst. contradiction.
Qed.
Lemma own_name_In i k vs : In (k, vs) (own_name i) <-> vs = [VNone] /\ exists n, k = Some n /\ pi_name i = Some n /\ public i n.
Proof.
  unfold own_name, public. destruct (pi_name i) as [[|ch r]|].
  - split; [intros []|]. intros [_ (n & _ & E & N0 & _)]. congruence.
  - destruct (public_name i (ch :: r)) eqn:P; simpl.
    + apply public_name_iff in P. split; [intros [E|[]]; injection E as <- <-; split; [reflexivity|]; exists (ch :: r); repeat split; [discriminate|exact P]|].
      intros [-> (n & -> & E & _)]. left. injection E as <-. reflexivity.
    + split; [intros []|]. intros [_ (n & _ & E & _ & X)]. injection E as <-. apply public_name_iff in X. congruence.
  - split; [intros []|]. intros [_ (n & _ & E & _)]. discriminate.
Qed.
Lemma entries_lists i k v : (exists vs, In (k, vs) (entries i) /\ In v vs) <-> lists i k v.
Proof.
  unfold entries. split.
  - intros (vs & H & Hv). destruct (pi_properties i) as [|p0 ps] eqn:Ep.
    2: { apply in_map_iff in H as ([n vs'] & E & H). injection E as <- ->. eapply lists_property; [rewrite Ep; exact H|exact Hv]. }
    destruct (pattern_values i) as [|v0 vals] eqn:Ev.
    2: { apply in_map_iff in H as ([k' v'] & E & H). simpl in E. injection E as <- <-. destruct Hv as [<-|[]]. rewrite <- Ev in H. apply lists_value; [exact Ep|apply pattern_values_In, H]. }
    pose proof (proj1 (pattern_values_nil i) Ev) as NV. destruct (pi_shape i) as [texts|gs| |parts] eqn:Es.
    + destruct H as [E|[]]. injection E as <- <-. apply in_map_iff in Hv as (t & <- & Ht). eapply lists_text; eassumption.
    + apply in_app_iff in H as [H|H].
      * apply own_name_In in H as [-> (n & -> & En & P)]. destruct Hv as [<-|[]]. apply lists_name; eauto.
      * destruct (pi_private_children i) eqn:Pc; [contradiction|]. apply in_map_iff in H as (n & E & H). injection E as <- <-. destruct Hv as [<-|[]].
        apply filter_In in H as [H P]. apply in_concat in H as (g & Hg & H). eapply lists_group; eauto. now apply public_name_iff.
    + apply own_name_In in H as [-> (n & -> & En & P)]. destruct Hv as [<-|[]]. apply lists_name; eauto.
    + contradiction.
  - intros [n vs v0 H Hv|k0 v0 Ep V|texts t Ep NV Es Ht|n Ep NV Sh En P|gs g n Ep NV Es Pc Hg Hn Pn].
    + destruct (pi_properties i) as [|p0 ps]; [contradiction|]. exists vs. split; [|exact Hv]. apply in_map_iff. exists (n, vs). auto.
    + rewrite Ep. apply pattern_values_In in V. destruct (pattern_values i) as [|x l]; [contradiction|]. exists [v0]. split; [|left; reflexivity].
      apply in_map_iff. exists (k0, v0). auto.
    + rewrite Ep, (proj2 (pattern_values_nil i) NV), Es. eexists. split; [left; reflexivity|]. apply in_map, Ht.
    + rewrite Ep, (proj2 (pattern_values_nil i) NV). exists [VNone]. split; [|left; reflexivity].
      assert (In (Some n, [VNone]) (own_name i)) as X by (apply own_name_In; eauto). destruct Sh as [(gs & ->)| ->]; [apply in_app_iff; auto|exact X].
    + rewrite Ep, (proj2 (pattern_values_nil i) NV), Es, Pc. exists [VNone]. split; [|left; reflexivity]. apply in_app_iff. right.
      apply in_map_iff. exists n. split; [reflexivity|]. apply filter_In. split; [apply in_concat; eauto|now apply public_name_iff].
Qed.
Lemma entries_mentions i k : In k (map fst (entries i)) <-> mentions i k.
Proof.
  split.
  - intro H. apply in_map_iff in H as ([k' vs] & E & H). simpl in E. subst k'. destruct vs as [|v vs].
    2: { left. exists v. apply entries_lists. exists (v :: vs). split; [exact H|left; reflexivity]. }
    right. unfold entries in H. destruct (pi_properties i) as [|p0 ps] eqn:Ep.
    2: { left. apply in_map_iff in H as ([n vs'] & E & H). injection E as <- ->. exists n. split; [reflexivity|]. apply in_map_iff. exists (n, []). auto. }
    right. destruct (pattern_values i) as [|v0 vals] eqn:Ev.
    2: { apply in_map_iff in H as ([k' v'] & E & H). discriminate. }
    split; [reflexivity|]. split; [apply pattern_values_nil, Ev|]. destruct (pi_shape i) as [texts|gs| |parts] eqn:Es.
    + destruct H as [E|[]]. injection E as <- E. destruct texts; [auto|discriminate].
    + apply in_app_iff in H as [H|H]; [apply own_name_In in H as [X _]; discriminate|]. destruct (pi_private_children i); [contradiction|].
      apply in_map_iff in H as (n & E & _). discriminate.
    + apply own_name_In in H as [X _]; discriminate.
    + contradiction.
  - intros [(v & H)|[(n & -> & H)|(Ep & NV & Es & ->)]].
    + apply entries_lists in H as (vs & H & _). apply in_map_iff. exists (k, vs). auto.
    + unfold entries. destruct (pi_properties i) as [|p0 ps]; [contradiction|]. rewrite map_map. apply in_map_iff in H as (e & <- & H).
      apply in_map_iff. exists e. auto.
    + unfold entries. rewrite Ep, (proj2 (pattern_values_nil i) NV), Es. left. reflexivity.
Qed.

(** ** Theorems *)
Section C56.
  Context {Ctx : Type}.
  Variable env : renv.
  Variable rule_props : nat -> dict pstr (list pyval).
  Variable ctx : Ctx.
  Variable r : rb Ctx.
  (** who says it can produce what *)
  Definition public_pattern (i : pinfo) : Prop :=
    exists p, In p (effective_patterns ctx r) /\ i = pt_info p /\ pi_private i = false /\ pi_marker i = false.
  Definition listed (k : option pstr) (v : pyval) : Prop :=
    (exists i, public_pattern i /\ lists i k v)
    \/ exists x n vs, In x (effective_rules env ctx r) /\ k = Some n /\ In (n, vs) (rule_props x) /\ In v vs.
  Definition mentioned (k : option pstr) : Prop :=
    (exists i, public_pattern i /\ mentions i k) \/ exists x n, In x (effective_rules env ctx r) /\ k = Some n /\ In n (dkeys (rule_props x)).
End C56.

Lemma described_spec {Ctx} (ctx : Ctx) r i : In i (described_patterns ctx r) <-> public_pattern ctx r i.
Proof.
  unfold described_patterns, public_pattern. rewrite in_map_iff. split.
  - intros (p & <- & H). apply filter_In in H as [H P]. apply andb_true_iff in P as [P1 P2]. rewrite negb_true_iff in P1, P2. eauto.
  - intros (p & H & -> & P1 & P2). exists p. split; [reflexivity|]. apply filter_In. split; [exact H|]. now rewrite P1, P2.
Qed.
(** Exactly what the public effective patterns and the effective rules say; no value is listed
    twice, every value listed was said and every value said is there up to equality *)
Theorem C90_exact : forall Ctx env rule_props (ctx : Ctx) (r : rb Ctx),
  let P := introspect_properties env rule_props ctx r in
  NoDup (dkeys P)
  /\ (forall k, In k (dkeys P) <-> mentioned env rule_props ctx r k)
  /\ (forall k vs v, dfind P k = Some vs -> In v vs -> listed env rule_props ctx r k v)
  /\ (forall k v, listed env rule_props ctx r k v -> exists vs v', dfind P k = Some vs /\ In v' vs /\ py_eqb v v' = true)
  /\ (forall k vs, dfind P k = Some vs -> ForallOrdPairs (fun a b => py_eqb a b = false) vs).
Proof.
  intros Ctx env rule_props ctx r P.
  set (es := flat_map pattern_description (described_patterns ctx r) ++ flat_map (fun x => rule_description (rule_props x)) (effective_rules env ctx r)).
  assert (P = extend_all [] es) as EP.
  { unfold P, introspect_properties. rewrite (fold_extend_all pattern_description), (fold_extend_all (fun x => rule_description (rule_props x))).
    unfold es, extend_all. now rewrite fold_left_app. }
  destruct (built es) as (N & K & V). rewrite <- EP in N, K, V.
  (* one description *)
  assert (forall es0 k v, In v (values_for k (extend_all [] es0)) -> exists vs, In (k, vs) es0 /\ In v vs) as S1.
  { intros es0 k v H. apply values_for_In in H as (vs & H & Hv). destruct (built es0) as (N0 & _ & V0).
    apply (dfind_NoDup_In _ _ _ N0) in H. specialize (V0 k). unfold dget in V0. rewrite H in V0. rewrite V0 in Hv. apply firsts_incl in Hv. now apply values_for_In. }
  assert (forall es0 k v vs, In (k, vs) es0 -> In v vs -> exists v', In v' (values_for k (extend_all [] es0)) /\ py_eqb v v' = true) as S2.
  { intros es0 k v vs H Hv. destruct (built es0) as (N0 & K0 & V0).
    assert (In v (values_for k es0)) as Hin by (apply values_for_In; eauto).
    destruct (@firsts_cover _ py_eqb py_eqb_refl _ [] v Hin) as (v' & Hv' & E). simpl in Hv'. exists v'. split; [|exact E].
    apply values_for_In. destruct (dfind (extend_all [] es0) k) as [l|] eqn:El.
    - exists l. split; [apply BaseFacts.dfind_In, El|]. specialize (V0 k). unfold dget in V0. rewrite El in V0. now rewrite V0.
    - apply dfind_None in El. destruct El. apply K0. apply in_map_iff. exists (k, vs). auto. }
  assert (forall k v, In v (values_for k es) -> listed env rule_props ctx r k v) as L1.
  { intros k v H. apply values_for_In in H as (vs & H & Hv). unfold es in H. apply in_app_iff in H as [H|H]; apply in_flat_map in H as (x & Hx & H).
    - left. exists x. split; [now apply described_spec|]. apply entries_lists. rewrite description_entries in H. apply S1. apply values_for_In. eauto.
    - right. unfold rule_description in H. destruct (S1 _ k v (proj2 (values_for_In _ _ _) (ex_intro _ vs (conj H Hv)))) as (vs' & H' & Hv').
      apply in_map_iff in H' as ([n vs0] & E & H'). injection E as <- ->. exists x, n, vs'. auto. }
  assert (forall k v, listed env rule_props ctx r k v -> exists v', In v' (values_for k es) /\ py_eqb v v' = true) as L2.
  { intros k v [(i & Hi & H)|(x & n & vs & Hx & -> & H & Hv)].
    - apply entries_lists in H as (vs & H & Hv). destruct (S2 _ _ _ _ H Hv) as (v' & H' & E). exists v'. split; [|exact E].
      apply values_for_In in H' as (vs' & H' & Hv'). apply values_for_In. exists vs'. split; [|exact Hv']. unfold es. apply in_app_iff. left. apply in_flat_map.
      exists i. split; [now apply described_spec|]. now rewrite description_entries.
    - assert (In (Some n, vs) (map (fun e => (Some (fst e), snd e)) (rule_props x))) as H0 by (apply in_map_iff; exists (n, vs); auto).
      destruct (S2 _ _ _ _ H0 Hv) as (v' & H' & E). exists v'. split; [|exact E].
      apply values_for_In in H' as (vs' & H' & Hv'). apply values_for_In. exists vs'. split; [|exact Hv']. unfold es. apply in_app_iff. right. apply in_flat_map. eauto. }
  assert (forall k, In k (map fst es) <-> mentioned env rule_props ctx r k) as M.
  { intro k. unfold es, mentioned. rewrite map_app, in_app_iff.
    assert (forall A (f : A -> props) l, In k (map fst (flat_map f l)) <-> exists x, In x l /\ In k (dkeys (f x))) as F.
    { intros A f l. rewrite in_map_iff. split.
      - intros (e & <- & H). apply in_flat_map in H as (x & Hx & H). exists x. split; [exact Hx|apply in_map, H].
      - intros (x & Hx & H). apply in_map_iff in H as (e & <- & H). exists e. split; [reflexivity|]. apply in_flat_map. eauto. }
    assert (forall es0 : list (option pstr * list pyval), In k (dkeys (extend_all [] es0)) <-> In k (map fst es0)) as B by (intro es0; apply (proj1 (proj2 (built es0)))).
    rewrite !F. split.
    - intros [(i & Hi & H)|(x & Hx & H)].
      + left. exists i. split; [now apply described_spec|]. rewrite description_entries in H. exact (proj1 (entries_mentions i k) (proj1 (B _) H)).
      + right. unfold rule_description in H. rewrite B, map_map in H. apply in_map_iff in H as (e & <- & H). exists x, (fst e). split; [exact Hx|]. split; [reflexivity|apply in_map, H].
    - intros [(i & Hi & H)|(x & n & Hx & -> & H)].
      + left. exists i. split; [now apply described_spec|]. rewrite description_entries. exact (proj2 (B _) (proj2 (entries_mentions i k) H)).
      + right. exists x. split; [exact Hx|]. unfold rule_description. rewrite B, map_map. apply in_map_iff in H as (e & <- & H). apply in_map_iff. exists e. split; [reflexivity|exact H]. }
  split; [exact N|]. split; [intro k; rewrite K; apply M|]. split; [|split].
  - intros k vs v E Hv. apply L1. specialize (V k). unfold dget in V. rewrite E in V. rewrite V in Hv. eapply firsts_incl, Hv.
  - intros k v H. destruct (L2 k v H) as (v1 & H1 & E1). destruct (@firsts_cover _ py_eqb py_eqb_refl _ [] v1 H1) as (v2 & H2 & E2). simpl in H2.
    specialize (V k). unfold dget in V. destruct (dfind P k) as [vs|] eqn:Ed; [|rewrite <- V in H2; contradiction].
    exists vs, v2. split; [reflexivity|]. split; [now rewrite V|]. eapply py_eqb_trans; eassumption.
  - intros k vs E. specialize (V k). unfold dget in V. rewrite E in V. rewrite V. 
    destruct (@firsts_disjoint _ py_eqb (values_for k es) []) as [D _]. clear - D. induction D; constructor; auto. eapply Forall_impl; [|eassumption]. intros b H0. rewrite py_eqb_sym. exact H0.
Qed.

(** ** What the patterns really produce *)
(** A public match found by a string or regex pattern which declares neither properties nor
    values has a name which is listed *)
Theorem C56_public_names_are_listed_partial : forall p src i n input n' outs raws m nm,
  no_processor p -> ~ functional src -> describes p src i ->
  pi_private_names i = po_private_names p -> pi_private_children i = po_private_children p ->
  pi_properties i = [] -> (forall k v, ~ value_given i k v) ->
  pattern_matches p src n input = Ok (n', (outs, raws)) -> In m outs -> m_private m = false -> m_name m = Some nm -> nm <> [] ->
  mentions i (Some nm).
Proof.
  intros p src i n input n' outs raws m nm N NF [D1 D2] D3 D4 P0 V0 H Hm Pm En Ne. destruct (returned N H) as (found & F & R).
  assert (forall o child m', In o (concat found) -> (child = false /\ m' = o) \/ (child = true /\ In m' (m_children o)) -> m_name m' = Some nm ->
            ~ In nm (po_private_names p) -> (child = true -> po_private_children p = false) -> mentions i (Some nm)) as G.
  { intros o child m' Ho Hm' En' Pn Pc. apply in_concat in Ho as (ms & Hms & Ho). destruct src as [lower so texts|rep rxs|fs]; [| |destruct (NF I)]; cbn [finds] in F.
    - assert (exists sub, In sub texts /\ string_match lower p so sub input = Ok ms) as (sub & Hsub & E).
      { clear - F Hms. induction F; [contradiction|]. destruct Hms as [->|Hms]; [exists x; split; [left; reflexivity|assumption]|].
        destruct (IHF Hms) as (sub & ? & ?). exists sub. split; [right|]; assumption. }
      pose proof (string_match_raw E) as A. pose proof (string_match_made E) as B. rewrite Forall_forall in A, B. destruct (A o Ho) as (_ & C & _).
      destruct Hm' as [[_ ->]|[_ Hm']]; [|rewrite C in Hm'; contradiction]. destruct (B o Ho) as (_ & _ & _ & _ & _ & _ & _ & _ & _ & _ & B2).
      rewrite (B2 eq_refl), <- D1 in En'. left. exists (VStr sub). rewrite <- En'. eapply lists_text; eassumption.
    - assert (exists rx, In rx rxs /\ re_match p rep rx input = Ok ms) as (rx & Hrx & E).
      { clear - F Hms. induction F; [contradiction|]. destruct Hms as [->|Hms]; [eexists; split; [left; reflexivity|eassumption]|].
        destruct (IHF Hms) as (rx & ? & ?). exists rx. split; [right|]; assumption. }
      pose proof (re_match_names E) as A. rewrite Forall_forall in A. destruct (A o Ho) as [A1 A2]. rewrite Forall_forall in A2.
      assert (pi_name i = Some nm -> mentions i (Some nm)) as Own.
      { intro X. left. exists VNone. apply lists_name; auto; [left; eauto|]. split; [exact Ne|now rewrite D3]. }
      destruct Hm' as [[_ ->]|[Ec Hm']]; [apply Own; congruence|].
      destruct (A2 m' Hm') as [X|(n0 & X & Hn)]; [apply Own; congruence|]. rewrite X in En'. injection En' as ->.
      left. exists VNone. eapply lists_group; [exact P0|exact V0|exact D2|rewrite D4; auto|apply in_map, Hrx|exact Hn|now rewrite D3]. }
  destruct (R m Hm) as (o & j & Ho & [(_ & St & _)|(c & P & _ & Hc & St & _)]); destruct St as [(_ & X & _) _ Pr _ _]; rewrite X in En.
  - eapply (G o false o); eauto; [|discriminate]. intro Hin. assert (m_private m = true); [|congruence]. apply Pr. right. left. exists nm. auto.
  - eapply (G o true c); eauto.
    + intro Hin. assert (m_private m = true); [|congruence]. apply Pr. right. left. exists nm. auto.
    + intros _. destruct (po_private_children p) eqn:E; [|reflexivity]. assert (m_private m = true); [|congruence]. apply Pr. auto.
Qed.
(** ... but a pattern with an explicit value lists nothing else *)
Theorem C56_values_hide_names_refuted : forall i k0 v0, pi_properties i = [] -> value_given i k0 v0 ->
  forall k, mentions i k <-> exists v, value_given i k v.
Proof.
  intros i k0 v0 P0 V k. split.
  - intros [(v & L)|[(n & _ & H)|(_ & NV & _)]]; [|rewrite P0 in H; contradiction|destruct (NV _ _ V)].
    inversion L as [n vs v1 H|k1 v1 _ V1|t1 t _ NV|n _ NV|gs g n _ NV]; subst; [rewrite P0 in H; contradiction|eauto| | |]; destruct (NV _ _ V).
  - intros (v & H). left. exists v. now apply lists_value.
Qed.
(** ... and a chain lists nothing, whatever its parts produce *)
Theorem C56_chains_list_nothing_refuted : forall i parts, pi_properties i = [] -> (forall k v, ~ value_given i k v) -> pi_shape i = ShChain parts ->
  forall k, ~ mentions i k.
Proof.
  intros i parts P0 NV Sh k [(v & L)|[(n & _ & H)|(_ & _ & X & _)]]; [|rewrite P0 in H; contradiction|congruence].
  inversion L as [n vs v1 H|k1 v1 _ V1|t1 t _ _ X|n _ _ [[gs X]|X]|gs g n _ _ X]; subst; [rewrite P0 in H; contradiction|destruct (NV _ _ V1)|congruence|congruence|congruence|congruence].
Qed.

(** ** Concrete cases *)
Open Scope string_scope.
Open Scope list_scope.
Open Scope Z_scope.
Definition ex_pi (id : nat) (i : pinfo) : pat bool := Pat id (fun c => c) (fun _ n _ => Ok (n, ([], []))) i.
Definition ex_intro : rb bool :=
  Rb (fun _ => false)
     [ex_pi 0 (PInfo (Some (s "one")) [] [] false false [] false (ShString [s "1"; s "one"; s "1"]));
      ex_pi 1 (PInfo (Some (s "two")) [] [] false false [s "three"] false (ShRegex [[s "three"; s "four"]]));
      ex_pi 2 (PInfo (Some (s "one")) [] [(None, VStr (s "x"))] false false [] false (ShRegex [[s "five"]]));
      ex_pi 3 (PInfo (Some (s "six")) [] [] true false [] false ShFunctional);
      ex_pi 4 (PInfo None [] [] false false [] false (ShString [s "y"]))]
     [0%nat] [] [].
Example C56_example : introspect_properties default_env (fun _ => [(s "one", [VStr (s "1"); VInt 1])]) true ex_intro
  = [(Some (s "one"), [VStr (s "1"); VStr (s "one"); VStr (s "x"); VInt 1]); (Some (s "two"), [VNone]); (Some (s "four"), [VNone]); (None, [VStr (s "y")])].
Proof. vm_compute. reflexivity. Qed.
(** the regex pattern with groups "a" and "b" and [value={'a': 1}] produces "b" *)
Definition ex_ab : regex := Regex [Some (s "a"); Some (s "b")] (fun _ => [Occurrence (0, 2) [[(0, 1)]; [(1, 2)]]]).
Definition ex_ab_opts : popts :=
  new_pattern 0 no_opts DNone (DDict [(Some (s "a"), VInt 1)]) DNone true false false false [] [] false false None None None.
Definition ex_ab_info : pinfo := PInfo None [] [(Some (s "a"), VInt 1)] false false [] false (ShRegex [[s "a"; s "b"]]).
Example C56_values_example :
  match pattern_matches ex_ab_opts (SRegex false [ex_ab]) 0%nat (s "xy") with
  | Ok (_, (outs, _)) => map m_name outs = [Some (s "a"); Some (s "b")] | Err _ => False end
  /\ pattern_description ex_ab_info = [(Some (s "a"), [VInt 1])].
Proof. vm_compute. auto. Qed.
(** a chain whose only part is named "n" produces "n" *)
Definition ex_chain_part : cpart :=
  CPart (pattern_matches (default_pattern 1 (MOpts None (Some (Some (s "n"))) None None None None None)) (SRegex false [char_rx (s "a")])) 1 (Some 1) false.
Definition ex_chain_opts : popts := new_pattern 0 no_opts DNone DNone DNone true false false false [] [] false false None None None.
Definition ex_chain_info : pinfo := PInfo None [] [(None, VNone)] false false [] false
  (ShChain [PInfo (Some (s "n")) [] [(None, VNone)] false false [] false (ShRegex [[]])]).
Example C56_chain_example :
  match chain_matches 9 ex_chain_opts None [ex_chain_part] 0%nat (s "xa") with
  | Ok (_, (outs, _)) => map (fun m => (m_name m, m_span m)) outs = [(Some (s "n"), (1, 2))] | Err _ => False end
  /\ pattern_description ex_chain_info = [].
Proof. vm_compute. auto. Qed.
