(** * Property C145: declared keys in objects with sub-Rebulks *)
From Verif Require Import Typed PropsTyped Base BaseFacts Match MatchFacts Coll CollFacts Loose Conseq ConseqFacts Processors ProcFacts Pattern PatternFacts PropsLoose PropsPattern Topo Rules RulesFacts PropsRules Chain SpecChain PropsChain Builder BuilderFacts PropsBuilder PropsKeys Rebulk RebulkFacts PropsRebulk Pipeline SpecNest SpecOnce OnceFacts PropsOnce PropsInside Assemble PropsAssemble PropsTypedKeys PropsFunction SpecMoved PropsMoved PropsParts Fluent PropsFluent Built PropsBuilt Site PropsSite PropsSiteSub PropsTypedSite.
From Coq Require String.
Export Coq.Strings.String.StringSyntax.
Open Scope string_scope.
Open Scope list_scope.
Set Implicit Arguments.
Unset Strict Implicit.
Open Scope Z_scope.

(** ** Specification *)
(** The object [r] was built by the program [g], which declares the keys [ks] first, once, and leaves the formatters to them (see [keys_first]);
    the formatter of a key is its converter *)
Record keyed (cast : nat -> pyval -> pyval) (obj : Typed.key -> positive) {Ctx} (r : rb Ctx) (g : program) (ks : list Typed.key) : Prop := {
  kd_plain : plain g;
  kd_first : keys_first obj ks g;
  kd_object : object_of g r;
  kd_keys : rb_keys r = PropsTypedKeys.declared ks;
  kd_converters : forall k t, In k ks -> call_formatter (pg_callables g) (VObj (Npos (obj k))) t = converter cast k t
}.
(** an object [r] with its sub-Rebulks; a sub-Rebulk takes part unless it is disabled *)
Definition nest {Ctx} (cast : nat -> pyval -> pyval) (obj : Typed.key -> positive) (r : rb Ctx) (g : program) (ks : list Typed.key) (gs : list (program * list Typed.key)) : Prop :=
  keyed cast obj r g ks /\ Forall2 (fun h sub => keyed cast obj sub (fst h) (snd h)) gs (rb_children r).
(** [h], [l]: the program and the keys of the object, or of one of its sub-Rebulks which takes part *)
Definition taking_part {Ctx} (ctx : Ctx) (r : rb Ctx) (g : program) (ks : list Typed.key) (gs : list (program * list Typed.key)) (h : program) (l : list Typed.key) : Prop :=
  (h = g /\ l = ks) \/ exists i sub, nth_error gs i = Some (h, l) /\ nth_error (rb_children r) i = Some sub /\ rb_disabled sub ctx = false.
(** the key in force for a name: the last one the object declares, else the last one declared by the first sub-Rebulk taking part which declares one *)
Inductive effective {Ctx} (ctx : Ctx) (r : rb Ctx) (ks : list Typed.key) (gs : list (program * list Typed.key)) (x : pstr) (k : Typed.key) : Prop :=
| effective_own : dfind (PropsTypedKeys.declared ks) x = Some k -> effective ctx r ks gs x k
| effective_sub i h sub :
    dfind (PropsTypedKeys.declared ks) x = None -> nth_error gs i = Some h -> nth_error (rb_children r) i = Some sub -> rb_disabled sub ctx = false ->
    dfind (PropsTypedKeys.declared (snd h)) x = Some k ->
    (forall j h' sub', (j < i)%nat -> nth_error gs j = Some h' -> nth_error (rb_children r) j = Some sub' -> rb_disabled sub' ctx = false -> dfind (PropsTypedKeys.declared (snd h')) x = None) ->
    effective ctx r ks gs x k.

(** ** Proofs *)
Lemma F2_nth A B (P : A -> B -> Prop) l l' : Forall2 P l l' -> forall i a b, nth_error l i = Some a -> nth_error l' i = Some b -> P a b.
Proof. induction 1 as [|x y l l' H F IH]; intros [|i] a b Ha Hb; try discriminate; cbn [nth_error] in *; [injection Ha as <-; injection Hb as <-; exact H|eauto]. Qed.
Lemma F2_left A B (P : A -> B -> Prop) l l' : Forall2 P l l' -> forall i b, nth_error l' i = Some b -> exists a, nth_error l i = Some a.
Proof. induction 1 as [|x y l l' H F IH]; intros [|i] b Hb; try discriminate; cbn [nth_error] in *; eauto. Qed.
Lemma keyed_settled cast obj Ctx (r : rb Ctx) g ks m x : keyed cast obj r g ks -> x <> [] -> valued g m x -> forall k, dfind (PropsTypedKeys.declared ks) x = Some k -> m_value m = converter cast k (m_raw m).
Proof.
  intros K Nx (e & c & keys & child & gf & B & M & Fa & V) k Dk. rewrite V. pose proof (meant_by_key (kd_first K) Nx Dk child B M Fa) as Q.
  refine (eq_trans (f_equal (fun z => made_of (pg_callables g) z (m_raw m)) Q) _). cbn [made_of truthy andb]. assert (py_eqb (VObj (Npos (obj k))) library_formatter = false) as -> by reflexivity. cbn [negb].
  apply (kd_converters K). rewrite (last_handed obj) in Dk. apply find_some in Dk as [Dk _]. apply in_rev in Dk. exact Dk.
Qed.
(** where a pattern which is searched comes from *)
Lemma pattern_owner cast obj Ctx (ctx : Ctx) (r : rb Ctx) g ks gs : nest cast obj r g ks gs -> forall p, In p (effective_patterns ctx r) ->
  exists h l o, taking_part ctx r g ks gs h l /\ keyed cast obj o h l /\ In p (rb_patterns o).
Proof.
  intros [K F] p Hp. destruct (C86_contributions ctx r default_env) as (EP & _). rewrite EP in Hp. apply in_app_or in Hp as [Hp|Hp].
  - exists g, ks, r. split; [left; split; reflexivity|]. split; assumption.
  - assert (forall l seen, In p (firsts pat_eq seen l) -> In p l) as X.
    { clear. induction l as [|x l IH]; intros seen H; [exact H|]. cbn [firsts] in H. destruct (existsb _ _); [right; eauto|]. destruct H as [->|H]; [now left|right; eauto]. }
    apply X in Hp. apply in_flat_map in Hp as (sub & Hs & Hp). unfold enabled_children in Hs. apply filter_In in Hs as [Hs D]. apply negb_true_iff in D.
    apply In_nth_error in Hs as (i & Hi). destruct (F2_left F Hi) as ([h l] & Eh). pose proof (F2_nth F Eh Hi) as Kh. cbn [fst snd] in Kh.
    exists h, l, sub. split; [right; exists i, sub; auto|]. split; assumption.
Qed.
Lemma effective_key cast obj Ctx (ctx : Ctx) (r : rb Ctx) g ks gs : nest cast obj r g ks gs -> forall x k, dfind (effective_keys ctx r) x = Some k -> effective ctx r ks gs x k.
Proof.
  intros [K F] x k H. rewrite effective_keys_find in H. unfold participants, enabled_children in H. cbn [map first_entry] in H. rewrite (kd_keys K) in H.
  destruct (dfind (PropsTypedKeys.declared ks) x) as [k0|] eqn:E; [injection H as <-; apply effective_own; exact E|].
  assert (X : exists i h sub, nth_error gs i = Some h /\ nth_error (rb_children r) i = Some sub /\ rb_disabled sub ctx = false /\ dfind (PropsTypedKeys.declared (snd h)) x = Some k
    /\ forall j h' sub', (j < i)%nat -> nth_error gs j = Some h' -> nth_error (rb_children r) j = Some sub' -> rb_disabled sub' ctx = false -> dfind (PropsTypedKeys.declared (snd h')) x = None).
  { clear K E. induction F as [|h sub gs' l Kh F IH]; [discriminate|]. cbn [filter] in H. destruct (rb_disabled sub ctx) eqn:D; cbn [negb] in H.
    - destruct (IH H) as (i & h1 & s1 & H1 & H2 & H3 & H4 & H5). exists (S i), h1, s1. repeat (split; [assumption|]). intros [|j] h' s' Lj Hh Hs Ds; cbn [nth_error] in *; [injection Hs as <-; congruence|]. eapply H5; [|eassumption..]. lia.
    - cbn [map first_entry] in H. rewrite (kd_keys Kh) in H. destruct (dfind (PropsTypedKeys.declared (snd h)) x) as [k0|] eqn:E.
      + injection H as <-. exists 0%nat, h, sub. repeat (split; [first [reflexivity|assumption]|]). intros j h' s' Lj. lia.
      + destruct (IH H) as (i & h1 & s1 & H1 & H2 & H3 & H4 & H5). exists (S i), h1, s1. repeat (split; [assumption|]). intros [|j] h' s' Lj Hh Hs Ds; cbn [nth_error] in *; [injection Hh as <-; exact E|]. eapply H5; [|eassumption..]. lia. }
  destruct X as (i & h & sub & H1 & H2 & H3 & H4 & H5). exact (effective_sub E H1 H2 H3 H4 H5).
Qed.

(** ** C145: theorems *)
(** The value of a match returned, which is not private and has a name and no literal value: it was found by a pattern of the object or of a sub-Rebulk taking part,
    and its value is what the converter of the key that object declares for the name makes of its raw text.  Missing: the keys of the object do not settle
    the values found by its sub-Rebulks, nor the keys of a sub-Rebulk those found by the others (see C145_values_refuted) *)
Theorem C145_values_partial : forall cast obj Ctx R (ctx : Ctx) (r : rb Ctx) g ks gs env perm solvers order (user : Ctx -> behav found R) isinst check input f m x,
  nest cast obj r g ks gs -> (forall u, adds_nothing (user ctx) u) ->
  rb_matches env perm (fun c => with_defaults solvers order (user c)) isinst check r ctx input = Ok f ->
  In m (all_found f) -> m_private m = false -> has_literal m = false -> m_name m = Some x -> x <> [] ->
  exists h l, taking_part ctx r g ks gs h l /\ valued h m x /\ forall k, dfind (PropsTypedKeys.declared l) x = Some k -> m_value m = converter cast k (m_raw m).
Proof.
  intros cast obj Ctx R ctx r g ks gs env perm solvers order user isinst check input f m x Hn Hu E Hm Pm Lm N Nx.
  destruct (returned_found Hu E Hm) as (p & n & n' & outs & raws & Hp & Ep & Ho).
  destruct (pattern_owner Hn Hp) as (h & l & o & T & K & Hp'). pose proof (object_displays (kd_plain K) (kd_object K) Hp' Ep Ho) as D.
  pose proof (shown_valued D Pm Lm N Nx) as V. exists h, l. split; [exact T|]. split; [exact V|]. exact (keyed_settled K Nx V).
Qed.
(** When the object and its sub-Rebulks taking part all declare a key for the name and it is the same, this key settles the value *)
Theorem C145_same_key : forall cast obj Ctx R (ctx : Ctx) (r : rb Ctx) g ks gs env perm solvers order (user : Ctx -> behav found R) isinst check input f m x k,
  nest cast obj r g ks gs -> (forall u, adds_nothing (user ctx) u) ->
  (forall h l, taking_part ctx r g ks gs h l -> dfind (PropsTypedKeys.declared l) x = Some k) ->
  rb_matches env perm (fun c => with_defaults solvers order (user c)) isinst check r ctx input = Ok f ->
  In m (all_found f) -> m_private m = false -> has_literal m = false -> m_name m = Some x -> x <> [] -> m_value m = converter cast k (m_raw m).
Proof.
  intros cast obj Ctx R ctx r g ks gs env perm solvers order user isinst check input f m x k Hn Hu Hk E Hm Pm Lm N Nx.
  destruct (C145_values_partial Hn Hu E Hm Pm Lm N Nx) as (h & l & T & _ & V). exact (V k (Hk h l T)).
Qed.
(** With the check of declared keys switched on nothing changes, if every object taking part declares, for each name which has a key in force, a key whose converter
    makes values of the type of the key in force (or None).  Missing: that each converter makes values of the type of its own key is not enough (see C145_check_refuted) *)
Theorem C145_check_partial : forall cast obj Ctx R (ctx : Ctx) (r : rb Ctx) g ks gs env perm (bh : Ctx -> behav found R) isinst input,
  nest cast obj r g ks gs ->
  (forall h l x k, taking_part ctx r g ks gs h l -> effective ctx r ks gs x k ->
     exists k', dfind (PropsTypedKeys.declared l) x = Some k' /\ forall t, raw_text t -> converter cast k' t = VNone \/ isinst (converter cast k' t) (Typed.k_type k) = true) ->
  rb_matches env perm bh isinst true r ctx input = rb_matches env perm bh isinst false r ctx input.
Proof.
  intros cast obj Ctx R ctx r g ks gs env perm bh isinst input Hn HT.
  unfold rb_matches, matches_patterns. destruct (rb_disabled r ctx); [reflexivity|].
  change {| fd_next := 0; fd_matches := empty_coll KMatches (Some input); fd_markers := empty_coll KMarkers (Some input); fd_keys := effective_keys ctx r |}
    with (fresh input (effective_keys ctx r)).
  destruct (@run_patterns_spec Ctx ctx input (effective_patterns ctx r) (fresh input (effective_keys ctx r)) eq_refl eq_refl) as [A _].
  destruct (run_patterns ctx input (effective_patterns ctx r) (fresh input (effective_keys ctx r))) as [f1|e]; [|reflexivity].
  destruct (A f1 eq_refl) as (outs & n' & Y & Ef1). cbn [fd_next fresh] in Y. destruct (stage_del input (effective_keys ctx r) outs n') as (S1 & _ & _). rewrite <- Ef1 in S1.
  assert (check_declared_keys isinst (fd_keys f1) (fd_matches f1) = Ok tt) as ->; [|reflexivity].
  destruct (C55_contract_check isinst (fd_keys f1) (fd_matches f1)) as [C [X|X]]; [|exact X]. exfalso.
  apply C in X as (m & x & k & Hm & Nx & Hx & Dk & Pm & Lm & Vm & Im).
  assert (fd_keys f1 = effective_keys ctx r) as Ek by (rewrite Ef1; reflexivity). rewrite Ek in Dk. clear C A Ek. rewrite S1 in Hm. apply filter_In in Hm as [Hm _].
  assert (exists p n n1 out raws, In p (effective_patterns ctx r) /\ pt_match p ctx n input = Ok (n1, (out, raws)) /\ In m out) as (p & n & n1 & out & raws & Hp & Ep & Ho).
  { clear - Y Hm. induction Y as [n|p ps n outs n' D Y IH|p ps n n1 out raws outs n' D E Y IH]; [destruct Hm|..].
    - destruct (IH Hm) as (q & a & b & c & d & H1 & H2). exists q, a, b, c, d. split; [right; exact H1|exact H2].
    - cbn [concat] in Hm. apply in_app_or in Hm as [H|H].
      + exists p, n, n1, out, raws. split; [left; reflexivity|]. split; assumption.
      + destruct (IH H) as (q & a & b & c & d & H1 & H2). exists q, a, b, c, d. split; [right; exact H1|exact H2]. }
  destruct (pattern_owner Hn Hp) as (h & l & o & T & K & Hp'). pose proof (object_displays (kd_plain K) (kd_object K) Hp' Ep Ho) as D.
  pose proof (shown_valued D Pm Lm Nx Hx) as V. destruct (HT h l x k T (effective_key Hn Dk)) as (k' & Dk' & Tk). pose proof (keyed_settled K Hx V Dk') as V'.
  destruct (Tk (m_raw m) (raw_is_text m)) as [Z|Z]; rewrite <- V' in Z; congruence.
Qed.

(** ** Cases.  The object: [declare_keys(Key("year", int))] (here the "int" of a text is its length) and [string("ab", name="year")]; a sub-Rebulk with
    [string("c", name="year")], which declares nothing ([bare_program]), or a key for "year" of its own: an int too ([same_program]), or a str ([other_program]) *)
Definition year_text : Typed.key := Typed.Key (s "year") 2 None.
Definition one_pattern (ks : list Typed.key) (t : pstr) : program :=
  Program W_case (fun _ _ => false) (fun x => x) false heap_case [(0, SDeclare (map (handed obj_case) ks)); (0, SPattern NoKey [(s "name", BVal (VStr (s "year")))] (GString [t]))]%nat.
Definition main_program : program := one_pattern [year] (s "ab").
Definition object_over (ks : list Typed.key) : rb unit :=
  object_by main_program 0 (fun _ => false) no_info default_rules (PropsTypedKeys.declared [year])
    [object_by (one_pattern ks (s "c")) 10 (fun _ => false) no_info [] (PropsTypedKeys.declared ks) []].
Definition search_over (check : bool) (ks : list Typed.key) : res found :=
  rb_matches default_env (fun l => l) (fun _ => with_defaults (fun _ _ _ => VDefault) (fun l => l) idle) isinst_case check (object_over ks) tt (s "ab c").
Definition told (r : res found) : list (Z * Z * pyval) := match r with Ok f => map (fun m => (m_start m, m_end m, m_value m)) (all_found f) | Err _ => [] end.
Lemma one_pattern_keyed ks t first rules subs : (forall k, In k ks -> Typed.k_name k <> k_clear) -> keyed cast_case obj_case (object_by (Ctx := unit) (one_pattern ks t) first (fun _ => false) no_info rules (PropsTypedKeys.declared ks) subs) (one_pattern ks t) ks <->
  forall k x, In k ks -> call_formatter W_case (VObj (Npos (obj_case k))) x = converter cast_case k x.
Proof.
  intro KN. split; [intro K; exact (kd_converters K)|]. intro HW.
  assert (Pl : plain (one_pattern ks t)).
  { unfold plain. cbn [one_pattern pg_calls pg_heap]. constructor; [exact I|]. constructor; [|constructor]. cbn [snd plain_call].
    repeat split; [repeat constructor; intros []|intros a []|intros k _ x E; apply dfind_In in E; destruct E as [E|[]]; discriminate]. }
  split; [exact Pl| |unfold object_of; repeat eexists|reflexivity|exact HW].
  eapply C144_no_formatter; [reflexivity|exact Pl|intro a; constructor|intro a; reflexivity|exact KN|]. intros i k Hk. destruct Hk as [Hk|[]]. injection Hk as <- <-. split; [left; reflexivity|reflexivity].
Qed.
Lemma nest_over ks : (forall k, In k ks -> Typed.k_name k <> k_clear) -> (forall k x, In k ks -> call_formatter W_case (VObj (Npos (obj_case k))) x = converter cast_case k x) ->
  nest cast_case obj_case (object_over ks) main_program [year] [(one_pattern ks (s "c"), ks)].
Proof. intros KN H. split; [apply one_pattern_keyed; [intros k [<-|[]]; discriminate|intros k x [<-|[]]; reflexivity]|]. constructor; [apply one_pattern_keyed; assumption|constructor]. Qed.
(** A property: the key an object declares for a name gives the values of the matches of that name it returns, those of its sub-Rebulks included *)
Definition keys_reach_subs : Prop := forall cast obj Ctx R (ctx : Ctx) (r : rb Ctx) g ks gs env perm solvers order (user : Ctx -> behav found R) isinst check input f m x k,
  nest cast obj r g ks gs -> (forall u, adds_nothing (user ctx) u) ->
  rb_matches env perm (fun c => with_defaults solvers order (user c)) isinst check r ctx input = Ok f ->
  In m (all_found f) -> m_private m = false -> has_literal m = false -> m_name m = Some x -> x <> [] -> effective ctx r ks gs x k -> m_value m = converter cast k (m_raw m).
(** A property: when every converter makes values of the type of its key, the check changes nothing *)
Definition check_calm : Prop := forall cast obj Ctx R (ctx : Ctx) (r : rb Ctx) g ks gs env perm (bh : Ctx -> behav found R) isinst input,
  nest cast obj r g ks gs ->
  (forall h l k t, taking_part ctx r g ks gs h l -> In k l -> raw_text t -> converter cast k t = VNone \/ isinst (converter cast k t) (Typed.k_type k) = true) ->
  rb_matches env perm bh isinst true r ctx input = rb_matches env perm bh isinst false r ctx input.
(** without a key of its own, the sub-Rebulk gives texts *)
Lemma idle_adds (u : nat) : adds_nothing idle u.
Proof. intros f f1 x [= <- <-]. split; [|intros resp _ _]; apply incl_refl. Qed.
Lemma search_known (P : found -> Prop) check ks : (forall f, rb_matches default_env (fun l => l) (fun c => with_defaults (fun _ _ _ => VDefault) (fun l => l) ((fun _ => idle) c)) isinst_case check (object_over ks) tt (s "ab c") = Ok f -> P f) ->
  forall f, search_over check ks = Ok f -> P f.
Proof. intro H. exact H. Qed.
Definition no_keys : list Typed.key := [].
Lemma over_nothing : nest cast_case obj_case (object_over no_keys) main_program [year] [(one_pattern no_keys (s "c"), no_keys)].
Proof. apply nest_over; [intros k []|intros k x []]. Qed.
Lemma year_settles : keys_reach_subs -> forall f, search_over false no_keys = Ok f -> forall m, In m (all_found f) -> m_private m = false -> has_literal m = false -> m_name m = Some (s "year") -> m_value m = converter cast_case year (m_raw m).
Proof.
  intro H. refine (search_known _). intros f E m Hm P L N.
  refine (H cast_case obj_case unit _ tt _ _ _ _ _ _ _ _ _ _ _ _ f m (s "year") year over_nothing idle_adds E Hm P L N _ _); [discriminate|].
  apply effective_own. reflexivity.
Qed.
Theorem C145_values_refuted : ~ keys_reach_subs.
Proof.
  intro H. pose proof (year_settles H) as X.
  assert (Y : match search_over false no_keys with Ok f => Some (map (fun m => (m_name m, m_private m, has_literal m, m_value m, m_raw m)) (all_found f)) | Err _ => None end
     = Some [(Some (s "year"), false, false, VInt 2, VStr (s "ab")); (Some (s "year"), false, false, VStr (s "c"), VStr (s "c"))]) by (vm_compute; reflexivity).
  destruct (search_over false no_keys) as [f|]; [|discriminate]. specialize (X f eq_refl). injection Y as Y.
  destruct (all_found f) as [|m1 [|m2 [|]]]; try discriminate. cbn [map] in Y. injection Y as _ _ _ _ _ N P L V W.
  specialize (X m2 (or_intror (or_introl eq_refl)) P L N). rewrite V, W in X. discriminate.
Qed.
Lemma calm_over ks : check_calm -> nest cast_case obj_case (object_over ks) main_program [year] [(one_pattern ks (s "c"), ks)] ->
  (forall h l k t, taking_part tt (object_over ks) main_program [year] [(one_pattern ks (s "c"), ks)] h l -> In k l -> raw_text t -> converter cast_case k t = VNone \/ isinst_case (converter cast_case k t) (Typed.k_type k) = true) ->
  search_over true ks = search_over false ks.
Proof.
  intros H N HT. unfold search_over. exact (H _ _ unit _ tt (object_over ks) _ _ _ default_env (fun l => l) (fun _ => with_defaults (fun _ _ _ => VDefault) (fun l => l) idle) isinst_case (s "ab c") N HT).
Qed.
Definition answered (r : res found) : bool := match r with Ok _ => true | Err _ => false end.
Lemma search_refused : answered (search_over true no_keys) = false. Proof. vm_compute. reflexivity. Qed.
Lemma search_answered : answered (search_over false no_keys) = true. Proof. vm_compute. reflexivity. Qed.
(** the check refuses the texts a sub-Rebulk without the key gives *)
Theorem C145_check_refuted : ~ check_calm.
Proof.
  intro H.
  assert (X : search_over true no_keys = search_over false no_keys).
  { apply (calm_over H over_nothing).
    intros h l k t [[-> ->]|(i & sub & Hi & _)] Hk Rt; [destruct Hk as [<-|[]]; apply (cast_keeps (or_introl eq_refl) Rt)|]. destruct i as [|[|i]]; try discriminate. injection Hi as <- <-. destruct Hk. }
  exact (Bool.diff_false_true (eq_trans (eq_sym search_refused) (eq_trans (f_equal answered X) search_answered))).
Qed.
(** With the same key declared by the sub-Rebulk everything found is an int; with nothing declared, or another key, by the sub-Rebulk its text stays, and the check raises *)
Print Assumptions C145_check_refuted.
Example C145_case :
  (forall ks, ks = [] \/ ks = [year] \/ ks = [year_text] -> nest cast_case obj_case (object_over ks) main_program [year] [(one_pattern ks (s "c"), ks)])
  /\ (forall h l x k, taking_part tt (object_over [year]) main_program [year] [(one_pattern [year] (s "c"), [year])] h l -> effective tt (object_over [year]) [year] [(one_pattern [year] (s "c"), [year])] x k ->
      exists k', dfind (PropsTypedKeys.declared l) x = Some k' /\ forall t, raw_text t -> converter cast_case k' t = VNone \/ isinst_case (converter cast_case k' t) (Typed.k_type k) = true)
  /\ told (search_over true [year]) = [(0, 2, VInt 2); (3, 4, VInt 1)]
  /\ told (search_over false []) = [(0, 2, VInt 2); (3, 4, VStr (s "c"))] /\ match search_over true [] with Err TypeError => True | _ => False end
  /\ told (search_over false [year_text]) = [(0, 2, VInt 2); (3, 4, VStr (s "c"))] /\ match search_over true [year_text] with Err TypeError => True | _ => False end.
Proof.
  split; [|split; [|split; [vm_compute; reflexivity|split; [vm_compute; reflexivity|split; [vm_compute; exact I|split; [vm_compute; reflexivity|vm_compute; exact I]]]]]].
  - intros ks Hk. apply nest_over; [intros k Hin; destruct Hk as [->|[->| ->]]; [destruct Hin|destruct Hin as [<-|[]]; discriminate|destruct Hin as [<-|[]]; discriminate]|]. intros k x Hin. destruct Hk as [->|[->| ->]]; [destruct Hin|destruct Hin as [<-|[]]; reflexivity|destruct Hin as [<-|[]]; reflexivity].
  - intros h l x k T Ek. assert (L : l = [year]). { destruct T as [[_ ->]|(i & sub & Hi & _)]; [reflexivity|]. destruct i as [|[|i]]; try discriminate. injection Hi as _ <-. reflexivity. }
    subst l. assert (K : dfind (PropsTypedKeys.declared [year]) x = Some k).
    { destruct Ek as [E|i h' sub _ Hi _ _ E _]; [exact E|]. destruct i as [|[|i]]; try discriminate. injection Hi as <-. exact E. }
    exists k. split; [exact K|]. intros t Rt. rewrite (last_handed obj_case) in K. apply find_some in K as [K _]. destruct K as [<-|[]]. exact (cast_keeps (or_introl eq_refl) Rt).
Qed.
Print Assumptions C145_check_refuted. Print Assumptions C145_values_partial. Print Assumptions C145_same_key. Print Assumptions C145_check_partial. Print Assumptions C145_case.
