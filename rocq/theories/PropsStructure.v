(** * Property C140: what a program builds - which calls add, change and close what *)
From Verif Require Import Typed Base BaseFacts Match Coll Loose Pattern Rules Chain Builder BuilderFacts PropsBuilder PropsKeys Rebulk Pipeline SpecNest Assemble PropsAssemble Fluent PropsFluent Built PropsBuilt Site PropsSite.
From Coq Require String.
Export Coq.Strings.String.StringSyntax.
Open Scope string_scope.
Open Scope list_scope.
Set Implicit Arguments.
Unset Strict Implicit.
Open Scope Z_scope.

(** ** Specification *)
(** what is searched for, with the options in force *)
Definition searched_with (lower : pstr -> pstr) (captures : bool) (h : heap) (get : pstr -> option bval) (what : searched) : psource :=
  match what with
  | GString texts => SString lower (StringOpts (int_option (get (s "start"))) (int_option (get (s "end"))) (flag h (get (s "ignore_case")))) texts
  | GRegex rxs => SRegex (match get (s "repeated_captures") with Some v => btruthy h v | None => captures end) rxs
  | GFunctional fs => SFunctional fs
  end.
(** The calls of a program read as calls which assemble patterns and chains (Fluent.v): configuration adds nothing and
    returns the builder, a part refuses it; chain() on a part takes no option; a pattern is searched with the options in
    force, a chain has the breaker in force; repeater(), hidden() and close() are what they are *)
Inductive understood (call_breaker : pyval -> list mtch -> bool) (lower : pstr -> pstr) (captures : bool) : list sevent -> list (event made) -> Prop :=
| und_start : understood call_breaker lower captures [] []
| und_config log fl e : understood call_breaker lower captures log fl -> match sv_call e with SDefaults _ _ | SDeclare _ => True | _ => False end ->
    sv_result e = match sv_on e with HPart _ _ => Err AttributeError | o => Ok o end -> understood call_breaker lower captures (log ++ [e]) fl
| und_refused log fl e c i x kw : understood call_breaker lower captures log fl -> sv_call e = SChain (x :: kw) -> sv_on e = HPart c i -> sv_result e = Err TypeError ->
    understood call_breaker lower captures (log ++ [e]) fl
| und_repeater log fl e v : understood call_breaker lower captures log fl -> sv_call e = SRepeater v ->
    understood call_breaker lower captures (log ++ [e]) (fl ++ [Event (sv_on e) (KRepeater v) (sv_result e)])
| und_hidden log fl e v : understood call_breaker lower captures log fl -> sv_call e = SHidden v ->
    understood call_breaker lower captures (log ++ [e]) (fl ++ [Event (sv_on e) (KHidden v) (sv_result e)])
| und_close log fl e : understood call_breaker lower captures log fl -> sv_call e = SClose ->
    understood call_breaker lower captures (log ++ [e]) (fl ++ [Event (sv_on e) KClose (sv_result e)])
| und_failed log fl e x : understood call_breaker lower captures log fl -> (exists key kw what, sv_call e = SPattern key kw what) -> sv_result e = Err x ->
    understood call_breaker lower captures (log ++ [e]) (fl ++ [Event (sv_on e) (KAdd (Err x)) (Err x)])
| und_failed_chain log fl e x : understood call_breaker lower captures log fl -> (exists kw, sv_call e = SChain kw) -> sv_result e = Err x ->
    understood call_breaker lower captures (log ++ [e]) (fl ++ [Event (sv_on e) (KChain (Err x)) (Err x)])
| und_pattern log fl e key kw what c p : understood call_breaker lower captures log fl -> sv_call e = SPattern key kw what -> in_force log (builder_of (sv_on e)) c ->
    understood call_breaker lower captures (log ++ [e])
      (fl ++ [Event (sv_on e) (KAdd (Ok (Leaf p (searched_with lower captures (sv_built e) (wanted_by c (kind_searched what) key kw) what)))) (sv_result e)])
| und_chain log fl e kw c p : understood call_breaker lower captures log fl -> sv_call e = SChain kw -> in_force log (builder_of (sv_on e)) c ->
    (exists n, sv_result e = Ok (HBuilder n)) -> (forall a i, sv_on e = HPart a i -> kw = []) ->
    understood call_breaker lower captures (log ++ [e])
      (fl ++ [Event (sv_on e) (KChain (Ok (Opened p (option_map call_breaker (callable (wanted_by c Builder.KChain NoKey kw (s "chain_breaker"))))))) (sv_result e)]).

(** ** Proof *)
Lemma source_searched lower captures h get p what : (forall k, k <> k_overrides -> k <> k_formatter -> dfind (bp_opts p) k = get k) ->
  source lower captures h p what = searched_with lower captures h get what.
Proof. intro G. destruct what; cbn [source searched_with]; rewrite ?G by discriminate; reflexivity. Qed.
Section Structure.
  Variables (W : callables) (call_breaker : pyval -> list mtch -> bool) (lower : pstr -> pstr) (captures : bool) (h0 : heap).
  Lemma plain_understood t i sc k : 
    (sc, k) = (SClose, KClose) \/ (exists v, sc = SRepeater v /\ k = KRepeater v) \/ (exists v, sc = SHidden v /\ k = KHidden v) ->
    understood call_breaker lower captures (si_log t) (se_log (si_session t)) ->
    understood call_breaker lower captures (si_log (plain_act t i sc k)) (se_log (si_session (plain_act t i sc k))).
  Proof.
    intros K U. unfold plain_act. destruct (step _ _ _) as [w r] eqn:E. destruct (act_eq E) as [_ A2]. cbn [si_log si_session]. rewrite A2.
    destruct K as [K|[(v & -> & ->)|(v & -> & ->)]]; [injection K as -> ->|..].
    - apply (@und_close _ _ _ _ _ (SEvent (nth i (se_held (si_session t)) HRoot) SClose r (si_heap t) (si_heap t) (si_heap t))); [exact U|reflexivity].
    - apply (@und_repeater _ _ _ _ _ (SEvent (nth i (se_held (si_session t)) HRoot) (SRepeater v) r (si_heap t) (si_heap t) (si_heap t))); [exact U|reflexivity].
    - apply (@und_hidden _ _ _ _ _ (SEvent (nth i (se_held (si_session t)) HRoot) (SHidden v) r (si_heap t) (si_heap t) (si_heap t))); [exact U|reflexivity].
  Qed.
  Lemma step_chain_result (w : world made) o a w' r : step w o (KChain (Ok a)) = (w', r) -> exists n, r = Ok (HBuilder n).
  Proof. destruct o as [|c|c j]; cbn [step builder_call]; [intros [= <- <-]; eauto|..]; destruct (add_part _ _ _); intros [= <- <-]; eauto. Qed.
  Lemma step_failed (w : world made) o x w' r : step w o (KAdd (Err x)) = (w', r) \/ step w o (KChain (Err x)) = (w', r) -> r = Err x.
  Proof. destruct o as [|c|c j]; cbn [step builder_call]; intros [[= <- <-]|[= <- <-]]; reflexivity. Qed.
  Lemma step_understood t a : ok W call_breaker lower captures h0 t -> plain_call h0 (snd a) ->
    understood call_breaker lower captures (si_log t) (se_log (si_session t)) ->
    understood call_breaker lower captures (si_log (site_step W call_breaker lower captures t a)) (se_log (si_session (site_step W call_breaker lower captures t a))).
  Proof.
    intros O H U. destruct a as [i sc]. cbn [snd] in H. unfold site_step. cbn [fst snd].
    pose proof (known_target i O) as Kn. pose proof (ok_force O Kn) as Fo. set (o := nth i (se_held (si_session t)) HRoot) in *.
    destruct (ok_good O (builder_of o)) as (G1 & G2 & _ & _).
    destruct sc as [g kw|ks|key kw what|kw|v|v|].
    - destruct o as [|c|c j] eqn:Eo.
      1, 2: destruct (defaults _ _ _ _) as [h f]; cbn [si_log si_session]; apply und_config; [exact U|exact I|reflexivity].
      unfold refuse. cbn [si_log si_session]. apply und_config; [exact U|exact I|reflexivity].
    - destruct o as [|c|c j] eqn:Eo; unfold refuse; cbn [si_log si_session]; apply und_config; first [exact U|exact I|reflexivity].
    - destruct (add _ _ _ _ _) as [[h f] r] eqn:E. cbv zeta. destruct (step _ _ _) as [w res] eqn:Es. destruct (act_eq Es) as [_ A2]. fold o in A2. cbn [si_log si_session]. rewrite A2.
      destruct r as [p|x].
      + rewrite (@source_searched lower captures h (wanted_by (fun g => dfind (f_defaults (si_factory t (builder_of o)) g)) (kind_searched what) key kw) p what).
        * exact (@und_pattern call_breaker lower captures (si_log t) (se_log (si_session t)) (SEvent o (SPattern key kw what) res (si_heap t) h h) key kw what _ _ U eq_refl Fo).
        * intros k Hk Kf. apply (wanted_by_built G1 G2 (proj1 H) E Hk). intro X. contradiction.
      + assert (res = Err x) as -> by (eapply step_failed; left; exact Es).
        exact (@und_failed call_breaker lower captures (si_log t) (se_log (si_session t)) (SEvent o (SPattern key kw what) (Err x) (si_heap t) h h) x U (ex_intro _ key (ex_intro _ kw (ex_intro _ what eq_refl))) eq_refl).
    - assert (X : (forall c j, o = HPart c j -> kw = []) -> forall t', t' = (let '(h, f, r) := add (si_heap t) (si_factory t (builder_of o)) Builder.KChain NoKey kw in
            let k := KChain match r with Ok p => Ok (opened W call_breaker h (length (si_log t)) p) | Err e => Err e end in
            let '(_, res) := step (se_world (si_session t)) o k in
            let fs := put_factory (si_factory t) (builder_of o) f in
            match r with
            | Ok _ => let '(h', f') := chain_factory h f in
                      Site h' (put_factory fs (Some (w_count (se_world (si_session t)))) f') (act (si_session t) (i, k)) (si_log t ++ [SEvent o (SChain kw) res (si_heap t) h h'])
            | Err _ => Site h fs (act (si_session t) (i, k)) (si_log t ++ [SEvent o (SChain kw) res (si_heap t) h h])
            end) -> understood call_breaker lower captures (si_log t') (se_log (si_session t'))).
      { intros Np t' ->. destruct (add _ _ _ _ _) as [[h f] r] eqn:E. cbv zeta. destruct (step _ _ _) as [w res] eqn:Es. destruct (act_eq Es) as [_ A2]. fold o in A2.
        destruct r as [p|x].
        - destruct (chain_factory h f) as [h' f']. cbn [si_log si_session]. rewrite A2. unfold opened.
          rewrite (wanted_by_built G1 G2 (proj1 H) E) by (discriminate || (intros _; exact I)).
          apply (@und_chain call_breaker lower captures (si_log t) (se_log (si_session t)) (SEvent o (SChain kw) res (si_heap t) h h') kw _ _ U eq_refl Fo).
          + eapply step_chain_result. exact Es.
          + exact Np.
        - cbn [si_log si_session]. rewrite A2. assert (res = Err x) as -> by (eapply step_failed; right; exact Es).
          exact (@und_failed_chain call_breaker lower captures (si_log t) (se_log (si_session t)) (SEvent o (SChain kw) (Err x) (si_heap t) h h) x U (ex_intro _ kw eq_refl) eq_refl). }
      destruct o as [|c|c j] eqn:Eo; [apply X; [discriminate|reflexivity]|apply X; [discriminate|reflexivity]|].
      destruct kw as [|x kw]; [apply X; [reflexivity|reflexivity]|]. unfold refuse. cbn [si_log si_session].
      exact (@und_refused call_breaker lower captures (si_log t) (se_log (si_session t)) (SEvent (HPart c j) (SChain (x :: kw)) (Err TypeError) (si_heap t) (si_heap t) (si_heap t)) c j x kw U eq_refl eq_refl eq_refl).
    - apply plain_understood; [right; left; eauto|exact U].
    - apply plain_understood; [right; right; eauto|exact U].
    - apply plain_understood; [left; reflexivity|exact U].
  Qed.
End Structure.

(** A program assembles what the calls it makes, read so, assemble (C122 to C126 say what that is); the outcome of each call is the one logged *)
Theorem C140_structure : forall W call_breaker lower captures h ops, Forall (fun a => plain_call h (snd a)) ops ->
  let t := site_of W call_breaker lower captures h ops in
  understood call_breaker lower captures (si_log t) (se_log (si_session t)) /\ exists calls, si_session t = session_of calls.
Proof.
  intros W call_breaker lower captures h ops F t. split; [|destruct (ok_session (site_ok W call_breaker lower captures F)) as (fops & _ & E); eauto].
  unfold t. clear t. revert F. induction ops as [|a ops IH] using rev_ind; intro F; [constructor|].
  apply Forall_app in F as [F Fa]. inversion Fa; subst. unfold site_of. rewrite fold_left_app. cbn [fold_left].
  apply step_understood with (h0 := h); [apply site_ok; exact F|assumption|exact (IH F)].
Qed.

(** the patterns and chains registered are distinct objects *)
Theorem C140_distinct : forall Ctx (info : pinfo) rules keys ts,
  NoDup (map (@pt_id Ctx) (rb_patterns (searching info rules keys ts))) /\ length (rb_patterns (@searching Ctx info rules keys ts)) = length ts.
Proof.
  intros Ctx info rules keys ts. unfold searching. cbn [rb_patterns].
  assert (forall ts i, map (@pt_id Ctx) (number_from (tree_pattern info) i ts) = seq i (length ts)) as X.
  { clear. induction ts as [|x r IH]; intro i; cbn [number_from map seq length]; [reflexivity|]. now rewrite IH. }
  split; [rewrite X; apply seq_NoDup|]. pose proof (f_equal (@length nat) (X ts 0%nat)) as E. rewrite map_length, seq_length in E. exact E.
Qed.

(** ** A case: [b = rb.chain(chain_breaker=f)]; [p = b.string("a")]; [p.hidden()]; [p.hidden(False)]; [p.chain(name="x")] and [p.defaults()] are
    refused; [p.repeater("+")]; [p.close()] returns the root builder *)
Definition structured : list (nat * scall) :=
  [(0, SChain [(s "chain_breaker", BVal (VObj 3))]); (1, SPattern NoKey [] (GString [s "a"])); (2, SHidden true); (2, SHidden false);
   (2, SChain [(s "name", BVal (VStr (s "x")))]); (2, SDefaults GAll []); (2, SRepeater (RStr (s "+"))); (2, SClose)]%nat.
Example C140_case :
  let t := site_of some_callables (fun v l => match v with VObj 3 => Nat.leb 2 (length l) | _ => false end) (fun x => x) false (Heap 0 (fun _ => [])) structured in
  Forall (fun a => plain_call (Heap 0 (fun _ => [])) (snd a)) structured
  /\ map sv_result (si_log t) = [Ok (HBuilder 0); Ok (HPart 0 0); Ok (HPart 0 0); Ok (HPart 0 0); Err TypeError; Err AttributeError; Ok (HPart 0 0); Ok HRoot]
  /\ match w_options (se_world (si_session t)) 0%nat with Some (Opened _ (Some br)) => br [] = false | _ => False end
  /\ map (fun q => (fp_repeat q, fp_hidden q)) (w_parts (se_world (si_session t)) 0%nat) = [((1, None), false)].
Proof.
  cbv zeta. split; [|vm_compute; auto]. unfold structured.
  assert (P : forall kw, NoDup (dkeys kw) -> (forall k v, In (k, v) kw -> exists w, v = BVal w) -> (forall k, In k [s "pre_match_processor"; s "post_match_processor"; s "post_processor"] -> ~ In k (dkeys kw)) -> plain_kw (Heap 0 (fun _ => [])) kw).
  { intros kw N V Q. split; [exact N|]. split.
    - intros a Ha. exfalso. unfold addrs in Ha. apply in_flat_map in Ha as ([k v] & Hk & Ha). destruct (V _ _ Hk) as (w & ->). destruct Ha.
    - intros k Hk n E. apply dfind_In in E. apply (Q k Hk). unfold dkeys. change k with (fst (k, BVal (VObj n))). now apply in_map. }
  repeat (apply Forall_cons; [cbn [snd plain_call]; first [exact I|idtac]|]); [..|apply Forall_nil].
  4: split; [|intro a; vm_compute; discriminate].
  all: apply P; [repeat constructor; cbn; intuition discriminate|cbn; intros k v Hk; repeat (destruct Hk as [Hk|Hk]; [injection Hk as <- <-; eauto|]); destruct Hk|intros k Hk; cbn in Hk |- *; intuition (subst; discriminate)].
Qed.
Print Assumptions C140_structure. Print Assumptions C140_distinct.
