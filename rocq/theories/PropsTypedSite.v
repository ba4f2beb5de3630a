(** * Property C144: values in whole programs: chains, nested chains, functional patterns and sub-Rebulks included *)
From Coq Require Import Permutation.
From Verif Require Import Typed PropsTyped Base BaseFacts Match MatchFacts Coll CollFacts Loose Conseq ConseqFacts Processors ProcFacts Pattern PatternFacts PropsLoose PropsPattern Topo Rules RulesFacts PropsRules Chain SpecChain PropsChain Builder BuilderFacts PropsBuilder PropsKeys Rebulk RebulkFacts PropsRebulk Pipeline SpecNest SpecOnce OnceFacts PropsOnce PropsInside Assemble PropsAssemble PropsTypedKeys PropsFunction SpecMoved PropsMoved PropsParts Fluent PropsFluent Built PropsBuilt Site PropsSite PropsSiteSub.
From Coq Require String.
Export Coq.Strings.String.StringSyntax.
Open Scope string_scope.
Open Scope list_scope.
Set Implicit Arguments.
Unset Strict Implicit.
Open Scope Z_scope.

(** ** Specification *)
(** the options in force for what a call builds *)
Definition options_of (c : config) (k : scall) : pstr -> option bval :=
  match k with
  | SPattern key kw what => wanted_by c (kind_searched what) key kw
  | SChain kw => wanted_by c Builder.KChain NoKey kw
  | _ => fun _ => None
  end.
(** what a formatter makes of a raw text: a falsy one and the library's (none given) leave it as it is *)
Definition made_of (W : callables) (f : option pyval) (t : pyval) : pyval :=
  match f with Some v => if truthy v && negb (py_eqb v library_formatter) then call_formatter W v t else t | None => t end.
(** the call [e] of the program, made on the builder [b], builds a pattern or opens a chain; [c]: the configuration, [keys]: the keys declared, in force for it *)
Definition builds (log : list sevent) (b : option nat) (e : sevent) (c : config) (keys : pstr -> option pyval) : Prop :=
  (exists before after, log = before ++ e :: after /\ PropsSite.in_force before b c /\ PropsSite.declared before b keys)
  /\ builder_of (sv_on e) = b /\ (exists o, sv_result e = Ok o) /\ match sv_call e with SPattern _ _ _ | SChain _ => True | _ => False end.
(** what the call builds can return matches called [x]: all of them have the name given, but groups, pieces of chains and what functions make *)
Definition may_return (e : sevent) (get : pstr -> option bval) (x : pstr) : Prop :=
  match sv_call e with SPattern _ _ what => kind_searched what = KFunctional \/ may_be_called (sv_built e) get x | _ => True end.
(** the option "formatter" in force for what a call builds (see [given_by]: several keys make a dictionary) *)
Definition formatter_at (e : sevent) (c : config) (gf : option bval) : Prop :=
  match sv_call e with
  | SPattern key kw what => given_by (sv_before e) (sv_built e) c (kind_searched what) key kw gf
  | _ => gf = options_of c (sv_call e) (s "formatter")
  end.
(** the value is what the formatter in force for such a match (see [formatter_for]) makes of the raw text *)
Definition valued (g : program) (m : mtch) (x : pstr) : Prop :=
  exists e c keys child gf, builds (si_log (site_by g)) None e c keys /\ may_return e (options_of c (sv_call e)) x /\ formatter_at e c gf
    /\ m_value m = made_of (pg_callables g) (formatter_for (sv_built e) gf keys child (Some x)) (m_raw m).
(** the call is given several keys, all of them declared, and no formatter; the defaults give no dictionary of formatters; no dictionary of options uses the name "clear" *)
Definition several_declared (obj : Typed.key -> positive) (ks : list Typed.key) (e : sevent) (c : config) : Prop :=
  exists l kw what, sv_call e = SPattern (Keys (map (handed obj) l)) kw what /\ l <> [] /\ (forall k, In k l -> dfind (PropsTypedKeys.declared ks) (Typed.k_name k) = Some k /\ Typed.k_name k <> k_clear)
    /\ dfind kw (s "formatter") = None /\ (forall b, c (GKind (kind_searched what)) (s "formatter") <> Some (BDict b) /\ c GAll (s "formatter") <> Some (BDict b))
    /\ proper_heap (sv_before e) /\ clear_free (sv_before e).
(** the call is given no sequence of keys *)
Definition no_sequence (e : sevent) : Prop := match sv_call e with SPattern (Keys (_ :: _)) _ _ => False | _ => True end.
(** the keys are declared first, once, on the Rebulk object, and every other call leaves the formatters to them: no formatter is in force, or the call
    (not for a functional pattern) is given one of the keys and its pattern returns no children, or the call is given several of the keys *)
Definition keys_first (obj : Typed.key -> positive) (ks : list Typed.key) (g : program) : Prop :=
  (exists calls, pg_calls g = (0%nat, SDeclare (map (handed obj) ks)) :: calls /\ forall i l, ~ In (i, SDeclare l) calls)
  /\ forall b e c keys, builds (si_log (site_by g)) b e c keys ->
     let get := options_of c (sv_call e) in
     (no_sequence e /\ get (s "formatter") = None)
     \/ several_declared obj ks e c
     \/ exists k kw what, sv_call e = SPattern (OneKey (handed obj k)) kw what /\ kind_searched what <> KFunctional /\ dfind (PropsTypedKeys.declared ks) (Typed.k_name k) = Some k
        /\ get (s "formatter") = Some (BVal (VObj (Npos (obj k)))) /\ get (s "name") = Some (BVal (VStr (Typed.k_name k)))
        /\ flag (sv_built e) (get (s "children")) = false /\ flag (sv_built e) (get (s "every")) = false.

(** ** Proofs *)
(** *** the log tells the calls of the program, in order *)
Lemma step_call W call_breaker lower captures t a : exists ev, si_log (site_step W call_breaker lower captures t a) = si_log t ++ [ev] /\ sv_call ev = snd a
  /\ (forall l, snd a = SDeclare l -> (match nth (fst a) (se_held (si_session t)) HRoot with HPart _ _ => False | _ => True end) -> sv_on ev = nth (fst a) (se_held (si_session t)) HRoot /\ exists o, sv_result ev = Ok o).
Proof.
  destruct a as [i sc]. unfold site_step. cbn [fst snd]. set (o := nth i (se_held (si_session t)) HRoot). destruct sc as [g kw|ks|key kw what|kw|v|v|].
  - destruct o; try (destruct (defaults _ _ _ _)); (eexists; split; [reflexivity|]; split; [reflexivity|discriminate]).
  - destruct o; (eexists; split; [reflexivity|]; split; [reflexivity|]); intros l _ H; try contradiction; split; try reflexivity; eexists; reflexivity.
  - destruct (add _ _ _ _ _) as [[h f] r]. destruct (step _ _ _) as [w res]. eexists. split; [reflexivity|]. split; [reflexivity|discriminate].
  - assert (exists ev, si_log (let '(h, f, r) := add (si_heap t) (si_factory t (builder_of o)) Builder.KChain NoKey kw in
            let k := KChain match r with Ok p => Ok (opened W call_breaker h (length (si_log t)) p) | Err e => Err e end in
            let '(_, res) := step (se_world (si_session t)) o k in
            let fs := put_factory (si_factory t) (builder_of o) f in
            match r with
            | Ok _ => let '(h', f') := chain_factory h f in
                      Site h' (put_factory fs (Some (w_count (se_world (si_session t)))) f') (act (si_session t) (i, k)) (si_log t ++ [SEvent o (SChain kw) res (si_heap t) h h'])
            | Err _ => Site h fs (act (si_session t) (i, k)) (si_log t ++ [SEvent o (SChain kw) res (si_heap t) h h])
            end) = si_log t ++ [ev] /\ sv_call ev = SChain kw) as X.
    { destruct (add _ _ _ _ _) as [[h f] r]. cbv zeta. destruct (step _ _ _) as [w res]. destruct r; [destruct (chain_factory h f)|]; eexists; split; reflexivity. }
    assert (forall st, (exists ev, si_log st = si_log t ++ [ev] /\ sv_call ev = SChain kw) -> exists ev, si_log st = si_log t ++ [ev] /\ sv_call ev = SChain kw
       /\ (forall l, SChain kw = SDeclare l -> (match o with HPart _ _ => False | _ => True end) -> sv_on ev = o /\ exists x, sv_result ev = Ok x)) as Y.
    { intros st (ev & E1 & E2). exists ev. split; [exact E1|]. split; [exact E2|]. discriminate. }
    apply Y. destruct o; [exact X|exact X|]. destruct kw; [exact X|eexists; split; reflexivity].
  - unfold plain_act. destruct (step _ _ _) as [w r]. eexists. split; [reflexivity|]. split; [reflexivity|discriminate].
  - unfold plain_act. destruct (step _ _ _) as [w r]. eexists. split; [reflexivity|]. split; [reflexivity|discriminate].
  - unfold plain_act. destruct (step _ _ _) as [w r]. eexists. split; [reflexivity|]. split; [reflexivity|discriminate].
Qed.
Lemma log_told W call_breaker lower captures ops : forall t, map sv_call (si_log (fold_left (site_step W call_breaker lower captures) ops t)) = map sv_call (si_log t) ++ map snd ops.
Proof.
  induction ops as [|a ops IH]; intro t; cbn [fold_left map]; [rewrite app_nil_r; reflexivity|]. rewrite IH. destruct (step_call W call_breaker lower captures t a) as (ev & E1 & E2 & _).
  rewrite E1, map_app, <- app_assoc. cbn [map app]. now rewrite E2.
Qed.
Lemma log_grows W call_breaker lower captures ops : forall t, exists l, si_log (fold_left (site_step W call_breaker lower captures) ops t) = si_log t ++ l.
Proof.
  induction ops as [|a ops IH]; intro t; cbn [fold_left]; [exists []; rewrite app_nil_r; reflexivity|]. destruct (step_call W call_breaker lower captures t a) as (ev & E1 & _).
  destruct (IH (site_step W call_breaker lower captures t a)) as (l & E). exists (ev :: l). rewrite E, E1, <- app_assoc. reflexivity.
Qed.
Lemma formats_made W f m : truthy (m_lit m) = false -> m_fmt m = formats W f -> m_value m = made_of W f (m_raw m).
Proof.
  intros L F. unfold m_value. rewrite L, F. destruct f as [v|]; [|reflexivity]. cbn [formats made_of]. unfold as_formatter. destruct (truthy v); cbn [andb]; [|reflexivity].
  destruct (py_eqb v library_formatter); reflexivity.
Qed.
Lemma result_treated W h get x m : result_shows W h get x m -> m_private m = false -> treated h get (s "format_all") m.
Proof.
  intros S P. unfold treated. rewrite (proj1 (rs_alone S)). destruct (rs_returned S) as [R|[R|R]]; [right; left; exact R|right; right; exact R|].
  exfalso. rewrite (proj2 (rs_private S)) in P; [discriminate|]. auto.
Qed.
Lemma displayed_valued W log b input m x :
  displays W log b input m -> m_private m = false -> has_literal m = false -> m_name m = Some x -> x <> [] ->
  exists e c keys child gf, builds log b e c keys /\ may_return e (options_of c (sv_call e)) x /\ formatter_at e c gf
    /\ m_value m = made_of W (formatter_for (sv_built e) gf keys child (Some x)) (m_raw m).
Proof.
  intros D P L N Nx. unfold has_literal in L.
  destruct D as [text m before e after key kw what c keys get o g El Ec Nf Er F Dk Eg Gg S Gs FM FC|text m before e after key kw fs c keys get o f r g El Ec Er F Dk Eg Gg Hf Hr S FM
    |text m before e after kw c keys get n El Ec Er F Dk Eg Hp S FM K|text m before e after kw c keys get n front text' x0 w y z El Ec Er F Dk Eg Hr Hi Et D Mv Hy [Bs Bf] Va].
  - exists e, c, keys, (is_child m), g. split; [|split; [|split]].
    + split; [exists before, after; auto|]. split; [reflexivity|]. split; [exists o; exact Er|]. rewrite Ec. exact I.
    + unfold may_return, options_of. rewrite Ec. right. rewrite <- Eg. exact (called S P N).
    + unfold formatter_at. rewrite Ec. exact Gg.
    + apply formats_made; [exact L|]. rewrite <- N. apply FM, (kept_treated S P).
  - exists e, c, keys, false, g. split; [|split; [|split]].
    + split; [exists before, after; auto|]. split; [reflexivity|]. split; [exists o; exact Er|]. rewrite Ec. exact I.
    + unfold may_return, options_of. rewrite Ec. left. reflexivity.
    + unfold formatter_at. rewrite Ec. exact Gg.
    + apply formats_made; [exact L|]. rewrite <- N. apply FM, (result_treated S P).
  - exists e, c, keys, false, (get (s "formatter")). split; [|split; [|split]].
    + split; [exists before, after; auto|]. split; [reflexivity|]. split; [exists (HBuilder n); exact Er|]. rewrite Ec. exact I.
    + unfold may_return. rewrite Ec. exact I.
    + unfold formatter_at, options_of. rewrite Ec, Eg. reflexivity.
    + apply formats_made; [exact L|]. rewrite <- N. apply FM, (kept_treated S P).
  - exists e, c, keys, true, (get (s "formatter")). split; [|split; [|split]].
    + split; [exists before, after; auto|]. split; [reflexivity|]. split; [exists (HBuilder n); exact Er|]. rewrite Ec. exact I.
    + unfold may_return. rewrite Ec. exact I.
    + unfold formatter_at, options_of. rewrite Ec, Eg. reflexivity.
    + apply formats_made; [exact L|]. rewrite <- N. apply Bf. unfold formats_children. destruct Hr as [Hr|[Hr|Hr]]; auto.
      exfalso. rewrite (proj2 (ps_private Bs)) in P; [discriminate|]. auto.
Qed.
Lemma calls_told g : map sv_call (si_log (site_by g)) = map snd (pg_calls g).
Proof. unfold site_by, site_of. rewrite log_told. reflexivity. Qed.
Lemma shown_valued g input m x : shown_by g input m -> m_private m = false -> has_literal m = false -> m_name m = Some x -> x <> [] -> valued g m x.
Proof. intros D P L N Nx. exact (displayed_valued D P L N Nx). Qed.

(** *** keys declared first *)
Lemma declared_first ev0 ds rest : sv_call ev0 = SDeclare ds -> builder_of (sv_on ev0) = None -> (exists o, sv_result ev0 = Ok o) -> (forall e l, In e rest -> sv_call e <> SDeclare l) ->
  forall b d, PropsSite.declared (ev0 :: rest) b d -> forall x, d x = match find (fun k => pstr_eqb x (bk_name k)) (rev ds) with Some k => Some (bk_converter k) | None => None end.
Proof.
  intros E0 B0 R0 N0. induction rest as [|e rest IH] using rev_ind.
  - assert (X : forall log b d, PropsSite.declared log b d -> log = [ev0] -> forall x, d x = match find (fun k => pstr_eqb x (bk_name k)) (rev ds) with Some k => Some (bk_converter k) | None => None end).
    { assert (Emp : forall log b d, PropsSite.declared log b d -> log = [] -> b = None /\ forall x, d x = None).
      { intros log b d D. destruct D as [d H|log b d e ks d' D E1 E2 E3 H|log b d e D E|log b d e kw n d' D E1 E2 E3 H]; intro Q; try (destruct log; discriminate). split; [reflexivity|exact H]. }
      intros log b d D. destruct D as [d H|log b d e ks d' D E1 E2 E3 H|log b d e D E|log b d e kw n d' D E1 E2 E3 H]; intro Q; try discriminate; change [ev0] with ([] ++ [ev0]) in Q; apply app_inj_tail in Q as [-> ->].
      - intro x. rewrite H. rewrite E0 in E1. injection E1 as <-. destruct (Emp _ _ _ D eq_refl) as [_ Z]. rewrite Z. reflexivity.
      - exfalso. destruct (Emp _ _ _ D eq_refl) as [-> _]. apply E. split; [exact B0|]. split; [exists ds; exact E0|exact R0].
      - congruence. }
    intros b d D. exact (X _ _ _ D eq_refl).
  - specialize (IH (fun e' l H => N0 e' l (in_or_app rest [e] e' (or_introl H)))).
    assert (X : forall log b d, PropsSite.declared log b d -> log = (ev0 :: rest) ++ [e] -> forall x, d x = match find (fun k => pstr_eqb x (bk_name k)) (rev ds) with Some k => Some (bk_converter k) | None => None end).
    { intros log b d D. destruct D as [d H|log b d e1 ks d' D E1 E2 E3 H|log b d e1 D E|log b d e1 kw n d' D E1 E2 E3 H]; intro Q; try discriminate; apply app_inj_tail in Q as [-> ->].
      - exfalso. apply (N0 e ks); [apply in_or_app; right; left; reflexivity|exact E1].
      - exact (IH b d D).
      - intro x. rewrite H. exact (IH b d D x). }
    intros b d D. exact (X _ _ _ D eq_refl).
Qed.
Lemma keys_told obj ks g : keys_first obj ks g -> forall b e c keys, builds (si_log (site_by g)) b e c keys ->
  forall x k, dfind (PropsTypedKeys.declared ks) x = Some k -> keys x = Some (VObj (Npos (obj k))).
Proof.
  intros ((calls & Eg & Nd) & _) b e c keys ((before & after & El & _ & D) & _ & _ & Hc) x k Dk.
  assert (exists ev0 rest, si_log (site_by g) = ev0 :: rest /\ sv_call ev0 = SDeclare (map (handed obj) ks) /\ builder_of (sv_on ev0) = None /\ (exists o, sv_result ev0 = Ok o) /\ (forall e l, In e rest -> sv_call e <> SDeclare l)) as (ev0 & rest & E0 & E1 & E2 & E3 & E4).
  { unfold site_by, site_of. rewrite Eg. cbn [fold_left].
    set (t0 := new_site (pg_heap g)). destruct (step_call (pg_callables g) (pg_breakers g) (pg_lower g) (pg_captures g) t0 (0%nat, SDeclare (map (handed obj) ks))) as (ev & A1 & A2 & A3).
    specialize (A3 _ eq_refl I). destruct (log_grows (pg_callables g) (pg_breakers g) (pg_lower g) (pg_captures g) calls (site_step (pg_callables g) (pg_breakers g) (pg_lower g) (pg_captures g) t0 (0%nat, SDeclare (map (handed obj) ks)))) as (l & B).
    exists ev, l. rewrite B, A1. cbn [t0 new_site si_log app]. split; [reflexivity|]. split; [exact A2|]. split; [rewrite (proj1 A3); reflexivity|]. split; [exact (proj2 A3)|].
    intros e1 l1 He1 Q. pose proof (log_told (pg_callables g) (pg_breakers g) (pg_lower g) (pg_captures g) calls (site_step (pg_callables g) (pg_breakers g) (pg_lower g) (pg_captures g) t0 (0%nat, SDeclare (map (handed obj) ks)))) as T.
    rewrite B, A1 in T. cbn [t0 new_site si_log app map] in T. injection T as T. assert (In (sv_call e1) (map snd calls)) as Hin by (rewrite <- T; apply in_map, He1).
    rewrite Q in Hin. apply in_map_iff in Hin as ([i1 k1] & Ek & Hk). cbn in Ek. subst k1. exact (Nd i1 l1 Hk). }
  rewrite E0 in El. destruct before as [|ev before]; cbn [app] in El; injection El as <- El.
  { rewrite E1 in Hc. destruct Hc. }
  rewrite (declared_first E1 E2 E3 (fun e' l' H' => E4 e' l' (eq_ind_r (fun z => In e' z) (in_or_app before (e :: after) e' (or_introl H')) El)) D).
  rewrite (last_handed obj) in Dk. rewrite <- map_rev. revert Dk. generalize (rev ks). intro l. induction l as [|a l IH]; [discriminate|]. cbn [map find handed bk_name].
  destruct (pstr_eqb x (Typed.k_name a)); [|exact IH]. intro Q. injection Q as ->. reflexivity.
Qed.
Lemma first_handed obj l x : first_converter (map (handed obj) l) x = match find (fun k => pstr_eqb x (Typed.k_name k)) l with Some k => Some (VObj (Npos (obj k))) | None => None end.
Proof. induction l as [|k l IH]; [reflexivity|]. cbn [map first_converter handed bk_name bk_converter find]. destruct (pstr_eqb x (Typed.k_name k)); [reflexivity|exact IH]. Qed.
Lemma meant_by_key obj ks g x k : keys_first obj ks g -> x <> [] -> dfind (PropsTypedKeys.declared ks) x = Some k ->
  forall b e c keys child gf, builds (si_log (site_by g)) b e c keys -> may_return e (options_of c (sv_call e)) x -> formatter_at e c gf ->
  formatter_for (sv_built e) gf keys child (Some x) = Some (VObj (Npos (obj k))).
Proof.
  intros HF Nx Dk b e c keys child gf B M Fa. pose proof (keys_told HF B Dk) as K. destruct HF as [_ HF].
  destruct (HF b e c keys B) as [[Ns Lf]|[(l & kw & what & Ec & Nl & Hl & Nf & Nd & PH & CF)|(k1 & kw & what & Ec & Nk & D1 & Lf & Ln & Lc & Le)]].
  - assert (gf = None) as ->.
    { unfold formatter_at, no_sequence in *. destruct (sv_call e) as [| |key kw what|kw| | |]; try congruence. unfold given_by in Fa. destruct key as [|k0|[|k0 r]]; try contradiction; rewrite Fa; exact Lf. }
    unfold formatter_for. destruct x as [|ch r]; [contradiction|]. rewrite K. reflexivity.
  - unfold formatter_at in Fa. rewrite Ec in Fa. unfold given_by in Fa. destruct l as [|k0 l]; [contradiction|]. cbn [map] in Fa. destruct Fa as (a & -> & Fa).
    assert (KN : key_names_ok (Keys (map (handed obj) (k0 :: l)))).
    { cbn [key_names_ok]. apply Forall_map, Forall_forall. intros k1 H1. cbn [handed bk_name]. exact (proj2 (Hl k1 H1)). }
    destruct (Fa PH CF KN) as [_ F2]. specialize (F2 Nd (Some x)). unfold key_entry in F2. unfold s in *. rewrite Nf in F2. change (handed obj k0 :: map (handed obj) l) with (map (handed obj) (k0 :: l)) in F2. rewrite first_handed in F2.
    unfold formatter_for. destruct x as [|ch r]; [contradiction|]. cbv beta zeta iota.
    match goal with |- context [dfind (h_cell (sv_built e) a) ?n] => match n with Some (ch :: r) => change (dfind (h_cell (sv_built e) a) n) with (dfind (h_cell (sv_built e) a) (Some (ch :: r))) end end. rewrite F2.
    destruct (find _ (k0 :: l)) as [k1|] eqn:Ef; [|rewrite K; reflexivity]. apply find_some in Ef as [H1 E1]. apply pstr_eqb_eq in E1. destruct (Hl k1 H1) as [D1 _]. rewrite <- E1 in D1. rewrite D1 in Dk. injection Dk as ->. reflexivity.
  - assert (gf = options_of c (sv_call e) (s "formatter")) as -> by (unfold formatter_at in Fa; rewrite Ec in *; exact Fa). rewrite Lf.
    cbn [formatter_for truthy andb]. assert (py_eqb (VObj (Npos (obj k1))) library_formatter = false) as -> by reflexivity. cbn [negb].
    unfold may_return in M. rewrite Ec in M. unfold options_of in M, Ln, Lc, Le. rewrite Ec in Ln, Lc, Le. destruct M as [M|[M|[M|M]]]; [contradiction|congruence|congruence|]. rewrite Ln in M. injection M as <-. congruence.
Qed.

(** ** C144: theorems *)
(** Whatever program built the object (and its sub-Rebulks): the value of a match returned which is not private, has a name and no literal value, is
    what the formatter in force for its name makes of its raw text, at a call of the program which built a pattern of the object or opened a chain *)
Theorem C144_values : forall Ctx R (ctx : Ctx) (r : rb Ctx) g gs env perm solvers order (user : Ctx -> behav found R) isinst check input f m x,
  plain g -> object_of g r -> Forall2 (fun h sub => plain h /\ object_of h sub) gs (rb_children r) ->
  (forall u, adds_nothing (user ctx) u) ->
  rb_matches env perm (fun c => with_defaults solvers order (user c)) isinst check r ctx input = Ok f ->
  In m (all_found f) -> m_private m = false -> has_literal m = false -> m_name m = Some x -> x <> [] ->
  valued g m x \/ exists i h sub, nth_error gs i = Some h /\ nth_error (rb_children r) i = Some sub /\ rb_disabled sub ctx = false /\ valued h m x.
Proof.
  intros Ctx R ctx r g gs env perm solvers order user isinst check input f m x P1 Og F Hu E Hm Pm Lm N Nx.
  destruct (C135_sub_rebulks P1 Og F Hu E Hm) as [D|(i & h & sub & Hi & Hs & Hd & D)]; [left; exact (shown_valued D Pm Lm N Nx)|right].
  exists i, h, sub. repeat (split; [assumption|]). exact (shown_valued D Pm Lm N Nx).
Qed.
(** Keys declared first, formatters left to them: the value of every match returned which is called like a declared key, is not private and has no literal value,
    is what the converter of the key makes of its raw text: the matches of chains, what chains return instead of themselves, the matches of functional patterns too *)
Theorem C144_declared_first : forall cast obj ks Ctx R (ctx : Ctx) (r : rb Ctx) g env perm solvers order (user : Ctx -> behav found R) isinst check input f m x k,
  plain g -> keys_first obj ks g -> object_of g r -> rb_children r = [] -> (forall u, adds_nothing (user ctx) u) ->
  (forall k t, In k ks -> call_formatter (pg_callables g) (VObj (Npos (obj k))) t = converter cast k t) ->
  rb_matches env perm (fun c => with_defaults solvers order (user c)) isinst check r ctx input = Ok f ->
  In m (all_found f) -> m_private m = false -> has_literal m = false -> m_name m = Some x -> x <> [] -> dfind (PropsTypedKeys.declared ks) x = Some k ->
  m_value m = converter cast k (m_raw m).
Proof.
  intros cast obj ks Ctx R ctx r g env perm solvers order user isinst check input f m x k P1 HF Og Hc Hu HW E Hm Pm Lm N Nx Dk.
  assert (F : Forall2 (fun h sub => plain h /\ object_of h sub) [] (rb_children r)) by (rewrite Hc; constructor).
  destruct (C144_values P1 Og F Hu E Hm Pm Lm N Nx) as [(e & c & keys & child & gf & B & M & Fa & V)|([|i] & h & sub & Hi & _)]; [|discriminate|discriminate].
  rewrite V. pose proof (meant_by_key HF Nx Dk child B M Fa) as Q. refine (eq_trans (f_equal (fun z => made_of (pg_callables g) z (m_raw m)) Q) _). cbn [made_of truthy andb]. assert (py_eqb (VObj (Npos (obj k))) library_formatter = false) as -> by reflexivity. cbn [negb]. apply HW.
  rewrite (last_handed obj) in Dk. apply find_some in Dk as [Dk _]. apply in_rev in Dk. exact Dk.
Qed.
(** With the check of declared keys switched on nothing changes, if the converters make values of their keys' types (or None) *)
Theorem C144_check : forall cast obj ks Ctx R (ctx : Ctx) g first disabled info rules env perm (bh : Ctx -> behav found R) isinst input,
  plain g -> keys_first obj ks g ->
  (forall k t, In k ks -> call_formatter (pg_callables g) (VObj (Npos (obj k))) t = converter cast k t) ->
  (forall k t, In k ks -> raw_text t -> converter cast k t = VNone \/ isinst (converter cast k t) (Typed.k_type k) = true) ->
  let r := object_by g first disabled info rules (PropsTypedKeys.declared ks) [] in
  rb_matches env perm bh isinst true r ctx input = rb_matches env perm bh isinst false r ctx input.
Proof.
  intros cast obj ks Ctx R ctx g first disabled info rules env perm bh isinst input P1 HF HW HT r.
  unfold rb_matches, matches_patterns. destruct (rb_disabled r ctx); [reflexivity|].
  change {| fd_next := 0; fd_matches := empty_coll KMatches (Some input); fd_markers := empty_coll KMarkers (Some input); fd_keys := effective_keys ctx r |}
    with (fresh input (effective_keys ctx r)).
  destruct (@run_patterns_spec Ctx ctx input (effective_patterns ctx r) (fresh input (effective_keys ctx r)) eq_refl eq_refl) as [A _].
  destruct (run_patterns ctx input (effective_patterns ctx r) (fresh input (effective_keys ctx r))) as [f1|e]; [|reflexivity].
  destruct (A f1 eq_refl) as (outs & n' & Y & Ef1). cbn [fd_next fresh] in Y. destruct (stage_del input (effective_keys ctx r) outs n') as (S1 & _ & _). rewrite <- Ef1 in S1.
  assert (check_declared_keys isinst (fd_keys f1) (fd_matches f1) = Ok tt) as ->; [|reflexivity].
  destruct (C55_contract_check isinst (fd_keys f1) (fd_matches f1)) as [C [X|X]]; [|exact X]. exfalso.
  apply C in X as (m & x & k & Hm & Nx & Hx & Dk & Pm & Lm & Vm & Im).
  assert (fd_keys f1 = PropsTypedKeys.declared ks) as Ek by (rewrite Ef1; reflexivity). rewrite Ek in Dk. clear C A Ek. rewrite S1 in Hm. apply filter_In in Hm as [Hm _].
  assert (exists p n n1 out raws, In p (effective_patterns ctx r) /\ pt_match p ctx n input = Ok (n1, (out, raws)) /\ In m out) as (p & n & n1 & out & raws & Hp & Ep & Ho).
  { clear - Y Hm. induction Y as [n|p ps n outs n' D Y IH|p ps n n1 out raws outs n' D E Y IH]; [destruct Hm|..].
    - destruct (IH Hm) as (q & a & b & c & d & H1 & H2). exists q, a, b, c, d. split; [right; exact H1|exact H2].
    - cbn [concat] in Hm. apply in_app_or in Hm as [H|H].
      + exists p, n, n1, out, raws. split; [left; reflexivity|]. split; assumption.
      + destruct (IH H) as (q & a & b & c & d & H1 & H2). exists q, a, b, c, d. split; [right; exact H1|exact H2]. }
  assert (object_of g r) as Og by (exists first, disabled, info, rules, (PropsTypedKeys.declared ks), []; reflexivity).
  assert (In p (rb_patterns r)) as Hp' by exact Hp.
  pose proof (object_displays P1 Og Hp' Ep Ho) as D.
  destruct (shown_valued D Pm Lm Nx Hx) as (e & c & keys & child & gf & B & M & Fa & V).
  assert (In k ks) as Hk by (rewrite (last_handed obj) in Dk; apply find_some in Dk as [Dk _]; apply in_rev in Dk; exact Dk).
  assert (m_value m = converter cast k (m_raw m)) as V'.
  { rewrite V. refine (eq_trans (f_equal (fun z => made_of (pg_callables g) z (m_raw m)) (meant_by_key HF Hx Dk child B M Fa)) _). cbn [made_of truthy andb].
    assert (py_eqb (VObj (Npos (obj k))) library_formatter = false) as -> by reflexivity. cbn [negb]. apply HW, Hk. }
  destruct (HT k (m_raw m) Hk (raw_is_text m)) as [T|T]; rewrite <- V' in T; congruence.
Qed.
(** The patterns and chains a program builds with no formatter anywhere, each pattern with no key or several of those declared, leave the formatters to the keys *)
Theorem C144_no_formatter : forall obj ks g calls, pg_calls g = (0%nat, SDeclare (map (handed obj) ks)) :: calls -> 
  plain g -> proper_heap (pg_heap g) -> clear_free (pg_heap g) -> (forall k, In k ks -> Typed.k_name k <> k_clear) ->
  (forall i k, In (i, k) calls -> match k with
     | SDeclare _ => False
     | SDefaults _ kw | SChain kw => dfind kw (s "formatter") = None
     | SPattern key kw _ => (key = NoKey \/ exists l, key = Keys (map (handed obj) l) /\ l <> [] /\ forall k, In k l -> dfind (PropsTypedKeys.declared ks) (Typed.k_name k) = Some k) /\ dfind kw (s "formatter") = None
     | _ => True end) -> keys_first obj ks g.
Proof.
  intros obj ks g calls Eg Pl PH CF KN H. split.
  - exists calls. split; [exact Eg|]. intros i l Hi. exact (H i _ Hi).
  - assert (Dn : forall k, dfind (PropsTypedKeys.declared ks) (Typed.k_name k) = Some k -> Typed.k_name k <> k_clear).
    { intros k Dk. apply KN. rewrite (last_handed obj) in Dk. apply find_some in Dk as [Dk _]. apply in_rev in Dk. exact Dk. }
    assert (Nm : Forall (fun a => names_ok (snd a)) (pg_calls g)).
    { rewrite Eg. apply Forall_cons; [cbn [snd names_ok]; apply Forall_map, Forall_forall; intros k Hk; exact (KN k Hk)|]. apply Forall_forall. intros [i k] Hi. cbn [snd]. specialize (H i k Hi).
      destruct k as [| |key kw what| | | |]; try exact I; [contradiction|]. cbn [names_ok]. destruct H as [[->|(l & -> & _ & Hl)] _]; [exact I|]. cbn [key_names_ok]. apply Forall_map, Forall_forall. intros k Hk. exact (Dn k (Hl k Hk)). }
    pose proof (@C135_orderly (pg_callables g) (pg_breakers g) (pg_lower g) (pg_captures g) (pg_heap g) (pg_calls g) Pl Nm PH CF) as Ord.
    assert (Told : forall e, In e (si_log (site_by g)) -> match sv_call e with SDefaults _ kw | SChain kw => dfind kw (s "formatter") = None
      | SPattern key kw _ => (key = NoKey \/ exists l, key = Keys (map (handed obj) l) /\ l <> [] /\ forall k, In k l -> dfind (PropsTypedKeys.declared ks) (Typed.k_name k) = Some k) /\ dfind kw (s "formatter") = None | _ => True end).
    { intros e He. assert (In (sv_call e) (map snd (pg_calls g))) as Hc by (rewrite <- calls_told; apply in_map, He). rewrite Eg in Hc. cbn [map] in Hc. destruct Hc as [Hc|Hc].
      - cbn in Hc. rewrite <- Hc. exact I.
      - apply in_map_iff in Hc as ([i k] & Ek & Hk). cbn in Ek. subst k. specialize (H i _ Hk). destruct (sv_call e); auto. }
    assert (NF : forall log b c, PropsSite.in_force log b c -> (forall e, In e log -> In e (si_log (site_by g))) -> forall gr, c gr (s "formatter") = None).
    { induction 1 as [c Hs|log b c e gr kw c1 F IH E1 E2 E3 Hs|log b c e F IH N|log b c e kw n c1 F IH E1 E2 E3 Hs]; intros Hl gr'.
      - apply Hs.
      - assert (T : dfind kw (s "formatter") = None).
        { pose proof (Told e (Hl e (in_or_app log [e] e (or_intror (or_introl eq_refl))))) as T. rewrite E1 in T. exact T. }
        rewrite Hs. assert (X : c gr' (s "formatter") = None) by (apply IH; intros e' He'; apply Hl, in_or_app; left; exact He').
        unfold after_op. destruct (group_eqb gr gr'); [|exact X]. destruct (pstr_eqb _ k_clear); [reflexivity|]. unfold s in *. rewrite T. destruct (clears kw); [reflexivity|exact X].
      - apply IH. intros e' He'. apply Hl, in_or_app. left. exact He'.
      - specialize (Hs gr' (s "formatter")). rewrite IH in Hs by (intros e' He'; apply Hl, in_or_app; left; exact He'). unfold copy_of in Hs. destruct (c1 gr' (s "formatter")); [destruct Hs|reflexivity]. }
    intros b e c keys ((before & after & El & F & _) & _ & _ & Hc).
    assert (Bf : forall gr, c gr (s "formatter") = None) by (apply (NF _ _ _ F); intros e' He'; rewrite El; apply in_or_app; left; exact He').
    assert (In e (si_log (site_by g))) as He by (rewrite El; apply in_elt). specialize (Told e He). specialize (Ord e He). unfold options_of, no_sequence. destruct (sv_call e) as [| |key kw what|kw| | |] eqn:Ec; try contradiction.
    + destruct Told as [[->|(l & -> & Nl & Hl)] T].
      * left. split; [exact I|]. unfold wanted_by. destruct (overridden kw _); unfold asked; rewrite T; [reflexivity|]. rewrite !Bf. reflexivity.
      * right. left. exists l, kw, what. split; [exact Ec|]. split; [exact Nl|]. split; [intros k Hk; split; [exact (Hl k Hk)|exact (Dn k (Hl k Hk))]|]. split; [exact T|]. split; [intro b0; rewrite !Bf; split; discriminate|exact Ord].
    + left. split; [exact I|]. unfold wanted_by. destruct (overridden kw _); unfold asked; rewrite Told; [reflexivity|]. rewrite !Bf. reflexivity.
Qed.

(** ** A case: [declare_keys(Key("year", int), Key("title", str))] (here the "int" of a text is its length); [b = rb.chain(name="title")], [b.string("ab")], [b.regex("[12]", name="year")];
    [c = rb.chain(children=True)], [c.string("x")], [c.regex("[12]", name="year")]; [rb.functional(last_letter, name="year")];
    [rb.regex("(?P<title>c+)(?P<year>[0-9])", key=[Key("title", str), Key("year", int)], children=True)]; searched in "ab1 x2 cc3" *)
Definition last_letter (t : pstr) : fresult := FOne (FTuple (zlen t - 1) (zlen t) None None).
Definition title_year : regex := Regex [Some (s "title"); Some (s "year")] (fun _ => [Occurrence (7, 10) [[(7, 9)]; [(9, 10)]]]).
Definition typed_calls : list (nat * scall) :=
  [(0, SChain [(s "name", BVal (VStr (s "title")))]); (1, SPattern NoKey [] (GString [s "ab"])); (1, SPattern NoKey [(s "name", BVal (VStr (s "year")))] (GRegex [char_rx (s "12")]));
   (0, SChain [(s "children", BVal (VBool true))]); (4, SPattern NoKey [] (GString [s "x"])); (4, SPattern NoKey [(s "name", BVal (VStr (s "year")))] (GRegex [char_rx (s "12")]));
   (0, SPattern NoKey [(s "name", BVal (VStr (s "year")))] (GFunctional [last_letter]));
   (0, SPattern (Keys (map (handed obj_case) [title; year])) [(s "children", BVal (VBool true))] (GRegex [title_year]))]%nat.
Definition typed_program : program := Program W_case (fun _ _ => false) (fun x => x) false heap_case ((0%nat, SDeclare (map (handed obj_case) [year; title])) :: typed_calls).
Definition typed_object : rb unit := object_by typed_program 0 (fun _ => false) no_info default_rules (PropsTypedKeys.declared [year; title]) [].
Example C144_case : plain typed_program /\ keys_first obj_case [year; title] typed_program
  /\ (forall k t, In k [year; title] -> raw_text t -> converter cast_case k t = VNone \/ isinst_case (converter cast_case k t) (Typed.k_type k) = true)
  /\ (forall k t, In k [year; title] -> call_formatter (pg_callables typed_program) (VObj (Npos (obj_case k))) t = converter cast_case k t)
  /\ match rb_matches default_env (fun l => l) (fun _ => with_defaults (fun _ _ _ => VDefault) (fun l => l) idle) isinst_case true typed_object tt (s "ab1 x2 cc3") with
     | Ok f => map (fun m => (m_span m, m_name m, m_value m, map (fun z => (m_span z, m_name z, m_value z)) (m_children m))) (all_found f)
     | Err _ => []
     end = [((0, 3), Some (s "title"), VStr (s "ab1"), [((0, 2), None, VStr (s "ab")); ((2, 3), Some (s "year"), VInt 1)]); ((4, 5), None, VStr (s "x"), []); ((5, 6), Some (s "year"), VInt 1, []);
            ((7, 9), Some (s "title"), VStr (s "cc"), []); ((9, 10), Some (s "year"), VInt 1, [])].
Proof.
  assert (Pl : plain typed_program); [|split; [exact Pl|split; [|split; [exact cast_keeps|split; [intros k t [<-|[<-|[]]]; reflexivity|vm_compute; reflexivity]]]]].
  2:{ apply (@C144_no_formatter obj_case [year; title] typed_program typed_calls eq_refl Pl); [intro a; constructor|intro a; reflexivity|intros k [<-|[<-|[]]]; discriminate|].
      intros i k Hk. repeat (destruct Hk as [Hk|Hk]; [injection Hk as <- <-; first [reflexivity|split; [left; reflexivity|reflexivity]|split; [|reflexivity]]|]); [|destruct Hk].
      right. exists [title; year]. split; [reflexivity|]. split; [discriminate|]. intros k [<-|[<-|[]]]; reflexivity. }
  assert (P : forall kw, NoDup (dkeys kw) -> (forall k v, In (k, v) kw -> exists w, v = BVal w /\ forall n, w <> VObj n) -> plain_kw heap_case kw).
  { intros kw N V. split; [exact N|]. split.
    - intros a Ha. exfalso. unfold addrs in Ha. apply in_flat_map in Ha as ([k v] & Hk & Ha). destruct (V _ _ Hk) as (w & -> & _). destruct Ha.
    - intros k _ n E. apply (dfind_In) in E. destruct (V _ _ E) as (w & Q & X). injection Q as <-. exact (X n eq_refl). }
  unfold plain. cbn [typed_program pg_calls pg_heap]. unfold typed_calls. repeat (apply Forall_cons; [cbn [snd plain_call]; first [exact I|idtac]|]); [..|apply Forall_nil].
  all: apply P; [repeat constructor; cbn; intuition discriminate|]; intros k v Hk; cbn in Hk; repeat (destruct Hk as [Hk|Hk]; [injection Hk as <- <-; eexists; split; [reflexivity|discriminate]|]); destruct Hk.
Qed.
Print Assumptions C144_check. Print Assumptions C144_values. Print Assumptions C144_case.
