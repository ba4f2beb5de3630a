(** * One program building a Rebulk object: builders, their configuration and the patterns they build
    Builder.v says which options a pattern gets, Assemble.v which attributes it has, Fluent.v which chain it becomes a
    part of, Built.v what is then searched.  Here the calls are made with their real arguments, on the root builder, on
    the builders of chains and on parts of chains, all sharing the dictionaries of options given by the user.
    Simplifications: those of Builder.v, Assemble.v and Fluent.v; [defaults] and [declare_keys] return the builder they
    are called on, which the user holds already, so nothing is added to the objects held. *)
From Verif Require Import Typed Base Match Coll Loose Pattern Builder Chain Rebulk Assemble SpecNest Fluent Built.
From Coq Require String.
Export Coq.Strings.String.StringSyntax.
Open Scope string_scope.
Open Scope list_scope.
Set Implicit Arguments.
Unset Strict Implicit.
Open Scope nat_scope.

(** a call, with its arguments: builder.py:101-167 [defaults], [regex_defaults], ... and [declare_keys]; builder.py:230-278 and 307-333
    [regex], [string], [functional], [chain]; chain.py:309-396 [chain], [hidden], [regex], [string], [close], [repeater] *)
Inductive scall :=
| SDefaults (g : group) (kw : opts) | SDeclare (ks : list bkey)
| SPattern (key : keyarg) (kw : opts) (what : searched) | SChain (kw : opts)
| SRepeater (v : rvalue) | SHidden (b : bool) | SClose.
(** what happened: the object called, the call, its outcome; the dictionaries before the call, when the pattern was built, and after the call *)
Record sevent := SEvent { sv_on : handle; sv_call : scall; sv_result : res handle; sv_before : heap; sv_built : heap; sv_after : heap }.
(** the dictionaries, the configuration of each builder (None: the root builder), the objects assembled, the log *)
Record site := Site { si_heap : heap; si_factory : option nat -> factory; si_session : session made; si_log : list sevent }.
Definition new_site (h : heap) : site := Site h (fun _ => new_factory) start [].
Definition same_builder (a b : option nat) : bool := option_eqb Nat.eqb a b.
Definition put_factory (fs : option nat -> factory) (b : option nat) (f : factory) : option nat -> factory := fun x => if same_builder x b then f else fs x.
(** the builder a pattern is built with: chain.py:309-313, 336-361 (a part uses the builder of its chain) *)
Definition builder_of (h : handle) : option nat := match h with HRoot => None | HBuilder c | HPart c _ => Some c end.

Section Site.
  Variable W : callables.
  Variable call_breaker : pyval -> list mtch -> bool.
  Variable lower : pstr -> pstr.
  Variable captures : bool.

  (** chain.py:37-49: what [build_chain] gives *)
  Definition opened (h : heap) (id : nat) (p : bpat) : made :=
    Opened (assemble W h id p) (option_map call_breaker (callable (dfind (bp_opts p) (s "chain_breaker")))).
  (** a call with no effect on the options *)
  Definition plain_act (t : site) (i : nat) (sc : scall) (k : call made) : site :=
    let o := nth i (se_held (si_session t)) HRoot in
    let '(_, r) := step (se_world (si_session t)) o k in
    Site (si_heap t) (si_factory t) (act (si_session t) (i, k)) (si_log t ++ [SEvent o sc r (si_heap t) (si_heap t) (si_heap t)]).
  Definition refuse (t : site) (o : handle) (sc : scall) (e : exn) : site :=
    Site (si_heap t) (si_factory t) (si_session t) (si_log t ++ [SEvent o sc (Err e) (si_heap t) (si_heap t) (si_heap t)]).
  (** one call on the [i]-th object held *)
  Definition site_step (t : site) (a : nat * scall) : site :=
    let i := fst a in
    let o := nth i (se_held (si_session t)) HRoot in
    let b := builder_of o in
    match snd a with
    | SDefaults g kw =>
        match o with
        | HPart _ _ => refuse t o (snd a) AttributeError
        | _ => let '(h, f) := defaults (si_heap t) (si_factory t b) g kw in
               Site h (put_factory (si_factory t) b f) (si_session t) (si_log t ++ [SEvent o (snd a) (Ok o) (si_heap t) h h])
        end
    | SDeclare ks =>
        match o with
        | HPart _ _ => refuse t o (snd a) AttributeError
        | _ => Site (si_heap t) (put_factory (si_factory t) b (declare_keys (si_factory t b) ks)) (si_session t)
                    (si_log t ++ [SEvent o (snd a) (Ok o) (si_heap t) (si_heap t) (si_heap t)])
        end
    | SPattern key kw what =>
        let '(h, f, r) := add (si_heap t) (si_factory t b) (kind_searched what) key kw in
        let k := KAdd match r with Ok p => Ok (Leaf (assemble W h (length (si_log t)) p) (source lower captures h p what)) | Err e => Err e end in
        let '(_, res) := step (se_world (si_session t)) o k in
        Site h (put_factory (si_factory t) b f) (act (si_session t) (i, k)) (si_log t ++ [SEvent o (snd a) res (si_heap t) h h])
    | SChain kw =>
        match o, kw with
        | HPart _ _, _ :: _ => refuse t o (snd a) TypeError       (* chain.py:309: no keyword argument *)
        | _, _ =>
            let '(h, f, r) := add (si_heap t) (si_factory t b) Builder.KChain NoKey kw in
            let k := KChain match r with Ok p => Ok (opened h (length (si_log t)) p) | Err e => Err e end in
            let '(_, res) := step (se_world (si_session t)) o k in
            let fs := put_factory (si_factory t) b f in
            match r with
            | Ok _ => let '(h', f') := chain_factory h f in
                      Site h' (put_factory fs (Some (w_count (se_world (si_session t)))) f') (act (si_session t) (i, k)) (si_log t ++ [SEvent o (snd a) res (si_heap t) h h'])
            | Err _ => Site h fs (act (si_session t) (i, k)) (si_log t ++ [SEvent o (snd a) res (si_heap t) h h])
            end
        end
    | SRepeater v => plain_act t i (snd a) (KRepeater v)
    | SHidden v => plain_act t i (snd a) (KHidden v)
    | SClose => plain_act t i (snd a) KClose
    end.
  (** any history of calls; [h]: the dictionaries of options the user has *)
  Definition site_of (h : heap) (ops : list (nat * scall)) : site := fold_left site_step ops (new_site h).
  (** the Rebulk object *)
  Definition site_rebulk {Ctx} (info : pinfo) (h : heap) (ops : list (nat * scall)) (rules : list nat) (keys : dict pstr key) : rb Ctx :=
    assembled info rules keys (se_world (si_session (site_of h ops))).
End Site.
