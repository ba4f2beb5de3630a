(** * From the options of a builder to a searching pattern
    Builder.v says which options a built pattern gets; Pattern.v what a pattern with given
    attributes finds.  Here the attributes are read from the options (pattern.py:57-154
    [Pattern.__init__] called with the keyword arguments of builder.py:169-207), and a Rebulk
    object is made by a history of calls on its builder.
    Simplifications: an option of another type than the documented one counts as not given
    (a name which is no string, names to hide which are no list, ...); dictionaries of options are read when
    the pattern is built (later changes of them are the subject of C62); the expressions given
    to [regex] are given compiled (Abbrev.v); [disabled], [log_level] and [properties] are elsewhere (Rebulk.v, Introspect.v). *)
From Verif Require Import Base Match Coll Loose Pattern Builder Rebulk.
From Coq Require String.
Export Coq.Strings.String.StringSyntax.
Open Scope string_scope.
Open Scope list_scope.
Set Implicit Arguments.
Unset Strict Implicit.
Open Scope Z_scope.

(** the callables among the options ([VObj]): what calling them does *)
Record callables := Callables {
  call_formatter : pyval -> pyval -> pyval;
  call_validator : pyval -> mtch -> bool;
  call_processor : pyval -> processor;
  call_post : pyval -> list mtch -> list mtch;
  solver_number : pyval -> nat
}.

(** a truth value, a string, a list of strings (loose.py:102-115 [ensure_list] for tags), an integer among the options *)
Definition flag (h : heap) (o : option bval) : bool := match o with Some v => btruthy h v | None => false end.
Definition text_option (v : bval) : option pstr := match v with BVal (VStr x) => Some x | _ => None end.
Definition texts (l : list pyval) : list pstr := flat_map (fun v => match v with VStr x => [x] | _ => [] end) l.
Definition names_option (o : option bval) : list pstr := match o with Some (BVal (VList l)) => texts l | _ => [] end.
Definition tags_option (o : option bval) : list pstr :=
  match o with Some (BVal (VStr (ch :: r))) => [ch :: r] | _ => names_option o end.
Definition int_option (o : option bval) : option Z := match o with Some (BVal (VInt z)) => Some z | _ => None end.

Section Assemble.
  Variable W : callables.
  (** a formatter or validator of a dictionary of options; falsy ones are not called *)
  Definition as_formatter (v : pyval) : fmtr :=
    if truthy v then Some (if py_eqb v library_formatter then default_formatter else call_formatter W v) else None.
  Definition as_validator (v : pyval) : vldr := if truthy v then Some (call_validator W v) else None.
  (** pattern.py:23-25 [_callable_or_none] *)
  Definition callable (o : option bval) : option pyval := match o with Some (BVal (VObj n)) => Some (VObj n) | _ => None end.
  (** an option which may be a dictionary (pattern.py:131-133) *)
  Definition dict_option {V} (h : heap) (conv : pyval -> V) (o : option bval) : dparam V :=
    match o with
    | None => DNone
    | Some (BVal v) => if truthy v then DSingle (conv v) else DNone
    | Some (BDict a) => match h_cell h a with [] => DNone | c => DDict (map (fun e => (fst e, conv (snd e))) c) end
    end.
  (** the keyword arguments which are also meant for [Match] (match.py:1016-1030) *)
  Definition match_options (h : heap) (get : pstr -> option bval) : mopts :=
    MOpts None
          (match get (s "name") with Some v => Some (text_option v) | None => None end)
          (match get (s "tags") with Some v => Some (tags_option (Some v)) | None => None end)
          (match get (s "marker") with Some v => Some (btruthy h v) | None => None end)
          (match get (s "private") with Some v => Some (btruthy h v) | None => None end)
          None
          (match get (s "conflict_solver") with Some (BVal v) => Some (if truthy v then Some (solver_number W v) else None) | Some (BDict _) => Some None | None => None end).
  Definition set_formatters (p : popts) (d : dict (option pstr) fmtr) : popts :=
    POpts (po_id p) (po_kw p) d (po_formatter p) (po_values p) (po_value p) (po_validators p) (po_validator p)
          (po_children p) (po_every p) (po_private_parent p) (po_private_children p) (po_private_names p) (po_ignore_names p)
          (po_format_all p) (po_validate_all p) (po_pre p) (po_post p) (po_post_processor p).
  (** pattern.py:129-154; the dictionary of formatters is the one the builder left (builder.py:116-132) *)
  Definition assemble (h : heap) (id : nat) (p : bpat) : popts :=
    let get k := dfind (bp_opts p) k in
    set_formatters
      (new_pattern id (match_options h get)
         (dict_option h as_formatter (get k_formatter)) (dict_option h (fun v => v) (get (s "value"))) (dict_option h as_validator (get (s "validator")))
         (flag h (get (s "children"))) (flag h (get (s "every"))) (flag h (get (s "private_parent"))) (flag h (get (s "private_children")))
         (names_option (get (s "private_names"))) (names_option (get (s "ignore_names")))
         (flag h (get (s "format_all"))) (flag h (get (s "validate_all")))
         (option_map (call_processor W) (callable (get (s "pre_match_processor"))))
         (option_map (call_processor W) (callable (get (s "post_match_processor"))))
         (option_map (call_post W) (callable (get (s "post_processor")))))
      (map (fun e => (fst e, as_formatter (snd e))) (h_cell h (bp_formatters p))).

  (** what is searched: the positional arguments of [string], [regex], [functional] (builder.py:230-267) *)
  Inductive searched := GString (subs : list pstr) | GRegex (subs : list regex) | GFunctional (subs : list (pstr -> fresult)).
  Definition kind_searched (g : searched) : pkind := match g with GString _ => KString | GRegex _ => KRegex | GFunctional _ => KFunctional end.
  (** pattern.py:451-455 ([find_all] reads start, end and ignore_case), 465-467 (repeated_captures;
      [captures]: the regex module is used) *)
  Variable lower : pstr -> pstr.
  Variable captures : bool.
  Definition source (h : heap) (p : bpat) (g : searched) : psource :=
    let get k := dfind (bp_opts p) k in
    match g with
    | GString subs => SString lower (StringOpts (int_option (get (s "start"))) (int_option (get (s "end"))) (flag h (get (s "ignore_case")))) subs
    | GRegex subs => SRegex (match get (s "repeated_captures") with Some v => btruthy h v | None => captures end) subs
    | GFunctional subs => SFunctional subs
    end.

  (** ** A Rebulk object made by calls on its builder (builder.py:134-167, 101-114, 230-267) *)
  Inductive bcall := CDefaults (g : group) (kw : opts) | CDeclare (ks : list bkey) | CPattern (key : keyarg) (kw : opts) (what : searched).
  Definition call_op (c : bcall) : bop :=
    match c with CDefaults g kw => ODefaults g kw | CDeclare ks => ODeclare ks | CPattern key kw what => OAdd (kind_searched what) key kw end.
  (** the patterns after a call: [id] is the number of patterns built before *)
  Definition built (st : bstate) (id : nat) (c : bcall) : list (popts * psource) :=
    match c with
    | CPattern key kw what =>
        match add (st_heap st) (st_factory st) (kind_searched what) key kw with
        | (h, _, Ok p) => [(assemble h id p, source h p what)]
        | _ => []
        end
    | _ => []
    end.
  Fixpoint patterns_from (st : bstate) (id : nat) (cs : list bcall) : list (popts * psource) :=
    match cs with
    | [] => []
    | c :: r => let l := built st id c in l ++ patterns_from (bstep st (call_op c)) (id + length l) r
    end.
  Definition patterns_of (h : heap) (cs : list bcall) : list (popts * psource) := patterns_from (BState h new_factory []) 0 cs.
  (** the Rebulk object: no sub-Rebulk; [info] is what introspection sees *)
  Definition rebulk_of {Ctx} (info : pinfo) (h : heap) (cs : list bcall) (rules : list nat) (keys : dict pstr Typed.key) : rb Ctx :=
    Rb (fun _ => false) (map (fun q => Pat (po_id (fst q)) (fun _ => false) (fun _ => pattern_matches (fst q) (snd q)) info) (patterns_of h cs)) rules keys [].
End Assemble.
