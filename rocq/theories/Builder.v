(** * rebulk/builder.py, loose.py [set_defaults]: building patterns from options

    Option dictionaries given by the caller (formatter, value, validator, properties) are
    shared by reference and modified in place, so they live in a heap; the dictionaries of
    keyword arguments and of defaults are private to a call or to the builder, so they are
    values.  Simplifications: the entries of an option dictionary are not dictionaries; lists
    are values (no list is modified in place by this code); deepcopy copies each option
    dictionary once per option naming it; [overrides] is given as a list of names.
    A callable is a [VObj]. *)
From Verif Require Import Base Loose.
From Coq Require String.
Export Coq.Strings.String.StringSyntax.
Open Scope string_scope.
Open Scope list_scope.
Set Implicit Arguments.
Unset Strict Implicit.

Definition cell := dict (option pstr) pyval.          (* an option dictionary *)
Inductive bval := BVal (v : pyval) | BDict (a : nat).
Definition opts := dict pstr bval.                    (* keyword arguments, defaults *)
Record heap := Heap { h_next : nat; h_cell : nat -> cell }.
Definition hset (h : heap) (a : nat) (c : cell) : heap := Heap (h_next h) (fun x => if Nat.eqb x a then c else h_cell h x).
Definition halloc (h : heap) (c : cell) : heap * nat := (Heap (S (h_next h)) (fun x => if Nat.eqb x (h_next h) then c else h_cell h x), h_next h).
Definition btruthy (h : heap) (v : bval) : bool :=
  match v with BVal v => truthy v | BDict a => match h_cell h a with [] => false | _ => true end end.

(** ** loose.py:169-188 [set_defaults] *)
(** the value of a key present on both sides, without override *)
Definition merge_value (default own : pyval) : pyval :=
  match default, own with VList l, VList l' => VList (l ++ l') | _, _ => own end.
Definition merge_cell (defaults own : cell) : cell :=
  fold_left (fun d kv => match dfind d (fst kv) with Some w => dset d (fst kv) (merge_value (snd kv) w) | None => dset d (fst kv) (snd kv) end) defaults own.
Definition k_clear : pstr := s "clear".
(** the recursive call, on two option dictionaries (maybe the same object) *)
Definition set_defaults_cell (h : heap) (a b : nat) : heap :=
  let h1 := match dfind (h_cell h a) (Some k_clear) with
            | None => h
            | Some v => let h0 := hset h a (dpop (h_cell h a) (Some k_clear)) in if truthy v then hset h0 b [] else h0
            end in
  hset h1 b (merge_cell (h_cell h1 a) (h_cell h1 b)).
Definition set_default (override : bool) (st : heap * opts) (kv : pstr * bval) : heap * opts :=
  let '(h, kw) := st in
  let '(h1, kw1) :=
    match dfind kw (fst kv) with
    | None => (h, kw)
    | Some own =>
        match snd kv, own with
        | BVal (VList l), BVal (VList l') => (h, dset kw (fst kv) (BVal (VList (l ++ l'))))
        | BDict a, BDict b => (set_defaults_cell h a b, kw)
        | _, _ => (h, kw)
        end
    end in
  if negb (dmem kw1 (fst kv)) || override then (h1, dset kw1 (fst kv) (snd kv)) else (h1, kw1).
(** returns the heap, the defaults (from which clear is popped) and the keyword arguments *)
Definition set_defaults (override : bool) (h : heap) (defaults kw : opts) : heap * opts * opts :=
  let defaults' := dpop defaults k_clear in
  let kw0 := match dfind defaults k_clear with Some v => if btruthy h v then [] else kw | None => kw end in
  let '(h', kw') := fold_left (set_default override) defaults' (h, kw0) in
  (h', defaults', kw').

(** ** builder.py:67-83 [overrides]: the keyword arguments and the backup *)
Definition k_overrides : pstr := s "overrides".
Fixpoint backup_of (kw : opts) (names : list pyval) (acc : opts) : res opts :=
  match names with
  | [] => Ok acc
  | VStr n :: r => match dfind kw n with Some v => backup_of kw r (dset acc n v) | None => Err KeyError end
  | VList _ :: _ => Err TypeError
  | _ :: _ => Err KeyError
  end.
(** what the value lists: a string is a list of its characters.  Simplified: a dictionary is not iterated over *)
Definition override_names (v : bval) : option (list pyval) :=
  match v with
  | BVal (VList names) => Some names
  | BVal (VStr t) => Some (map (fun c => VStr [c]) t)
  | _ => None
  end.
Definition take_overrides (h : heap) (kw : opts) : res (opts * opts) :=
  let kw' := dpop kw k_overrides in
  match dfind kw k_overrides with
  | Some v => match override_names v with
              | Some names => match backup_of kw' names [] with Ok b => Ok (kw', b) | Err e => Err e end
              | None => if btruthy h v then Err TypeError else Ok (kw', [])
              end
  | None => Ok (kw', [])
  end.
Definition update (kw new : opts) : opts := fold_left (fun d kv => dset d (fst kv) (snd kv)) new kw.

(** ** builder.py:85-167 [PatternFactory] *)
Inductive pkind := KRegex | KString | KFunctional | KChain.
Inductive group := GAll | GKind (k : pkind).
Definition pkind_eqb (a b : pkind) : bool :=
  match a, b with KRegex, KRegex | KString, KString | KFunctional, KFunctional | KChain, KChain => true | _, _ => false end.
Definition group_eqb (a b : group) : bool :=
  match a, b with GAll, GAll => true | GKind x, GKind y => pkind_eqb x y | _, _ => false end.
(** a key: its name and its converter *)
Record bkey := BKey { bk_name : pstr; bk_converter : pyval }.
Record factory := Factory { f_defaults : group -> opts; f_keys : dict pstr bkey }.
(** builder.py:93-99 *)
Definition new_factory : factory := Factory (fun _ => []) [].
Definition set_group (f : factory) (g : group) (d : opts) : factory :=
  Factory (fun x => if group_eqb x g then d else f_defaults f x) (f_keys f).
(** builder.py:101-114 [declare_keys] *)
Definition declare_keys (f : factory) (ks : list bkey) : factory :=
  Factory (f_defaults f) (fold_left (fun d k => dset d (bk_name k) k) ks (f_keys f)).
(** builder.py:134-167 [defaults], [regex_defaults], ... *)
Definition defaults (h : heap) (f : factory) (g : group) (kw : opts) : heap * factory :=
  let '(h', _, d) := set_defaults true h kw (f_defaults f g) in (h', set_group f g d).

(** ** builder.py:30-64 [_apply_key] *)
Inductive keyarg := NoKey | OneKey (k : bkey) | Keys (ks : list bkey).
Definition setdefault (kw : opts) (n : pstr) (v : bval) : opts := match dfind kw n with Some _ => kw | None => dset kw n v end.
Definition csetdefault (c : cell) (n : option pstr) (v : pyval) : cell := match dfind c n with Some _ => c | None => dset c n v end.
Definition k_name : pstr := s "name".
Definition k_formatter : pstr := s "formatter".
Definition apply_key (h : heap) (key : keyarg) (kw : opts) : heap * res opts :=
  match key with
  | NoKey | Keys [] => (h, Ok kw)
  | OneKey k => (h, Ok (setdefault (setdefault kw k_name (BVal (VStr (bk_name k)))) k_formatter (BVal (bk_converter k))))
  | Keys ks =>
      match (match dfind kw k_formatter with
             | None | Some (BVal VNone) => Some []
             | Some (BDict a) => Some (h_cell h a)
             | Some (BVal _) => None
             end) with
      | None => (h, Err TypeError)
      | Some c =>
          let '(h', a) := halloc h (fold_left (fun c k => csetdefault c (Some (bk_name k)) (bk_converter k)) ks c) in
          (h', Ok (dset kw k_formatter (BDict a)))
      end
  end.

(** ** builder.py:116-132 and 169-207: the built pattern: its options, its dictionary of
    formatters (shared with the options when they give one), and whether its default
    formatter is the library's *)
Record bpat := BPat { bp_opts : opts; bp_formatters : nat; bp_library : bool }.
(** formatters.py [default_formatter] *)
Definition library_formatter : pyval := VObj 0.
(** loose.py:118-139 [ensure_dict] on the formatter option (pattern.py:131) *)
Definition pattern_formatters (h : heap) (kw : opts) : heap * nat * bool :=
  match dfind kw k_formatter with
  | Some (BDict a) => match h_cell h a with
                      | [] => (halloc h [(None, library_formatter)], true)
                      | _ => (h, a, true)
                      end
  | Some (BVal v) => if truthy v then (halloc h [(None, v)], py_eqb v library_formatter) else (halloc h [(None, library_formatter)], true)
  | None => (halloc h [(None, library_formatter)], true)
  end.
(** builder.py:116-132 [_inherit_keys] *)
Definition inherit_keys (h : heap) (keys : dict pstr bkey) (p : bpat) : heap * bpat :=
  match keys with
  | [] => (h, p)
  | _ =>
      if negb (bp_library p) then (h, p)
      else
        let c := h_cell h (bp_formatters p) in
        let missing := flat_map (fun e => if dmem c (Some (bk_name (snd e))) then [] else [(Some (bk_name (snd e)), bk_converter (snd e))]) keys in
        match missing with
        | [] => (h, p)
        | _ => let '(h', a) := halloc h (fold_left (fun c e => dset c (fst e) (snd e)) missing c) in (h', BPat (bp_opts p) a (bp_library p))
        end
  end.
(** builder.py:169-207 [build_re], [build_string], [build_functional], [build_chain] *)
Definition build (h : heap) (f : factory) (kd : pkind) (kw : opts) : heap * factory * res bpat :=
  match take_overrides h kw with
  | Err e => (h, f, Err e)
  | Ok (kw0, backup) =>
      let '(h1, d1, kw1) := set_defaults false h (f_defaults f (GKind kd)) kw0 in
      let f1 := set_group f (GKind kd) d1 in
      let '(h2, d2, kw2) := set_defaults false h1 (f_defaults f1 GAll) kw1 in
      let f2 := set_group f1 GAll d2 in
      let kw3 := update kw2 backup in
      let '(h3, a, lib) := pattern_formatters h2 kw3 in
      let '(h4, p) := inherit_keys h3 (f_keys f2) (BPat kw3 a lib) in
      (h4, f2, Ok p)
  end.
(** builder.py:230-278, 307-333 [regex], [string], [functional] (with [key]); [chain] takes no key *)
Definition add (h : heap) (f : factory) (kd : pkind) (key : keyarg) (kw : opts) : heap * factory * res bpat :=
  match apply_key h key kw with
  | (h', Err e) => (h', f, Err e)
  | (h', Ok kw') => build h' f kd kw'
  end.

(** ** builder.py:294-300 [_inherit_defaults]: the factory of a chain builder *)
Definition copy_value (st : heap * opts) (kv : pstr * bval) : heap * opts :=
  let '(h, d) := st in
  match snd kv with
  | BVal v => (h, d ++ [kv])
  | BDict a => let '(h', b) := halloc h (h_cell h a) in (h', d ++ [(fst kv, BDict b)])
  end.
Definition deepcopy (h : heap) (d : opts) : heap * opts := fold_left copy_value d (h, []).
Definition chain_factory (h : heap) (f : factory) : heap * factory :=
  let '(h1, d1) := deepcopy h (f_defaults f GAll) in
  let '(h2, d2) := deepcopy h1 (f_defaults f (GKind KRegex)) in
  let '(h3, d3) := deepcopy h2 (f_defaults f (GKind KFunctional)) in
  let '(h4, d4) := deepcopy h3 (f_defaults f (GKind KString)) in
  let '(h5, d5) := deepcopy h4 (f_defaults f (GKind KChain)) in
  (h5, Factory (fun g => match g with GAll => d1 | GKind KRegex => d2 | GKind KFunctional => d3 | GKind KString => d4 | GKind KChain => d5 end) (f_keys f)).

(** ** A history of calls on one builder: the heap, the factory, the patterns built *)
Record bstate := BState { st_heap : heap; st_factory : factory; st_built : list bpat }.
Inductive bop := ODefaults (g : group) (kw : opts) | ODeclare (ks : list bkey) | OAdd (kd : pkind) (key : keyarg) (kw : opts).
(** a call which raises leaves the builder as it was (the heap may have changed) *)
Definition bstep (st : bstate) (o : bop) : bstate :=
  match o with
  | ODefaults g kw => let '(h, f) := defaults (st_heap st) (st_factory st) g kw in BState h f (st_built st)
  | ODeclare ks => BState (st_heap st) (declare_keys (st_factory st) ks) (st_built st)
  | OAdd kd key kw => match add (st_heap st) (st_factory st) kd key kw with
                      | (h, f, Ok p) => BState h f (st_built st ++ [p])
                      | (h, f, Err _) => BState h f (st_built st)
                      end
  end.
Definition bhistory (h : heap) (ops : list bop) : bstate := fold_left bstep ops (BState h new_factory []).
