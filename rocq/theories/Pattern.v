(** * rebulk/pattern.py: patterns and the processing of their raw matches

    User callbacks (formatters, validators, processors, the function of a functional
    pattern) are total functions: a callback that raises is not modelled.  The regular
    expression engine is an argument (the list of occurrences it reports).
    Options are the attributes of the built pattern; [disabled], [log_level],
    [properties] and [defined_at] are modelled where they are used (Rebulk.v, Introspect.v).

    Matches are values (see Match.v): a child holds a copy of its parent (without children)
    which [relink] refreshes whenever Python code would see the shared object changed. *)
From Verif Require Import Base Match Coll Loose.
From Coq Require String.
Export Coq.Strings.String.StringSyntax.
Open Scope string_scope.
Open Scope list_scope.
Set Implicit Arguments.
Unset Strict Implicit.
Open Scope Z_scope.

Definition fmtr := option (pyval -> pyval).       (* a formatter attribute, None when falsy *)
Definition vldr := option (mtch -> bool).         (* a validator, None when falsy *)

(** ** Keyword arguments of [Match] given through pattern options (match.py:1016-1031).
    [None]: keyword not given. *)
Record mopts := MOpts {
  mo_value : option pyval;
  mo_name : option (option pstr);
  mo_tags : option (list pstr);
  mo_marker : option bool;
  mo_private : option bool;
  mo_fmt : option fmtr;
  mo_solver : option (option nat)
}.
Definition no_opts : mopts := MOpts None None None None None None None.

(** [dict.update]: the keywords of [b] win *)
Definition or_else {A} (b a : option A) : option A := match b with Some _ => b | None => a end.
Definition mo_update (a b : mopts) : mopts :=
  MOpts (or_else (mo_value b) (mo_value a)) (or_else (mo_name b) (mo_name a))
        (or_else (mo_tags b) (mo_tags a)) (or_else (mo_marker b) (mo_marker a))
        (or_else (mo_private b) (mo_private a)) (or_else (mo_fmt b) (mo_fmt a))
        (or_else (mo_solver b) (mo_solver a)).

(** pattern.py:587-606 [filter_match_kwargs] *)
Definition filter_match_kwargs (kw : mopts) (children : bool) : mopts :=
  MOpts None (if children then None else mo_name kw) (mo_tags kw) (mo_marker kw) (mo_private kw) None (mo_solver kw).

Definition given {A} (o : option A) (d : A) : A := match o with Some a => a | None => d end.

(** match.py:1016-1049 [Match.__init__] called with keyword options *)
Definition new_match (id : nat) (st en : Z) (kw : mopts) (pattern : nat) (input : pstr) : mtch :=
  Mtch id st en (given (mo_value kw) VNone) (given (mo_name kw) None) (given (mo_tags kw) [])
       (given (mo_marker kw) false) (given (mo_private kw) false) (given (mo_fmt kw) None)
       (given (mo_solver kw) None) (Some input) None None 0 (Some pattern) None [].

(** ** loose.py:118-139 [ensure_dict] *)
Inductive dparam (V : Type) :=
| DNone                                   (* falsy: None, empty dict, falsy object *)
| DSingle (v : V)                         (* truthy, not a dict *)
| DDict (d : dict (option pstr) V).       (* a non-empty dict *)
Arguments DNone {V}.
Definition ensure_dict {V} (param : dparam V) (default : V) : dict (option pstr) V * V :=
  match param with
  | DNone => ([(None, default)], default)
  | DSingle v => ([(None, v)], v)
  | DDict d => (d, default)
  end.

(** ** pattern.py:57-154 attributes of a pattern *)
(** what a pre/post match processor returns: None, a falsy object, another match *)
Inductive presult := Keep | Drop | Replace (m : mtch).
(** the processed match as the processor leaves it, and the result *)
Definition processor := mtch -> mtch * presult.

Record popts := POpts {
  po_id : nat;                            (* identity of the pattern object *)
  po_kw : mopts;                          (* keywords also meant for Match *)
  po_formatters : dict (option pstr) fmtr;
  po_formatter : fmtr;                    (* _default_formatter *)
  po_values : dict (option pstr) pyval;
  po_value : pyval;                       (* _default_value *)
  po_validators : dict (option pstr) vldr;
  po_validator : vldr;                    (* _default_validator *)
  po_children : bool;
  po_every : bool;
  po_private_parent : bool;
  po_private_children : bool;
  po_private_names : list pstr;
  po_ignore_names : list pstr;
  po_format_all : bool;
  po_validate_all : bool;
  po_pre : option processor;
  po_post : option processor;
  po_post_processor : option (list mtch -> list mtch)
}.

(** formatters.py:33-39 [default_formatter], validators.py:82-87 [allways_true] *)
Definition default_formatter : pyval -> pyval := fun x => x.
Definition allways_true : mtch -> bool := fun _ => true.

(** pattern.py:57-154 [Pattern.__init__].  A bare [value] which is falsy is [DNone]. *)
Definition new_pattern (id : nat) (kw : mopts) (formatter : dparam fmtr) (value : dparam pyval) (validator : dparam vldr)
  (children every private_parent private_children : bool) (private_names ignore_names : list pstr)
  (format_all validate_all : bool) (pre post : option processor) (post_processor : option (list mtch -> list mtch)) : popts :=
  let '(fd, f) := ensure_dict formatter (Some default_formatter) in
  let '(vd, v) := ensure_dict value VNone in
  let '(cd, c) := ensure_dict validator (Some allways_true) in
  POpts id kw fd f vd v cd c children every private_parent private_children private_names ignore_names
        format_all validate_all pre post post_processor.

(** ** pattern.py:210-328, processing of one match *)

(** pattern.py:210-230 *)
Definition include_children (p : popts) : bool := po_children p || po_every p.
Definition include_parent (p : popts) : bool := negb (po_children p) || po_every p.

(** pattern.py:232-240 [_match_config_property_keys] *)
Definition truthy_name (n : option pstr) : bool := match n with Some (_ :: _) => true | _ => false end.
Definition config_keys (m : mtch) (child : bool) : list (option pstr) :=
  (if truthy_name (m_name m) then [m_name m] else [])
  ++ [Some (if child then s "__children__" else s "__parent__"); None].

(** pattern.py:242-250 [_process_match_index] *)
Definition process_index (m : mtch) (i : nat) : mtch := set_index m i.
(** pattern.py:252-266 [_process_match_private] *)
Definition process_private (p : popts) (m : mtch) (child : bool) : mtch :=
  if (truthy_name (m_name m) && mem (option_eqb pstr_eqb) (m_name m) (map Some (po_private_names p)))
     || (negb child && po_private_parent p) || (child && po_private_children p)
  then set_private m true else m.
(** pattern.py:268-277 [_process_match_value] *)
Definition process_value (p : popts) (m : mtch) (child : bool) : mtch :=
  let v := get_first_defined (po_values p) (config_keys m child) (po_value p) in
  if truthy v then set_lit m v else m.
Definition included (p : popts) (child : bool) : bool := if child then include_children p else include_parent p.
(** pattern.py:279-289 [_process_match_formatter] *)
Definition process_formatter (p : popts) (m : mtch) (child : bool) : mtch :=
  if included p child || po_format_all p
  then set_fmt m (get_first_defined (po_formatters p) (config_keys m child) (po_formatter p)) else m.
(** pattern.py:291-304 [_process_match_validator] *)
Definition process_validator (p : popts) (m : mtch) (child : bool) : bool :=
  if included p child || po_validate_all p then
    match get_first_defined (po_validators p) (config_keys m child) (po_validator p) with
    | Some v => v m
    | None => true
    end
  else true.
(** pattern.py:306-320 [_process_match]: the match as modified, and whether it is valid *)
Definition process_match (p : popts) (m : mtch) (i : nat) (child : bool) : mtch * bool :=
  let m := process_formatter p (process_value p (process_private p (process_index m i) child) child) child in
  (m, process_validator p m child).

(** ** Copies of shared objects *)
Definition set_id (m : mtch) (n : nat) : mtch :=
  Mtch n (m_start m) (m_end m) (m_lit m) (m_name m) (m_tags m) (m_marker m) (m_private m) (m_fmt m) (m_solver m)
       (m_input m) (m_rawstart m) (m_rawend m) (m_index m) (m_pattern m) (m_parent m) (m_children m).
(** a match as stored in [m_parent] of its children *)
Definition shell (m : mtch) : mtch := set_children m [].
(** the current version of object [p] among [objs] *)
Definition current (objs : list mtch) (p : mtch) : mtch :=
  match find (fun o => Nat.eqb (m_id o) (m_id p)) objs with Some o => o | None => p end.
(** [fuel]: a parent chain within [objs] has at most [length objs] steps *)
Fixpoint refresh (fuel : nat) (objs : list mtch) (p : mtch) : mtch :=
  let o := current objs p in
  set_parent (shell o)
    (match m_parent o with
     | Some q => Some (match fuel with S f => refresh f objs q | O => q end)
     | None => None
     end).
Definition relink (objs : list mtch) (m : mtch) : mtch :=
  set_parent m (match m_parent m with Some p => Some (refresh (length objs) objs p) | None => None end).

(** ** pattern.py:322-356 [_process_match_processor], [_process_matches]

    [pm] is [self._process_match] (overridden by Chain).  [fst] of a result is the raw match
    object after processing, [snd] the matches yielded. *)
Section ProcessMatches.
  Variable p : popts.
  Variable pm : mtch -> nat -> bool -> mtch * bool.

  (** pattern.py:344-346, the loop over the children; [parent] is the processed parent,
      [done] the children already processed *)
  Fixpoint process_children (parent : mtch) (i : nat) (done todo : list mtch) : list mtch * bool :=
    match todo with
    | [] => (done, true)
    | c :: r =>
        let '(c', ok) := pm (relink (parent :: done) c) i true in
        if ok then process_children parent i (done ++ [c']) r
        else (done ++ c' :: r, false)
    end.

  (** pattern.py:322-328: the object given, the match to go on with (None: falsy result),
      whether it is still the object given *)
  Definition apply_processor (f : option processor) (m : mtch) : mtch * option mtch * bool :=
    match f with
    | None => (m, Some m, true)
    | Some f => match f m with
                | (m', Keep) => (m', Some m', true)
                | (m', Drop) => (m', None, true)
                | (m', Replace r) => (m', Some r, false)
                end
    end.
  (** [if not match: return] *)
  Definition stop_if_falsy {A} (m : option mtch) (stop : A) (go : mtch -> res A) : res A :=
    match m with
    | None => Ok stop
    | Some m => match mbool m with
                | Err e => Err e
                | Ok false => Ok stop
                | Ok true => go m
                end
    end.

  Definition not_ignored (m : mtch) : bool :=
    negb (mem (option_eqb pstr_eqb) (m_name m) (map Some (po_ignore_names p))).

  (** pattern.py:352-356 *)
  Definition dispatch (m : mtch) : list mtch :=
    (if (include_parent p || po_private_parent p) && not_ignored m then [m] else [])
    ++ (if include_children p || po_private_children p then filter not_ignored (m_children m) else []).

  Definition relink_children (m : mtch) : mtch :=
    set_children m (map (relink (m :: m_children m)) (m_children m)).

  (** pattern.py:330-356 *)
  Definition process_matches (m0 : mtch) (i : nat) : res (mtch * list mtch) :=
    let '(raw, m1, same) := apply_processor (po_pre p) m0 in
    stop_if_falsy m1 (raw, []) (fun m1 =>
      let '(m2, ok) := pm m1 i false in
      let raw2 := if same then relink_children m2 else raw in
      if negb ok then Ok (raw2, []) else
      let '(cs, ok) := process_children m2 i [] (m_children m2) in
      let m3 := relink_children (set_children m2 cs) in
      let raw3 := if same then m3 else raw in
      if negb ok then Ok (raw3, []) else
      let '(m3', m4, same') := apply_processor (po_post p) m3 in
      let raw4 := if same then m3' else raw in
      stop_if_falsy m4 (raw4, []) (fun m4 =>
        let m5 := if same' then relink_children m4 else m4 in
        Ok (if same && same' then m5 else raw4, dispatch m5))).

  (** pattern.py:200-202, the loop over the occurrences of one sub-pattern *)
  Fixpoint process_all (i : nat) (raws : list mtch) : res (list mtch * list mtch) :=
    match raws with
    | [] => Ok ([], [])
    | m :: r =>
        match process_matches m i with
        | Err e => Err e
        | Ok (raw, out) =>
            match process_all (S i) r with
            | Err e => Err e
            | Ok (raws, outs) => Ok (raw :: raws, out ++ outs)
            end
        end
    end.
  Fixpoint process_patterns (occurrences : list (list mtch)) : res (list mtch * list mtch) :=
    match occurrences with
    | [] => Ok ([], [])
    | o :: r =>
        match process_all 0 o with
        | Err e => Err e
        | Ok (raws, outs) =>
            match process_patterns r with
            | Err e => Err e
            | Ok (raws', outs') => Ok (raws ++ raws', outs ++ outs')
            end
        end
    end.

  (** pattern.py:177-208 [matches] once [_match] has been run for each sub-pattern, with
      [_post_process_matches] (pattern.py:358-369): matches and raw matches.
      Simplification: Python interleaves [_match] and the processing; only which of two
      exceptions is raised first depends on it. *)
  Definition finish_matches (occurrences : list (list mtch)) : res (list mtch * list mtch) :=
    match process_patterns occurrences with
    | Err e => Err e
    | Ok (raws, outs) =>
        Ok (match po_post_processor p with Some f => f outs | None => outs end, raws)
    end.
End ProcessMatches.

(** Identities for the matches created by one call: object creation order. *)
Fixpoint number_children (parent : mtch) (n : nat) (cs : list mtch) : list mtch :=
  match cs with
  | [] => []
  | c :: r => set_parent (set_id c n) (Some (shell parent)) :: number_children parent (S n) r
  end.
Definition number_one (n : nat) (m : mtch) : mtch :=
  let p := set_id m n in set_children p (number_children p (S n) (m_children m)).
Fixpoint number_all (n : nat) (ms : list mtch) : nat * list mtch :=
  match ms with
  | [] => (n, [])
  | m :: r => let '(k, r') := number_all (S n + length (m_children m)) r in (k, number_one n m :: r')
  end.
Fixpoint number_lists (n : nat) (l : list (list mtch)) : nat * list (list mtch) :=
  match l with
  | [] => (n, [])
  | o :: r => let '(k, o') := number_all n o in let '(k', r') := number_lists k r in (k', o' :: r')
  end.

(** run [f] on each, stopping at the first error *)
Fixpoint sequence {A B} (f : A -> res B) (l : list A) : res (list B) :=
  match l with
  | [] => Ok []
  | x :: r => match f x with
              | Err e => Err e
              | Ok y => match sequence f r with Err e => Err e | Ok ys => Ok (y :: ys) end
              end
  end.

(** What a pattern does when asked for its matches: next identity, matches, raw matches *)
Definition matcher := nat -> pstr -> res (nat * (list mtch * list mtch)).

(** [if match: yield match]: the non-empty ones; a negative length raises ValueError *)
Fixpoint keep_truthy (ms : list mtch) : res (list mtch) :=
  match ms with
  | [] => Ok []
  | m :: r => match mbool m with
              | Err e => Err e
              | Ok b => match keep_truthy r with
                        | Err e => Err e
                        | Ok r' => Ok (if b then m :: r' else r')
                        end
              end
  end.

Definition run_pattern (p : popts) {A} (subs : list A) (match_ : A -> pstr -> res (list mtch)) : matcher :=
  fun n input =>
    match sequence (fun sub => match_ sub input) subs with
    | Err e => Err e
    | Ok occ =>
        let '(n', occ) := number_lists n occ in
        match finish_matches p (process_match p) occ with
        | Err e => Err e
        | Ok r => Ok (n', r)
        end
    end.

(** ** pattern.py:432-455 [StringPattern] *)
(** the [start], [end] and [ignore_case] keywords, which [find_all] reads *)
Record string_opts := StringOpts { so_start : option Z; so_end : option Z; so_ignore_case : bool }.
(** pattern.py:451-455 [_match] *)
Definition string_match (lower : pstr -> pstr) (p : popts) (o : string_opts) (sub input : pstr) : res (list mtch) :=
  match find_all_n (S (length (if so_ignore_case o then lower input else input))) lower (so_ignore_case o) input sub (so_start o) (so_end o) with
  | None => Err Diverges
  | Some l => keep_truthy (map (fun i => new_match 0 i (i + zlen sub) (filter_match_kwargs (po_kw p) false) (po_id p) input) l)
  end.
Definition string_matches (lower : pstr -> pstr) (p : popts) (o : string_opts) (subs : list pstr) : matcher :=
  run_pattern p subs (string_match lower p o).

(** ** pattern.py:458-531 [RePattern] *)
(** one occurrence reported by the engine: its span and, for each group, the spans captured *)
Record occurrence := Occurrence { oc_span : Z * Z; oc_groups : list (list (Z * Z)) }.
(** a compiled expression: the name of each group, and what [finditer] reports *)
Record regex := Regex { rx_groups : list (option pstr); rx_finditer : pstr -> list occurrence }.
(** pattern.py:512-516: all the captures, or the last one ([span(i)] is (-1,-1) without any) *)
Definition group_spans (repeated : bool) (caps : list (Z * Z)) : list (Z * Z) :=
  if repeated then caps
  else match rev caps with
       | [] => []
       | sp :: _ => if (fst sp >? -1) && (snd sp >? -1) then [sp] else []
       end.
(** pattern.py:509-528, the children of a match: AssertionError when a marker is appended *)
Fixpoint append_children (main : mtch) (cs : list mtch) : res mtch :=
  match cs with
  | [] => Ok main
  | c :: r => match mbool c with
              | Err e => Err e
              | Ok false => append_children main r
              | Ok true => if m_marker c then Err AssertionError
                           else append_children (set_children main (m_children main ++ [c])) r
              end
  end.
(** pattern.py:510-528, the children of one group.  [name] is passed beside the children's options, which have none
    (C139_group_names_given_once): otherwise Python would raise TypeError *)
Definition re_child (p : popts) (input : pstr) (main : mtch) (g : option pstr * list (Z * Z)) (repeated : bool) : list mtch :=
  map (fun sp => set_parent (set_name (new_match 0 (fst sp) (snd sp) (filter_match_kwargs (po_kw p) true) (po_id p) input)
                                      (match fst g with Some nm => Some nm | None => m_name main end))
                            (Some (shell main)))
      (group_spans repeated (snd g)).
(** pattern.py:502-531 [_match] *)
Definition re_one (p : popts) (repeated : bool) (groups : list (option pstr)) (input : pstr) (o : occurrence) : res mtch :=
  let main := new_match 0 (fst (oc_span o)) (snd (oc_span o)) (filter_match_kwargs (po_kw p) false) (po_id p) input in
  append_children main (flat_map (fun g => re_child p input main g repeated) (combine groups (oc_groups o))).
Definition re_match (p : popts) (repeated : bool) (rx : regex) (input : pstr) : res (list mtch) :=
  match sequence (re_one p repeated (rx_groups rx) input) (rx_finditer rx input) with
  | Err e => Err e
  | Ok ms => keep_truthy ms
  end.
Definition re_matches (p : popts) (repeated : bool) (subs : list regex) : matcher :=
  run_pattern p subs (re_match p repeated).

(** ** pattern.py:534-584 [FunctionalPattern] *)
(** one result: a tuple (start, end[, value][, options]) or a dict of options with start and end
    (the keys input_string and pattern are discarded).  What the function returns as a Python object of any
    shape (more positional elements, missing arguments, ...) is the subject of FuncRet.v. *)
Inductive fitem :=
| FTuple (st en : Z) (value : option pyval) (opts : option mopts)
| FDict (st en : Z) (opts : mopts).
(** what the function returns: a falsy object, a single result, an iterable of results *)
Inductive fresult := FFalsy | FOne (x : fitem) | FMany (l : list fitem).
(** pattern.py:565-584; a value given both by position and by keyword is a TypeError *)
Definition functional_one (p : popts) (input : pstr) (x : fitem) : res mtch :=
  let kw := filter_match_kwargs (po_kw p) false in
  match x with
  | FDict st en o => Ok (new_match 0 st en (mo_update kw o) (po_id p) input)
  | FTuple st en v o =>
      let kw := match o with Some o => mo_update kw o | None => kw end in
      match v, mo_value kw with
      | Some _, Some _ => Err TypeError
      | Some v, None => Ok (new_match 0 st en (mo_update kw (MOpts (Some v) None None None None None None)) (po_id p) input)
      | None, _ => Ok (new_match 0 st en kw (po_id p) input)
      end
  end.
Definition functional_match (p : popts) (f : pstr -> fresult) (input : pstr) : res (list mtch) :=
  let items := match f input with FFalsy => [] | FOne x => [x] | FMany l => l end in
  match sequence (functional_one p input) items with
  | Err e => Err e
  | Ok ms => keep_truthy ms
  end.
Definition functional_matches (p : popts) (subs : list (pstr -> fresult)) : matcher :=
  run_pattern p subs (functional_match p).

(** ** The three kinds of patterns *)
Inductive psource :=
| SString (lower : pstr -> pstr) (o : string_opts) (subs : list pstr)
| SRegex (repeated : bool) (subs : list regex)
| SFunctional (subs : list (pstr -> fresult)).
Definition pattern_matches (p : popts) (src : psource) : matcher :=
  match src with
  | SString lower o subs => string_matches lower p o subs
  | SRegex repeated subs => re_matches p repeated subs
  | SFunctional subs => functional_matches p subs
  end.
