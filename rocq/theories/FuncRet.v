(** * What the function of a functional pattern returns: pattern.py:553-584, utils.py:88-100

    Pattern.v starts from results already read ([fitem]); here they are Python objects of any shape, and the call of [Match]
    binds positional and keyword arguments.  Simplifications: an object that is none of the others ([VObj], a callable, a
    conflict solver) has neither [__iter__] nor [__getitem__]; the entries of a dictionary are an association list of which
    the first entry for a key counts, so [update] puts the winning entries first (their order is not read). *)
From Verif Require Import Base.
From Coq Require String.
Export Coq.Strings.String.StringSyntax.
Open Scope string_scope.
Open Scope list_scope.
Set Implicit Arguments.
Unset Strict Implicit.
Open Scope Z_scope.

(** a Python object: a value, a tuple, a list, a dictionary with string keys, an iterable without [__getitem__] (generator, set),
    a callable, a conflict solver *)
Inductive pobj :=
| PV (v : pyval) | PTuple (l : list pobj) | PList (l : list pobj) | PDict (d : list (pstr * pobj)) | PIter (l : list pobj)
| PFun (f : pyval -> pyval) | PSolve (n : nat).
(** [if ret:] *)
Definition ptruthy (o : pobj) : bool :=
  match o with
  | PV v => truthy v
  | PTuple [] | PList [] | PDict [] => false
  | _ => true
  end.
(** [isinstance(o, int)] *)
Definition is_int (o : pobj) : bool := match o with PV (VInt _) | PV (VBool _) => true | _ => false end.
(** the elements of a tuple or a list *)
Definition sequence_of (o : pobj) : option (list pobj) :=
  match o with
  | PTuple l | PList l => Some l
  | PV (VList l) => Some (map PV l)
  | _ => None
  end.
(** utils.py:88-100 [is_iterable], and what iterating gives *)
Definition iterated (o : pobj) : option (list pobj) := match o with PIter l => Some l | _ => sequence_of o end.
(** pattern.py:556-564 [args_iterable]; [ret] is truthy *)
Definition answer_items (ret : pobj) : list pobj :=
  match ret with
  | PDict _ => [ret]
  | _ => match iterated ret with
         | None => [ret]
         | Some l => match sequence_of ret with
                     | Some (x :: _) => if is_int x then [ret] else l
                     | _ => l
                     end
         end
  end.

(** match.py:1016-1031: the parameters of [Match.__init__], in order; more keywords are accepted and ignored *)
Definition parameters : list pstr :=
  map s ["start"; "end"; "value"; "name"; "tags"; "marker"; "parent"; "private"; "pattern"; "input_string"; "formatter"; "conflict_solver"].
Definition kwargs := dict pstr pobj.
(** CPython: the call [Match( *args, **kws)]; TypeError for too many positional arguments, an argument given twice, or one missing *)
Definition bind (args : list pobj) (kws : kwargs) : res kwargs :=
  let named := firstn (length args) parameters in
  if (length parameters <? length args)%nat then Err TypeError
  else if existsb (fun k => dmem kws k) (s "self" :: named) then Err TypeError
  else let all := combine named args ++ kws in
       if dmem all (s "start") && dmem all (s "end") then Ok all else Err TypeError.
(** [Match( *args, pattern=self, input_string=input_string, **kw)]: a keyword given twice is a TypeError; then [if match:]
    (match.py:1293-1294 [__len__]): TypeError unless start and end are integers, ValueError when negative *)
Definition make (me : pobj) (input : pstr) (args : list pobj) (kw : kwargs) : res (list kwargs) :=
  if dmem kw (s "pattern") || dmem kw (s "input_string") then Err TypeError
  else match bind args ((s "pattern", me) :: (s "input_string", PV (VStr input)) :: kw) with
       | Err e => Err e
       | Ok b =>
           match dfind b (s "start"), dfind b (s "end") with
           | Some (PV x), Some (PV y) =>
               match as_int x, as_int y with
               | Some st, Some en => if en - st <? 0 then Err ValueError else Ok (if en - st =? 0 then [] else [b])
               | _, _ => Err TypeError
               end
           | _, _ => Err TypeError
           end
       end.
(** [a.update(b)] *)
Definition update (a b : kwargs) : kwargs := b ++ a.
(** [options.pop("input_string", None); options.pop("pattern", None)] *)
Definition popped (d : kwargs) : kwargs := filter (fun e => negb (pstr_eqb (fst e) (s "input_string") || pstr_eqb (fst e) (s "pattern"))) d.
(** [args] as something with a last element: a string is a sequence of characters *)
Definition indexed (o : pobj) : res (list pobj) :=
  match o with
  | PV (VStr t) => Ok (map (fun c => PV (VStr [c])) t)
  | _ => match sequence_of o with Some l => Ok l | None => Err TypeError end
  end.
(** pattern.py:565-584, one round of the loop: what is yielded.  [kw] is [self._match_kwargs] *)
Definition item_matches (kw : kwargs) (me : pobj) (input : pstr) (x : pobj) : res (list kwargs) :=
  match x with
  | PDict d => make me input [] (match kw with [] => popped d | _ => update kw (popped d) end)
  | _ => match indexed x with
         | Err e => Err e
         | Ok args => match rev args with
                      | [] => Err IndexError
                      | PDict d :: r => make me input (rev r) (update kw d)
                      | _ => make me input args kw
                      end
         end
  end.
Fixpoint items_matches (kw : kwargs) (me : pobj) (input : pstr) (xs : list pobj) : res (list kwargs) :=
  match xs with
  | [] => Ok []
  | x :: r => match item_matches kw me input x with
              | Err e => Err e
              | Ok l => match items_matches kw me input r with Err e => Err e | Ok l' => Ok (l ++ l') end
              end
  end.
(** pattern.py:553-584 [FunctionalPattern._match]: the arguments of the matches yielded, or the exception *)
Definition answer_matches (kw : kwargs) (me : pobj) (input : pstr) (ret : pobj) : res (list kwargs) :=
  if ptruthy ret then items_matches kw me input (answer_items ret) else Ok [].
(** the dictionaries in an answer after the search: they are the function's own objects (pattern.py:567-568) *)
Definition item_left (x : pobj) : pobj := match x with PDict d => PDict (popped d) | _ => x end.
