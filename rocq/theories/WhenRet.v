(** * What [when] returns: rules.py:334-352 [execute_rule], 117-131 [Rule.then], 134-248, utils.py:88-100

    Conseq.v and RuleThen.v start from responses already read (a match, a list of matches; the elements of a response); here [when] returns a Python object
    of any shape.  Simplifications: a set or a dictionary is given by its elements in the order they are iterated over; an
    object that is none of the others has no attribute [name] or [marker] and allows none to be set (true of numbers, texts and containers);
    when appending it raises, it is already in the list of matches (match.py:979-981), a state nobody sees as the exception goes
    through [matches()]: here the collection is the one before. *)
From Verif Require Import Base Match Coll Conseq RuleThen.
Set Implicit Arguments.
Unset Strict Implicit.
Open Scope Z_scope.

(** a match; an iterable other than a text ([lazily]: a generator or another iterable without length); a text; anything else, and whether it is truthy *)
Inductive wobj := WMatch (m : mtch) | WMany (lazily : bool) (l : list wobj) | WText (t : pstr) | WThing (truth : bool).
(** [if when_response:]; match.py:1293-1294 *)
Definition wtruth (o : wobj) : res bool :=
  match o with
  | WMatch m => mbool m
  | WMany lazily l => Ok (lazily || match l with [] => false | _ => true end)
  | WText t => Ok (match t with [] => false | _ => true end)
  | WThing b => Ok b
  end.
(** utils.py:88-100 [is_iterable], and the elements *)
Definition welements (o : wobj) : option (list wobj) := match o with WMany _ l => Some l | _ => None end.

(** rules.py:139-151 RemoveMatch.  [match in matches] is False for anything but a match (match.py:1303-1311) *)
Fixpoint wremove_each (c : coll) (l : list wobj) : coll * res (list mtch) :=
  match l with
  | [] => (c, Ok [])
  | WMatch m :: r =>
      if contains c m then
        match remove c m with
        | (c1, Err e) => (c1, Err e)
        | (c1, Ok _) => match wremove_each c1 r with
                        | (c2, Ok l) => (c2, Ok (m :: l))
                        | (c2, Err e) => (c2, Err e)
                        end
        end
      else wremove_each c r
  | _ :: r => wremove_each c r
  end.
Definition wremove (c : coll) (o : wobj) : coll * res (option response) :=
  match o with
  | WMany _ l => match wremove_each c l with (c1, Ok l) => (c1, Ok (Some (Many l))) | (c1, Err e) => (c1, Err e) end
  | WMatch m => match remove_one c m with (c1, Ok o) => (c1, Ok (option_map One o)) | (c1, Err e) => (c1, Err e) end
  | _ => (c, Ok None)
  end.
(** rules.py:191-200, 213-222, 235-248: remove, assign an attribute of what was removed, append again *)
Definition wmodify (f : mtch -> mtch) (c : coll) (o : wobj) : coll * res unit :=
  match wremove c o with
  | (c1, Err e) => (c1, Err e)
  | (c1, Ok None) => (c1, Ok tt)
  | (c1, Ok (Some (Many []))) => (c1, Ok tt)
  | (c1, Ok (Some (Many l))) => let '(c2, l2) := assign_each f c1 l in append_then None c2 (Many l2)
  | (c1, Ok (Some (One m))) =>
      match mbool m with
      | Err e => (c1, Err e)
      | Ok false => (c1, Ok tt)
      | Ok true => append_then None (assign (m_id m) f c1) (One (upd (m_id m) f m))
      end
  end.
(** rules.py:162-178 AppendMatch; anything but a match raises when given a name, or when added (match.py:993-995) *)
Fixpoint wappend_each (name : option pstr) (ids : list nat) (c : coll) (l : list wobj) : coll * res unit :=
  match l with
  | [] => (c, Ok tt)
  | WMatch m0 :: r =>
      let m := fold_left (fun m id => upd id (fun x => set_name x name) m) ids m0 in
      if contains c m then wappend_each name ids c r
      else
        let '(c1, m1, ids1) :=
          match renames name with
          | Some n => (assign (m_id m) (fun x => set_name x (Some n)) c, upd (m_id m) (fun x => set_name x (Some n)) m, ids ++ [m_id m])
          | None => (c, m, ids)
          end in
        match append c1 m1 with
        | (c2, Err e) => (c2, Err e)
        | (c2, Ok _) => wappend_each name ids1 c2 r
        end
  | _ :: _ => (c, Err AttributeError)
  end.
Definition wappend (name : option pstr) (c : coll) (o : wobj) : coll * res unit :=
  match o with
  | WMany _ l => wappend_each name [] c l
  | WMatch m => drop_ret (append_one name c m)
  | _ => (c, Err AttributeError)
  end.
(** the consequences of the library: rules.py:134, 154, 181, 203, 225 *)
Inductive ckind := KRemove | KAppend (name : option pstr) | KRename (name : option pstr) | KAddTags (ts : list pstr) | KRemoveTags (ts : list pstr).
Definition cthen (k : ckind) (c : coll) (o : wobj) : coll * res unit :=
  match k with
  | KRemove => drop_ret (wremove c o)
  | KAppend name => wappend name c o
  | KRename n => wmodify (fun m => set_name m n) c o
  | KAddTags ts => wmodify (add_tags ts) c o
  | KRemoveTags ts => wmodify (del_tags ts) c o
  end.
(** rules.py:344-352: [if when_response:] then [rule.then(matches, when_response, context)]; whether the rule is reported as executed.
    [resp] is what [when] returns *)
Definition run_when (k : consequence ckind) (c : coll) (resp : wobj) : coll * res bool :=
  match wtruth resp with
  | Err e => (c, Err e)
  | Ok false => (c, Ok false)
  | Ok true => match rule_then welements cthen k c resp with (c1, Ok _) => (c1, Ok true) | (c1, Err e) => (c1, Err e) end
  end.
