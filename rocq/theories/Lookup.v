(** * rebulk/match.py: the arguments of the lookups, the lists they return, slices

    Coll.v models what each lookup collects.  Here: how [named] reads its positional
    arguments, how [predicate] and [index] are applied by each method, which of the
    returned lists is the very list held by the collection, and the loop
    [for m in <lookup>: matches.remove(m)] over such a list. *)
From Verif Require Import Base Match Coll Loose.
From Coq Require String.
Export Coq.Strings.String.StringSyntax.
Set Implicit Arguments.
Unset Strict Implicit.
Open Scope Z_scope.

(** An argument: None, a string, an integer, a function from matches to truth values. *)
Inductive arg := ANone | AStr (t : pstr) | AInt (z : Z) | AFun (f : mtch -> bool).

(** ** loose.py:142-166 [filter_index], any arguments.  A predicate which is no function is
    called as soon as there is something to filter: TypeError.  An index which is no integer
    is a TypeError ([except IndexError] does not catch it). *)
Definition pick {A} (l : list A) (index : arg) : res (picked A) :=
  match index with
  | ANone => Ok (PickList l)
  | AInt i => Ok (PickOne (py_nth l i))
  | _ => Err TypeError
  end.
Definition calls_nothing {A} (l : list A) : res (list A) := match l with [] => Ok [] | _ => Err TypeError end.
Definition pick_filtered (l : list mtch) (predicate index : arg) : res (picked mtch) :=
  let '(predicate, index) :=
    match index, predicate with
    | ANone, AInt z => (ANone, AInt z)
    | _, _ => (predicate, index)
    end in
  match
    match predicate with
    | ANone | AStr [] => Ok l
    | AStr _ => calls_nothing l
    | AInt z => if z =? 0 then Ok l else calls_nothing l
    | AFun f => Ok (filter f l)
    end
  with
  | Err e => Err e
  | Ok l' => pick l' index
  end.

(** ** match.py:278-312 [named] (any positional names, keywords [predicate] and [index]) *)
(** match.py:299-304: the leading strings are names, the rest is [extras] *)
Fixpoint split_names (args : list arg) : list pstr * list arg :=
  match args with
  | AStr n :: r => let '(ns, extras) := split_names r in (n :: ns, extras)
  | _ => ([], args)
  end.
Definition is_none (a : arg) : bool := match a with ANone => true | _ => false end.
(** [kwargs]: the keyword arguments, in the order given *)
Definition kw_get (kwargs : dict pstr arg) (k : pstr) : arg := match dfind kwargs k with Some a => a | None => ANone end.
Definition k_predicate : pstr := s "predicate".
Definition k_index : pstr := s "index".
Definition named (c : coll) (args : list arg) (kwargs : dict pstr arg) : coll * res (picked mtch) :=
  if forallb (fun kv => pstr_eqb (fst kv) k_predicate || pstr_eqb (fst kv) k_index) kwargs then
    let '(ns, extras) := split_names args in
    let predicate := match extras with e0 :: _ => if is_none (kw_get kwargs k_predicate) then e0 else kw_get kwargs k_predicate
                                     | [] => kw_get kwargs k_predicate end in
    let index := match extras with _ :: e1 :: _ => if is_none (kw_get kwargs k_index) then e1 else kw_get kwargs k_index
                                 | _ => kw_get kwargs k_index end in
    let '(c1, l) := q_named c ns in
    (c1, pick_filtered l predicate index)
  else (c, Err TypeError).

(** ** The other lookups with their predicate and index *)
Inductive query :=
| QTagged (t : pstr) | QStarting (i : Z) | QEnding (i : Z) | QAtIndex (i : Z)
| QPrevious (m : mtch) | QNext (m : mtch) | QRange (i : Z) (j : option Z)
| QConflicting (m : mtch) | QAtSpan (sp : Z * Z) | QAtMatch (m : mtch).
(** the lookup itself, before [filter_index] *)
Definition collect (c : coll) (q : query) : coll * res (list mtch) :=
  match q with
  | QTagged t => let '(c1, l) := q_tagged c t in (c1, Ok l)
  | QStarting i => let '(c1, l) := q_starting c i in (c1, Ok l)
  | QEnding i => let '(c1, l) := q_ending c i in (c1, Ok l)
  | QAtIndex i => let '(c1, l) := q_at_index c i in (c1, Ok l)
  | QPrevious m => let '(c1, l) := q_previous c m in (c1, Ok l)
  | QNext m => let '(c1, l) := q_next c m in (c1, Ok l)
  | QRange i j => (c, Ok (q_range c i j))
  | QConflicting m => q_conflicting c m
  | QAtSpan sp => let '(c1, l) := q_at_span c sp in (c1, Ok l)
  | QAtMatch m => let '(c1, l) := q_at_match c m in (c1, Ok l)
  end.
(** match.py:334, 358, 378, 759, 234-236, 264-266, 424, 696, 743, 714: every one of them ends
    with [filter_index(..., predicate, index)] *)
Definition ask (c : coll) (q : query) (predicate index : arg) : coll * res (picked mtch) :=
  match collect c q with
  | (c1, Err e) => (c1, Err e)
  | (c1, Ok l) => (c1, pick_filtered l predicate index)
  end.

(** match.py:440-536 [chain_before]/[chain_after]: the predicate is applied to every match met
    while walking, and again, with the index, to the chain.  A predicate which is no function
    is not modelled here (0 and None are no predicate). *)
Inductive walk := WBefore (pos : Z) (seps : pstr) (st : Z) | WAfter (pos : Z) (seps : pstr) (en : option Z).
Definition walk_pred (predicate : option (mtch -> bool)) : mtch -> bool :=
  match predicate with None => fun _ => true | Some f => f end.
Definition ask_chain (c : coll) (w : walk) (predicate : option (mtch -> bool)) (index : arg) : coll * res (picked mtch) :=
  match match w with
        | WBefore pos seps st => q_chain_before c pos seps st (walk_pred predicate)
        | WAfter pos seps en => q_chain_after c pos seps en (walk_pred predicate)
        end with
  | (c1, Err e) => (c1, Err e)
  | (c1, Ok l) => (c1, pick_filtered l (match predicate with None => ANone | Some f => AFun f end) index)
  end.

(** ** Lists held by the collection

    [tagged], [starting], [ending] and [at_index] without predicate and index return the list
    stored in the dictionary (match.py:334, 358, 378, 759: [filter_index] returns its argument);
    so do [previous] and [next] (match.py:231, 261).  [named] (match.py:309-312) and the others
    build a new list.  A dictionary, once built, is never replaced, nor the list of a key
    (match.py:167-206 append to it and remove from it), so that the list returned is, later on,
    the one found in the dictionary under the same key. *)
Inductive held := HTag (t : pstr) | HStart (i : Z) | HEnd (i : Z) | HAt (i : Z).
Definition held_list (c : coll) (h : held) : list mtch :=
  match h with
  | HTag t => dget (tagged_dict c) t
  | HStart i => dget (starting_dict c) i
  | HEnd i => dget (ending_dict c) i
  | HAt i => dget (indexed_dict c) i
  end.
Definition held_op (h : held) : op :=
  match h with HTag t => OTagged t | HStart i => OStarting i | HEnd i => OEnding i | HAt i => OAtIndex i end.

(** [for m in <the list returned>: matches.remove(m)].  Python's list iterator keeps a position
    in the list and looks at the list anew at each step.  [None]: the fuel ran out. *)
Fixpoint for_remove_held (fuel : nat) (h : held) (i : nat) (c : coll) : option (coll * res unit) :=
  match fuel with
  | O => None
  | S f => match nth_error (held_list c h) i with
           | None => Some (c, Ok tt)
           | Some m => match remove c m with
                       | (c1, Err e) => Some (c1, Err e)
                       | (c1, Ok _) => for_remove_held f h (S i) c1
                       end
           end
  end.
(** the same loop over a list of its own *)
Fixpoint for_remove (ms : list mtch) (c : coll) : coll * res unit :=
  match ms with
  | [] => (c, Ok tt)
  | m :: r => match remove c m with
              | (c1, Err e) => (c1, Err e)
              | (c1, Ok _) => for_remove r c1
              end
  end.
(** [for m in matches.tagged(t): matches.remove(m)] and the like *)
Definition remove_while_looking (fuel : nat) (c : coll) (h : held) : option (coll * res unit) :=
  for_remove_held fuel h 0 (fst (step c (held_op h))).
(** [for m in matches.named(n1, n2, ...): matches.remove(m)] *)
Definition remove_named (c : coll) (ns : list pstr) : coll * res unit :=
  let '(c1, l) := q_named c ns in for_remove l c1.

(** ** Constructors: match.py:107-118, 989-991 and 1003-1004.  [Markers] does not hand its
    [matches] argument on. *)
Definition new_matches (ms : list mtch) (input : option pstr) : coll * res unit := extend (empty_coll KMatches input) ms.
Definition new_markers (ms : list mtch) (input : option pstr) : coll * res unit := (empty_coll KMarkers input, Ok tt).
(** [matches.extend(<the list returned>)]: collections.abc [MutableSequence.extend] appends each
    item met while iterating over the list, which the appends make longer *)
Fixpoint for_append_held (fuel : nat) (h : held) (i : nat) (c : coll) : option (coll * res unit) :=
  match fuel with
  | O => None
  | S f => match nth_error (held_list c h) i with
           | None => Some (c, Ok tt)
           | Some m => match append c m with
                       | (c1, Err e) => Some (c1, Err e)
                       | (c1, Ok _) => for_append_held f h (S i) c1
                       end
           end
  end.
Definition extend_while_looking (fuel : nat) (c : coll) (h : held) : option (coll * res unit) :=
  for_append_held fuel h 0 (fst (step c (held_op h))).
