(** * rebulk/match.py: [to_dict] with list values as objects

    In Typed.v a list value is a value.  In Python it is an object, that several matches may
    share (the [value=] option of a pattern is the same object for all its matches), and the
    dictionary may hold the very list that is the value of a match, and append to it
    (match.py:812).  Here lists live in a heap. *)
From Verif Require Import Base Match Coll.
Set Implicit Arguments.
Unset Strict Implicit.

(** a value: [HList a] is the list object at [a], [HAtom] anything that is not a list *)
Inductive hval (V : Type) := HAtom (v : V) | HList (a : nat).
Arguments HList {V} a.
Definition lists (V : Type) := nat -> list (hval V).
Definition lset {V} (h : lists V) (a : nat) (l : list (hval V)) : lists V := fun b => if Nat.eqb a b then l else h b.

(** match.py:81-94 [MatchesDict], with the heap and the address of the next new list.  The
    lists of [matches] and [values_list] are made by their defaultdicts and reached by no value. *)
Record hdict (V : Type) := HDict {
  hd_lists : lists V;
  hd_next : nat;
  hd_items : dict (option pstr) (hval V);
  hd_matches : dict (option pstr) (list mtch);
  hd_values : dict (option pstr) (list (hval V))
}.

Section ToDict.
  Context {V : Type}.
  (** [match.value] or the match itself; [==], which may look into lists *)
  Variable val : mtch -> hval V.
  Variable eqv : lists V -> hval V -> hval V -> bool.
  Variables first_value enforce_list : bool.
  (** [y is x or y == x], as [x in l] tests every [y] of [l] *)
  Definition same (h : lists V) (y x : hval V) : bool :=
    match y, x with HList a, HList b => Nat.eqb a b || eqv h y x | _, _ => eqv h y x end.
  Definition in_list (h : lists V) (x : hval V) (l : list (hval V)) : bool := existsb (fun y => same h y x) l.

  (** the body of the loop (match.py:798-817) *)
  Definition hstep (st : hdict V) (m : mtch) : hdict V :=
    let h := hd_lists st in let b := hd_next st in let n := m_name m in
    let value := val m in
    let matches := dpush (hd_matches st) n m in
    let vlist :=
      if enforce_list then hd_values st
      else let t := dtouch (hd_values st) n in if in_list h value (dget t n) then t else dpush t n value in
    match dfind (hd_items st) n with
    | Some old =>
        if first_value then HDict h b (hd_items st) matches vlist
        else match old with
             | HAtom _ => if eqv h old value then HDict h b (hd_items st) matches vlist
                          else HDict (lset h b [old; value]) (S b) (dset (hd_items st) n (HList b)) matches vlist
             | HList a => if in_list h value (h a) then HDict h b (hd_items st) matches vlist
                          else HDict (lset h a (h a ++ [value])) b (hd_items st) matches vlist
             end
    | None =>
        match value with
        | HAtom _ => if enforce_list then HDict (lset h b [value]) (S b) (dset (hd_items st) n (HList b)) matches vlist
                     else HDict h b (dset (hd_items st) n value) matches vlist
        | HList _ => HDict h b (dset (hd_items st) n value) matches vlist
        end
    end.
  (** match.py:797-798: [for match in sorted(self)] *)
  Definition hto_dict (h : lists V) (next : nat) (c : coll) : hdict V :=
    fold_left hstep (sort_by mlt (c_del c)) (HDict h next [] [] []).
End ToDict.

(** [==] on plain values and lists of them ([fuel]: how deep lists are compared) *)
Fixpoint list_eqv (fuel : nat) (h : lists pyval) (x y : hval pyval) : bool :=
  match x, y with
  | HAtom u, HAtom v => py_eqb u v
  | HList a, HList b =>
      match fuel with
      | O => false
      | S f => Nat.eqb (length (h a)) (length (h b))
               && forallb (fun p => match fst p, snd p with HList c, HList d => Nat.eqb c d || list_eqv f h (fst p) (snd p) | _, _ => list_eqv f h (fst p) (snd p) end)
                    (combine (h a) (h b))
      end
  | _, _ => false
  end.
