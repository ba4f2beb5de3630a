(** * rebulk/processors.py: the conflict solver and the private remover

    A conflict solver is a function named by a number ([m_solver] of a match): given two
    matches it returns '__default__', None (or any falsy value) or a match.  Simplifications:
    a solver does not raise and does not modify the matches; the length of an initiator is
    taken as an integer also when negative (Python: ValueError, no such match is reachable);
    logging is not modelled.  The identity set of matches to remove (utils.py:144-181) is the
    list of its elements in insertion order, tested by [m_id]; the order in which Python
    iterates it is the argument [perm]. *)
From Verif Require Import Base Match Coll Conseq.
Set Implicit Arguments.
Unset Strict Implicit.
Open Scope Z_scope.

Inductive verdict := VDefault | VNothing | VMatch (m : mtch).

(** processors.py:27-42 *)
Definition default_solver (m c : mtch) : verdict :=
  if mlen (initiator c) <? mlen (initiator m) then VMatch c
  else if mlen (initiator m) <? mlen (initiator c) then VMatch m
  else VNothing.

(** utils.py:154 [elem in identity_set] *)
Definition in_set (x : mtch) (rm : list mtch) : bool := existsb (fun y => Nat.eqb (m_id x) (m_id y)) rm.

Section Solver.
  Variable solvers : nat -> mtch -> mtch -> verdict.

  (** processors.py:78-83: (solver, reverse) *)
  Definition conflict_solvers (m c : mtch) : list ((mtch -> mtch -> verdict) * bool) :=
    [(default_solver, false)]
    ++ match m_solver m with Some f => [(solvers f, false)] | None => [] end
    ++ match m_solver c with Some f => [(solvers f, true)] | None => [] end.
  (** processors.py:85-91: the first answer that is not '__default__' *)
  Fixpoint consult (fs : list ((mtch -> mtch -> verdict) * bool)) (m c : mtch) : verdict :=
    match fs with
    | [] => VNothing
    | (f, rv) :: r => match (if rv then f c m else f m c) with
                      | VDefault => consult r m c
                      | v => v
                      end
    end.
  Definition decide (m c : mtch) : verdict := consult (rev (conflict_solvers m c)) m c.
  (** processors.py:92-106 *)
  Definition mark (rm : list mtch) (m c : mtch) : res (list mtch) :=
    match decide m c with
    | VMatch x =>
        match mbool x with
        | Err e => Err e
        | Ok false => Ok rm
        | Ok true =>
            if in_set x rm then Ok rm
            else match remove_first (meq x) [m; c] with
                 | None => Err ValueError
                 | Some both => match both with
                                | keep :: _ => if in_set keep rm then Ok rm else Ok (rm ++ [x])
                                | [] => Ok rm
                                end
                 end
        end
    | _ => Ok rm
    end.
  Fixpoint mark_all (rm : list mtch) (m : mtch) (cs : list mtch) : res (list mtch) :=
    match cs with
    | [] => Ok rm
    | c :: r => match mark rm m c with Ok rm' => mark_all rm' m r | Err e => Err e end
    end.
  (** processors.py:64-65 and 72-75: [sort(key=len)] of the non-private ones *)
  Definition shorter (a b : mtch) : bool := mlen a <? mlen b.
  Definition by_length (l : list mtch) : list mtch := sort_by shorter (filter (fun m => negb (m_private m)) l).
  (** processors.py:67-106 *)
  Fixpoint conflict_loop (c : coll) (rm : list mtch) (ms : list mtch) : coll * res (list mtch) :=
    match ms with
    | [] => (c, Ok rm)
    | m :: r =>
        match q_conflicting c m with
        | (c1, Err e) => (c1, Err e)
        | (c1, Ok confl) =>
            match mark_all rm m (by_length confl) with
            | Err e => (c1, Err e)
            | Ok rm1 => conflict_loop c1 rm1 r
            end
        end
    end.
  (** processors.py:61-107 [ConflictSolver.when] *)
  Definition conflict_when (c : coll) : coll * res (list mtch) := conflict_loop c [] (by_length (c_del c)).

  (** ConflictSolver as a rule: [when], then [RemoveMatch.then] on the set if it is not empty
      (rules.py:334-356; removing nothing when it is empty is the same) *)
  Definition conflict_rule (perm : list mtch -> list mtch) (c : coll) : coll * res unit :=
    match conflict_when c with
    | (c1, Err e) => (c1, Err e)
    | (c1, Ok rm) => drop_ret (remove_then c1 (Many (perm rm)))
    end.
End Solver.

(** processors.py:119-120 [PrivateRemover.when] and RemoveMatch *)
Definition private_rule (c : coll) : coll * res unit :=
  drop_ret (remove_then c (Many (filter m_private (c_del c)))).
