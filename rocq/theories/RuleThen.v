(** * rebulk/rules.py: [Rule.then], one or several consequences (lines 110-131)

    The state [St] (the matches), the responses [R] and the consequences [C] are arbitrary.
    [elements resp] is None when [resp] is not iterable (utils.py:88-100), otherwise what
    iterating it gives; a generator is read one element per consequence, which is the same
    when producing its elements has no effect.  A consequence given as a class is
    instantiated without arguments first (rules.py:124-125, 129-130): the instance is the
    consequence here. *)
From Verif Require Import Base.
Set Implicit Arguments.
Unset Strict Implicit.

Section RuleThen.
  Context {St R C : Type}.
  Variable elements : R -> option (list R).
  Variable cons_then : C -> St -> R -> St * res unit.      (* cons.then(matches, response, context) *)

  (** rules.py:115 [consequence]: None, one consequence, an iterable of consequences *)
  Inductive consequence := CNone | COne (k : C) | CMany (ks : list C).

  (** rules.py:123-126: [next(iterator)] on an exhausted iterator raises StopIteration *)
  Fixpoint then_each (ks : list C) (rs : list R) (st : St) : St * res unit :=
    match ks with
    | [] => (st, Ok tt)
    | k :: ks' =>
        match rs with
        | [] => (st, Err StopIteration)
        | r :: rs' => match cons_then k st r with
                      | (st', Ok _) => then_each ks' rs' st'
                      | (st', Err e) => (st', Err e)
                      end
        end
    end.
  (** rules.py:117-131; [assert self.consequence] fails on None and on an empty list *)
  Definition rule_then (c : consequence) (st : St) (resp : R) : St * res unit :=
    match c with
    | CNone | CMany [] => (st, Err AssertionError)
    | COne k => cons_then k st resp
    | CMany ks => then_each ks (match elements resp with Some l => l | None => [resp] end) st
    end.
End RuleThen.
Arguments consequence C : clear implicits.
Arguments CNone {C}.
