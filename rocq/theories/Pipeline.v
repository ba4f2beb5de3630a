(** * The default rules beside the user's (rebulk.py:102-103, processors.py:45-120)

    Rule 0 is the ConflictSolver, rule 1 the PrivateRemover (see Rebulk.v); every other rule is
    the user's.  A response is a list of matches for the default rules, anything for the
    others. *)
From Verif Require Import Base Match Coll Conseq Processors Topo Rules Rebulk.
Set Implicit Arguments.
Unset Strict Implicit.
Open Scope Z_scope.

Definition with_defaults {R} (solvers : nat -> mtch -> mtch -> verdict) (order : list mtch -> list mtch) (user : behav found R)
    : behav found (list mtch + R) :=
  let d := default_behav solvers order in
  let on_left x := match x with (f, Ok l) => (f, Ok (inl l)) | (f, Err e) => (f, Err e) end in
  Behav (fun r => match r with O | S O => b_enabled d r | _ => b_enabled user r end)
        (fun r f => match r with
                    | O | S O => on_left (b_when d r f)
                    | _ => match b_when user r f with (f', Ok x) => (f', Ok (inr x)) | (f', Err e) => (f', Err e) end
                    end)
        (fun r f resp => match r, resp with
                         | (O | S O), inl l => b_then d r f l
                         | (O | S O), inr _ => (f, Ok tt)
                         | _, inr x => b_then user r f x
                         | _, inl _ => (f, Ok tt)
                         end)
        (fun resp => match resp with inl l => b_truthy d l | inr x => b_truthy user x end).
