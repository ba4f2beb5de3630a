(** * What the code of a rule may do with the matches

    The [when] and [then] of a rule written by a user (rules.py:26-56, 110-131) are arbitrary
    Python, but they reach the matches only through the API.  A [play] is such a computation:
    it may call any operation of [Coll.op] on the matches or on the markers and go on according
    to what the call returned (an exception included), look at the contents (iteration, length,
    [in], [index], [count], [[]] are functions of the contents), read [max_end] and
    [declared_keys], create a match object (take a new identity), assign an attribute of a match
    object, and end by returning a value or raising.  Simplification: a computation that never
    ends is not a [play]. *)
From Verif Require Import Base Match Coll Conseq Topo Rules Typed Rebulk.
Set Implicit Arguments.
Unset Strict Implicit.
Open Scope Z_scope.

(** [matches] or [matches.markers] *)
Inductive which := OnMatches | OnMarkers.
Definition part_of (w : which) (f : found) : coll := match w with OnMatches => fd_matches f | OnMarkers => fd_markers f end.
Definition with_part (w : which) (f : found) (c : coll) : found :=
  match w with OnMatches => with_matches f c | OnMarkers => with_markers f c end.

Inductive play (A : Type) :=
| Return (x : A)
| Raise (e : exn)
| Call (w : which) (o : op) (k : out -> play A)
| Contents (w : which) (k : list mtch -> play A)
| MaxEnd (w : which) (k : Z -> play A)
| DeclaredKeys (k : dict pstr key -> play A)
| NewObject (k : nat -> play A)
| SetAttr (id : nat) (g : mtch -> mtch) (k : play A).
Arguments Return {A}. Arguments Raise {A}. Arguments Call {A}. Arguments Contents {A}. Arguments MaxEnd {A}.
Arguments DeclaredKeys {A}. Arguments NewObject {A}. Arguments SetAttr {A}.

(** the effect of the computation and its outcome *)
Fixpoint perform {A} (p : play A) (f : found) : found * res A :=
  match p with
  | Return x => (f, Ok x)
  | Raise e => (f, Err e)
  | Call w o k => let '(c, r) := step (part_of w f) o in perform (k r) (with_part w f c)
  | Contents w k => perform (k (c_del (part_of w f))) f
  | MaxEnd w k => perform (k (max_end (part_of w f))) f
  | DeclaredKeys k => perform (k (fd_keys f)) f
  | NewObject k => perform (k (fd_next f)) (with_next f (S (fd_next f)))
  | SetAttr id g k => perform k (with_markers (with_matches f (assign id g (fd_matches f))) (assign id g (fd_markers f)))
  end.

(** the user's rules, as computations: whether a rule is enabled, its condition, its
    consequence on the response of the condition, and the truth value of a response *)
Record played (R : Type) := Played {
  pl_enabled : nat -> bool;
  pl_when : nat -> play R;
  pl_then : nat -> R -> play unit;
  pl_truthy : R -> bool
}.
Definition as_behav {R} (u : played R) : behav found R :=
  Behav (pl_enabled u) (fun r f => perform (pl_when u r) f) (fun r f resp => perform (pl_then u r resp) f) (pl_truthy u).
