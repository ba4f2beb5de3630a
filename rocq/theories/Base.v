(** * Python primitives used by the model

    Everything here models CPython built-ins (not code of /repo): strings as
    lists of code points, truthiness, [==] on values, list indexing and slicing,
    [list.insert]/[list.remove], [sorted] (stable), [range], [itertools.groupby]
    and (default) dictionaries as insertion-ordered association lists.
    Simplifications: integers are unbounded [Z] (as in Python); values are limited
    to None/bool/int/str/list/opaque objects (floats, hence NaN, excluded); two
    opaque objects are [==] iff they are the same object. *)
From Coq Require Export List Arith ZArith NArith Lia Bool Permutation Sorted.
From Coq Require Import Ascii String.
Export ListNotations.
Set Implicit Arguments.

Definition char := N.
Definition pstr := list N.

(** String literals for examples only. *)
Fixpoint s (x : string) : pstr :=
  match x with
  | EmptyString => []
  | String a r => N_of_ascii a :: s r
  end.
Arguments s x%string_scope.

(** ** Exceptions as values *)
Inductive exn :=
| ValueError | IndexError | TypeError | AssertionError | LookupError | KeyError
| StopIteration | AttributeError
| CyclicDependency                  (* toposort.py:20-24, a ValueError *)
| InvalidChain                      (* chain.py:22-25 _InvalidChainException *)
| Diverges.                         (* not an exception: the call never returns *)

Inductive res (A : Type) := Ok (a : A) | Err (e : exn).
Arguments Ok {A} a.
Arguments Err {A} e.


(** ** Decidable equality on keys *)
Class Eqb (A : Type) := { eqb : A -> A -> bool; eqb_eq : forall x y, eqb x y = true <-> x = y }.

Fixpoint list_eqb {A} (f : A -> A -> bool) (l r : list A) : bool :=
  match l, r with
  | [], [] => true
  | x :: l', y :: r' => f x y && list_eqb f l' r'
  | _, _ => false
  end.

Lemma list_eqb_spec {A} (f : A -> A -> bool) (Hf : forall x y, f x y = true <-> x = y) :
  forall l r, list_eqb f l r = true <-> l = r.
Proof.
  induction l as [|x l IH]; destruct r as [|y r]; simpl; split; intro H; try congruence; try reflexivity.
  - apply andb_true_iff in H as [H1 H2]. apply Hf in H1. apply IH in H2. congruence.
  - inversion H; subst. apply andb_true_iff; split; [apply Hf; reflexivity | apply IH; reflexivity].
Qed.

#[global] Instance Eqb_Z : Eqb Z := {| eqb := Z.eqb; eqb_eq := Z.eqb_eq |}.
#[global] Instance Eqb_N : Eqb N := {| eqb := N.eqb; eqb_eq := N.eqb_eq |}.
#[global] Instance Eqb_nat : Eqb nat := {| eqb := Nat.eqb; eqb_eq := Nat.eqb_eq |}.
#[global] Instance Eqb_list {A} `{Eqb A} : Eqb (list A) :=
  {| eqb := list_eqb eqb; eqb_eq := list_eqb_spec _ eqb_eq |}.

Definition option_eqb {A} (f : A -> A -> bool) (a b : option A) : bool :=
  match a, b with
  | None, None => true
  | Some x, Some y => f x y
  | _, _ => false
  end.

Lemma option_eqb_spec {A} (f : A -> A -> bool) (Hf : forall x y, f x y = true <-> x = y) :
  forall a b, option_eqb f a b = true <-> a = b.
Proof.
  destruct a, b; simpl; split; intro H; try congruence; try reflexivity.
  - apply Hf in H; congruence.
  - inversion H; subst; apply Hf; reflexivity.
Qed.
#[global] Instance Eqb_option {A} `{Eqb A} : Eqb (option A) :=
  {| eqb := option_eqb eqb; eqb_eq := option_eqb_spec _ eqb_eq |}.

Definition pstr_eqb (a b : pstr) : bool := list_eqb N.eqb a b.

(** [x in l] with an equality test. *)
Definition mem {A} (eq : A -> A -> bool) (x : A) (l : list A) : bool := existsb (eq x) l.

(** Character membership [c in seps] for a string of separators. *)
Definition char_in (c : char) (seps : pstr) : bool := existsb (N.eqb c) seps.

(** ** Python values *)
Inductive pyval :=
| VNone
| VBool (b : bool)
| VInt (z : Z)
| VStr (v : pstr)
| VList (l : list pyval)
| VObj (n : N).                     (* any other (truthy) object, compared by identity *)

Definition truthy (v : pyval) : bool :=
  match v with
  | VNone => false
  | VBool b => b
  | VInt z => negb (Z.eqb z 0)
  | VStr [] => false
  | VStr _ => true
  | VList [] => false
  | VList _ => true
  | VObj _ => true
  end.

(** bool is a subclass of int: True == 1 and False == 0. *)
Definition as_int (v : pyval) : option Z :=
  match v with
  | VBool true => Some 1%Z
  | VBool false => Some 0%Z
  | VInt z => Some z
  | _ => None
  end.

Fixpoint py_eqb (a b : pyval) {struct a} : bool :=
  match a, b with
  | VNone, VNone => true
  | VStr x, VStr y => pstr_eqb x y
  | VObj x, VObj y => N.eqb x y
  | VList l, VList r =>
      (fix go (l r : list pyval) : bool :=
         match l, r with
         | [], [] => true
         | x :: l', y :: r' => py_eqb x y && go l' r'
         | _, _ => false
         end) l r
  | _, _ =>
      match as_int a, as_int b with
      | Some x, Some y => Z.eqb x y
      | _, _ => false
      end
  end.

(** ** Lists *)
Definition zlen {A} (l : list A) : Z := Z.of_nat (List.length l).

(** Clipping of a slice bound (also of the position of [list.insert]). *)
Definition py_clip (len i : Z) : Z :=
  if (i <? 0)%Z then Z.max 0 (len + i) else Z.min i len.

(** [l[i:j]], [None] for an omitted bound, step 1. *)
Definition py_slice {A} (l : list A) (i j : option Z) : list A :=
  let a := match i with None => 0%Z | Some i => py_clip (zlen l) i end in
  let b := match j with None => zlen l | Some j => py_clip (zlen l) j end in
  firstn (Z.to_nat (b - a)) (skipn (Z.to_nat a) l).

(** [l] without [l[i:j]] (what [del l[i:j]] leaves). *)
Definition py_unslice {A} (l : list A) (i j : option Z) : list A :=
  let a := match i with None => 0%Z | Some i => py_clip (zlen l) i end in
  let b := match j with None => zlen l | Some j => py_clip (zlen l) j end in
  firstn (Z.to_nat a) l ++ skipn (Z.to_nat (Z.max a b)) l.

(** Position denoted by an index, [None] when out of range (IndexError). *)
Definition py_pos {A} (l : list A) (i : Z) : option nat :=
  let j := if (i <? 0)%Z then (i + zlen l)%Z else i in
  if ((0 <=? j) && (j <? zlen l))%Z then Some (Z.to_nat j) else None.

(** [l[i]] *)
Definition py_nth {A} (l : list A) (i : Z) : option A :=
  match py_pos l i with Some n => nth_error l n | None => None end.

Definition remove_nth {A} (n : nat) (l : list A) : list A := firstn n l ++ skipn (S n) l.
Definition replace_nth {A} (n : nat) (x : A) (l : list A) : list A := firstn n l ++ x :: skipn (S n) l.
Definition insert_nth {A} (n : nat) (x : A) (l : list A) : list A := firstn n l ++ x :: skipn n l.

(** [list.remove]: drop the first element satisfying [p]; [None] is ValueError. *)
Fixpoint remove_first {A} (p : A -> bool) (l : list A) : option (list A) :=
  match l with
  | [] => None
  | x :: r => if p x then Some r
              else match remove_first p r with Some r' => Some (x :: r') | None => None end
  end.

(** position of the first element satisfying [p] ([list.index]). *)
Fixpoint index_of {A} (p : A -> bool) (l : list A) : option nat :=
  match l with
  | [] => None
  | x :: r => if p x then Some 0 else match index_of p r with Some n => Some (S n) | None => None end
  end.

Definition countb {A} (p : A -> bool) (l : list A) : nat := List.length (filter p l).

(** [range(a, b)] *)
Definition zrange (a b : Z) : list Z :=
  map (fun i => (a + Z.of_nat i)%Z) (seq 0 (Z.to_nat (b - a))).

(** Stable sort, as [sorted]: each element is inserted after those not greater. *)
Fixpoint insert_by {A} (lt : A -> A -> bool) (x : A) (l : list A) : list A :=
  match l with
  | [] => [x]
  | y :: r => if lt x y then x :: y :: r else y :: insert_by lt x r
  end.
Definition sort_by {A} (lt : A -> A -> bool) (l : list A) : list A :=
  fold_left (fun acc x => insert_by lt x acc) l [].

(** [itertools.groupby]: runs of consecutive elements with equal keys. *)
Fixpoint groupby {A K} `{Eqb K} (key : A -> K) (l : list A) : list (K * list A) :=
  match l with
  | [] => []
  | x :: r =>
      match groupby key r with
      | (k, g) :: t => if eqb (key x) k then (k, x :: g) :: t else (key x, [x]) :: (k, g) :: t
      | [] => [(key x, [x])]
      end
  end.

(** ** Dictionaries: insertion-ordered association lists *)
Section Dict.
  Context {K V : Type} `{Eqb K}.
  Definition dict := list (K * V).
  Fixpoint dfind (d : dict) (k : K) : option V :=
    match d with
    | [] => None
    | (k', v) :: r => if eqb k k' then Some v else dfind r k
    end.
  (** [d[k] = v]: in place when present, at the end otherwise. *)
  Fixpoint dset (d : dict) (k : K) (v : V) : dict :=
    match d with
    | [] => [(k, v)]
    | (k', v') :: r => if eqb k k' then (k', v) :: r else (k', v') :: dset r k v
    end.
  Fixpoint dpop (d : dict) (k : K) : dict :=
    match d with
    | [] => []
    | (k', v') :: r => if eqb k k' then r else (k', v') :: dpop r k
    end.
  Definition dmem (d : dict) (k : K) : bool := match dfind d k with Some _ => true | None => false end.
  Definition dkeys (d : dict) : list K := map fst d.
End Dict.
Arguments dict K V : clear implicits.

(** defaultdict(list): reading a missing key creates it. *)
Section DefaultDict.
  Context {K V : Type} `{Eqb K}.
  Definition dget (d : dict K (list V)) (k : K) : list V :=
    match dfind d k with Some l => l | None => [] end.
  (** the effect of evaluating [d[k]] *)
  Definition dtouch (d : dict K (list V)) (k : K) : dict K (list V) :=
    match dfind d k with Some _ => d | None => dset d k [] end.
  (** [d[k].append(v)] *)
  Definition dpush (d : dict K (list V)) (k : K) (v : V) : dict K (list V) :=
    dset d k (dget d k ++ [v]).
  (** [d[k].extend(vs)] *)
  Definition dextend (d : dict K (list V)) (k : K) (vs : list V) : dict K (list V) :=
    dset d k (dget d k ++ vs).
End DefaultDict.
