(** * Slices with a step, and slices assigned from one-shot iterators

    [matches[i:j:s]], [del matches[i:j:s]], [matches[i:j:s] = ms].  The list inside the
    collection ([_delegate]) is a Python list: the positions a slice denotes are those of
    CPython's [slice.indices]. *)
From Verif Require Import Base Match Spec Coll.
Set Implicit Arguments.
Open Scope Z_scope.

(** CPython [slice.indices(len)] (step not 0): bounds of the progression *)
Definition slice_bounds (len : Z) (i j : option Z) (st : Z) : Z * Z :=
  let lower := if st <? 0 then -1 else 0 in
  let upper := if st <? 0 then len - 1 else len in
  let clip d x := match x with
                  | None => d
                  | Some v => if v <? 0 then Z.max lower (v + len) else Z.min upper v
                  end in
  (clip (if st <? 0 then upper else lower) i, clip (if st <? 0 then lower else upper) j).

(** CPython [PySlice_AdjustIndices]: number of positions *)
Definition slice_count (a b st : Z) : Z :=
  if st <? 0 then (if b <? a then (a - b - 1) / (- st) + 1 else 0)
  else (if a <? b then (b - a - 1) / st + 1 else 0).

Definition slice_walk (len : Z) (i j : option Z) (st : Z) : list Z :=
  let '(a, b) := slice_bounds len i j st in
  map (fun k => a + k * st) (zrange 0 (slice_count a b st)).

(** the members at the given positions; the others; the members after storing at the positions *)
Definition pick_at {A} (l : list A) (ps : list Z) : list A :=
  flat_map (fun p => match nth_error l (Z.to_nat p) with Some x => [x] | None => [] end) ps.
Fixpoint drop_at {A} (k : Z) (ps : list Z) (l : list A) : list A :=
  match l with
  | [] => []
  | x :: r => if existsb (Z.eqb k) ps then drop_at (k + 1) ps r else x :: drop_at (k + 1) ps r
  end.
Fixpoint store_at {A} (l : list A) (ps : list Z) (vs : list A) : list A :=
  match ps, vs with
  | p :: ps', v :: vs' => store_at (replace_nth (Z.to_nat p) v l) ps' vs'
  | _, _ => l
  end.

(** match.py:832-839 [__getitem__] with a slice; step 0: [slice step cannot be zero] *)
Definition getstep (c : coll) (i j : option Z) (st : Z) : coll * res unit :=
  if st =? 0 then (empty_coll KMatches None, Err ValueError)
  else extend (empty_coll KMatches None) (pick_at (c_del c) (slice_walk (zlen (c_del c)) i j st)).

(** match.py:966-974 [__delitem__] with a slice *)
Definition delstep (c : coll) (i j : option Z) (st : Z) : coll * res unit :=
  if st =? 0 then (c, Err ValueError)
  else let ps := slice_walk (zlen (c_del c)) i j st in
       remove_matches (with_del c (drop_at 0 ps (c_del c))) (pick_at (c_del c) ps).

(** [_delegate[i:j:s] = ms]: the list assignment alone; with a step other than 1 the sizes must agree *)
Definition assign_list (l : list mtch) (i j : option Z) (st : Z) (ms : list mtch) : option (list mtch) :=
  if st =? 0 then None
  else if st =? 1 then
    let a := match i with None => 0 | Some i => py_clip (zlen l) i end in
    let b := match j with None => zlen l | Some j => py_clip (zlen l) j end in
    Some (firstn (Z.to_nat a) l ++ ms ++ skipn (Z.to_nat (Z.max a b)) l)
  else let ps := slice_walk (zlen l) i j st in
       if zlen ps =? zlen ms then Some (store_at l ps ms) else None.

(** What may stand on the right of the assignment: an iterable that can be walked again, or an
    iterator (a generator, say), exhausted by the list assignment; or the collection itself. *)
Inductive source := SList (ms : list mtch) | SIter (ms : list mtch) | SSelf.

(** match.py:958-964 [__setitem__] with a slice: the list assignment, then [_add_match] for every
    item of a second walk over the right-hand side *)
Definition setstep (c : coll) (i j : option Z) (st : Z) (src : source) : coll * res unit :=
  let ms := match src with SList ms | SIter ms => ms | SSelf => c_del c end in
  match assign_list (c_del c) i j st ms with
  | None => (c, Err ValueError)
  | Some l' =>
      add_matches (with_del c l')
                  (match src with SList ms => ms | SIter _ => [] | SSelf => l' end)
  end.

(** Histories with such calls *)
Inductive xop := XOp (o : op) | XDel (i j : option Z) (st : Z) | XSet (i j : option Z) (st : Z) (ms : list mtch).
Definition xstep (c : coll) (x : xop) : coll * out :=
  match x with
  | XOp o => step c o
  | XDel i j st => unit_out (delstep c i j st)
  | XSet i j st ms => unit_out (setstep c i j st (SList ms))
  end.
Definition xrun (c : coll) (xs : list xop) : coll := fold_left (fun c x => fst (xstep c x)) xs c.
