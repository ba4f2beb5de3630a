(** * rebulk/loose.py, rebulk/utils.py, rebulk/validators.py, rebulk/formatters.py

    [set_defaults] is modelled with its user in Builder.v. *)
From Verif Require Import Base Match Coll.
Set Implicit Arguments.
Unset Strict Implicit.
Open Scope Z_scope.

(** ** utils.py:15-64 [find_all] *)

(** [sub] is found at position [i] of [str] (CPython comparison of a slice) *)
Definition sub_at (str sub : pstr) (i : Z) : bool :=
  pstr_eqb (firstn (length sub) (skipn (Z.to_nat i) str)) sub.

(** [str.find(sub, start, end)] (CPython): bounds clipped as for a slice but a start past the
    end of the string finds nothing, first position where [sub] fits; -1 when there is none. *)
Definition find_start (str : pstr) (start : option Z) : Z :=
  match start with
  | None => 0
  | Some i => if i <? 0 then Z.max 0 (zlen str + i) else i
  end.
Definition find_end (str : pstr) (en : option Z) : Z :=
  match en with None => zlen str | Some j => py_clip (zlen str) j end.
Definition py_find (str sub : pstr) (start en : option Z) : Z :=
  match find (sub_at str sub) (zrange (find_start str start) (find_end str en - zlen sub + 1)) with
  | Some i => i
  | None => -1
  end.

(** utils.py:58-64, the loop.  [None] stands for a generator that has not finished after
    [fuel] searches. *)
Fixpoint find_all_loop (fuel : nat) (str sub : pstr) (start en : option Z) : option (list Z) :=
  match fuel with
  | O => None
  | S f =>
      let i := py_find str sub start en in
      if i =? -1 then Some []
      else match find_all_loop f str sub (Some (i + zlen sub)) en with
           | Some l => Some (i :: l)
           | None => None
           end
  end.
(** utils.py:55-57: [lower] is [str.lower] *)
Definition find_all_n (fuel : nat) (lower : pstr -> pstr) (ignore_case : bool) (str sub : pstr) (start en : option Z)
  : option (list Z) :=
  if ignore_case then find_all_loop fuel (lower str) (lower sub) start en
  else find_all_loop fuel str sub start en.

(** ** utils.py:66-85 [get_first_defined] *)
Fixpoint get_first_defined {K V} `{Eqb K} (data : dict K V) (keys : list K) (default : V) : V :=
  match keys with
  | [] => default
  | k :: r => match dfind data k with Some v => v | None => get_first_defined data r default end
  end.

(** ** utils.py:103-126 [extend_safe]

    [hashable] says which elements can be put in a set; for those, membership in a set is
    [==] (an equality consistent with hashing is assumed).  The first pass stops with
    TypeError at the first unhashable element (of the target, or of the source: testing
    [elt not in seen] hashes [elt]).  The result of the first pass stays in [target]. *)
Section ExtendSafe.
  Context {A : Type} (eqA : A -> A -> bool) (hashable : A -> bool).
  Definition linear_extend (target source : list A) : list A :=
    fold_left (fun t e => if mem eqA e t then t else t ++ [e]) source target.
  (** returns the target and whether TypeError was raised *)
  Fixpoint hashed_extend (target seen source : list A) : list A * bool :=
    match source with
    | [] => (target, true)
    | e :: r =>
        if hashable e then
          if mem eqA e seen then hashed_extend target seen r
          else hashed_extend (target ++ [e]) (seen ++ [e]) r
        else (target, false)
    end.
  Definition extend_safe (target source : list A) : list A :=
    if forallb hashable target then
      match hashed_extend target target source with
      | (t, true) => t
      | (t, false) => linear_extend t source
      end
    else linear_extend target source.
End ExtendSafe.

(** ** utils.py:129-181 [IdentitySet]: objects are named by their identity.  The underlying
    set of references is a duplicate-free list; its iteration order is arbitrary. *)
Definition iset := list nat.
Definition iset_mem (x : nat) (t : iset) : bool := existsb (Nat.eqb x) t.
Definition iset_add (x : nat) (t : iset) : iset := if iset_mem x t then t else t ++ [x].
Definition iset_discard (x : nat) (t : iset) : iset := filter (fun y => negb (Nat.eqb x y)) t.
Definition iset_update (xs : list nat) (t : iset) : iset := fold_left (fun t x => iset_add x t) xs t.
Definition iset_init (xs : list nat) : iset := iset_update xs [].
Inductive iop := IAdd (x : nat) | IDiscard (x : nat) | IUpdate (xs : list nat).
Definition istep (t : iset) (o : iop) : iset :=
  match o with
  | IAdd x => iset_add x t
  | IDiscard x => iset_discard x t
  | IUpdate xs => iset_update xs t
  end.
Definition irun (t : iset) (ops : list iop) : iset := fold_left istep ops t.

(** ** loose.py:29-99 [call]

    [sig_args] is [argspec.args] of the callable as [getfullargspec] reports it
    ([self] included for a bound method or a class); [sig_defaults] the number of trailing
    parameters with a default; [sig_kwonly] keyword-only parameters (name, has default). *)
Record signature := Signature {
  sig_args : list pstr;
  sig_defaults : nat;
  sig_varargs : bool;
  sig_varkw : bool;
  sig_kwonly : list (pstr * bool)
}.
(** loose.py:82-99 [argspec_args] *)
Definition argspec_args {V} (sg : signature) (constructor : bool) (args : list V) (kwargs : dict pstr V)
  : list V * dict pstr V :=
  let ckw := if sig_varkw sg then kwargs
             else filter (fun kv => mem pstr_eqb (fst kv) (sig_args sg)) kwargs in
  let cargs := if sig_varargs sg then args
               else py_slice args None (Some (zlen (sig_args sg) - (if constructor then 1 else 0))) in
  (cargs, ckw).
(** CPython's argument binding: [bound] leading parameters are already bound (1 for a bound
    method or constructor, 0 for a plain function).  Ok when the call is accepted. *)
Definition binds {V} (sg : signature) (bound : nat) (args : list V) (kwargs : dict pstr V) : bool :=
  let params := skipn bound (sig_args sg) in
  let positional := firstn (length args) params in
  let rest := skipn (length args) params in
  let required := firstn (length params - sig_defaults sg) params in
  (* not too many positional arguments *)
  (sig_varargs sg || (length args <=? length params)%nat)
  (* no parameter given twice, no unknown keyword *)
  && forallb (fun kv => negb (mem pstr_eqb (fst kv) (firstn bound (sig_args sg) ++ positional))
                        && (mem pstr_eqb (fst kv) rest || mem pstr_eqb (fst kv) (map fst (sig_kwonly sg)) || sig_varkw sg)) kwargs
  (* every parameter without default given *)
  && forallb (fun p => mem pstr_eqb p positional || mem pstr_eqb p (map fst kwargs)) required
  && forallb (fun p => snd p || mem pstr_eqb (fst p) (map fst kwargs)) (sig_kwonly sg).

(** ** loose.py:142-166 [filter_index] *)
Inductive pred_arg (A : Type) := PNone | PFun (f : A -> bool) | PInt (z : Z).
Arguments PNone {A}.
Arguments PInt {A} z.
Inductive picked (A : Type) := PickList (l : list A) | PickOne (x : option A).
(** TypeError: an integer predicate together with an index is called (unless it is 0) *)
Definition filter_index {A} (l : list A) (predicate : pred_arg A) (index : option Z) : res (picked A) :=
  let '(predicate, index) :=
    match index, predicate with
    | None, PInt z => (PNone, Some z)
    | _, _ => (predicate, index)
    end in
  let filtered :=
    match predicate with
    | PNone => Ok l
    | PFun f => Ok (filter f l)
    | PInt z => if z =? 0 then Ok l else match l with [] => Ok [] | _ => Err TypeError end
    end in
  match filtered with
  | Err e => Err e
  | Ok l' => match index with
             | None => Ok (PickList l')
             | Some i => Ok (PickOne (py_nth l' i))
             end
  end.

(** ** validators.py *)
(** validators.py:18-31 [chars_before]; an out-of-range index is IndexError *)
Definition chars_before (chars : pstr) (m : mtch) : res bool :=
  if m_start m <=? 0 then Ok true
  else match m_input m with
       | None => Err TypeError
       | Some str => match py_nth str (m_start m - 1) with
                     | Some ch => Ok (char_in ch chars)
                     | None => Err IndexError
                     end
       end.
(** validators.py:34-48 [chars_after] *)
Definition chars_after (chars : pstr) (m : mtch) : res bool :=
  match m_input m with
  | None => Err TypeError
  | Some str => if m_end m >=? zlen str then Ok true
                else match py_nth str (m_end m) with
                     | Some ch => Ok (char_in ch chars)
                     | None => Err IndexError
                     end
  end.
(** validators.py:51-62 [chars_surround] *)
Definition chars_surround (chars : pstr) (m : mtch) : res bool :=
  match chars_before chars m with
  | Ok true => chars_after chars m
  | r => r
  end.
(** validators.py:65-79 [validators]: [all] of a generator, left to right *)
Fixpoint validators (vs : list (mtch -> res bool)) (m : mtch) : res bool :=
  match vs with
  | [] => Ok true
  | v :: r => match v m with
              | Ok true => validators r m
              | x => x
              end
  end.
(** formatters.py:16-30 [formatters] *)
Definition formatters (fs : list (pyval -> pyval)) (x : pyval) : pyval := fold_left (fun v f => f v) fs x.
