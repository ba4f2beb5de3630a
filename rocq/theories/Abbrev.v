(** * Abbreviations of regex patterns: pattern.py:463-488 [RePattern.__init__]

    The regex compiler is an argument: a text and flags give a compiled expression or raise.
    A dictionary given as a pattern is an object that the caller still holds, so dictionaries
    are cells of a heap.  Not modelled: keys of a dictionary other than pattern and flags (they
    make re.compile raise), a tuple longer than two (likewise), [repeated_captures]. *)
From Verif Require Import Base.
Set Implicit Arguments.
Unset Strict Implicit.
Open Scope nat_scope.

(** Python's [str.replace(key, replacement)]: occurrences are replaced from the left, and the
    search goes on after the occurrence.  [skip] characters are left of the last occurrence. *)
Fixpoint prefixb (k t : pstr) : bool :=
  match k, t with
  | [], _ => true
  | c :: k', d :: t' => N.eqb c d && prefixb k' t'
  | _ :: _, [] => false
  end.
Fixpoint replace_from (k r : pstr) (skip : nat) (t : pstr) : pstr :=
  match t with
  | [] => []
  | c :: t' =>
      match skip with
      | S n => replace_from k r n t'
      | O => if prefixb k t then r ++ replace_from k r (length k - 1) t' else c :: replace_from k r O t'
      end
  end.
(** the empty key occurs before every character and at the end *)
Definition py_replace (k r t : pstr) : pstr :=
  match k with
  | [] => r ++ flat_map (fun c => c :: r) t
  | _ => replace_from k r 0 t
  end.
(** pattern.py:478-479, 483-484: one after the other *)
Definition expand (abbr : list (pstr * pstr)) (t : pstr) : pstr :=
  fold_left (fun p kr => py_replace (fst kr) (snd kr) p) abbr t.

Section Init.
  Context {Flags C : Type}.
  Variable compile : pstr -> Flags -> res C.
  Variable no_flags : Flags.
  (** a dictionary: its "pattern" and "flags" entries *)
  Record rdict := RDict { rd_pattern : option pstr; rd_flags : option Flags }.
  Definition dheap := nat -> rdict.
  Definition dheap_set (h : dheap) (a : nat) (d : rdict) : dheap := fun b => if Nat.eqb b a then d else h b.
  Inductive rarg :=
  | AText (t : pstr)
  | ADict (a : nat)
  | ATuple (t : pstr) (fl : option Flags)
  | ACompiled (c : C).
  Definition flags_or (fl : option Flags) : Flags := match fl with Some f => f | None => no_flags end.
  (** pattern.py:476-488: one turn of the loop; [kw] is the [flags] keyword argument *)
  Definition init_one (abbr : list (pstr * pstr)) (kw : option Flags) (h : dheap) (p : rarg) : dheap * res C :=
    match p with
    | AText t =>
        (h, compile (match abbr, t with [], _ => t | _, [] => t | _, _ => expand abbr t end) (flags_or kw))
    | ADict a =>
        let d := h a in
        let h' := match abbr, rd_pattern d with
                  | [], _ => h | _, None => h
                  | _, Some t => dheap_set h a (RDict (Some (expand abbr t)) (rd_flags d))
                  end in
        (h', match rd_pattern (h' a) with
             | Some t => compile t (flags_or (rd_flags (h' a)))
             | None => Err TypeError
             end)
    | ATuple t fl => (h, compile t (flags_or fl))
    | ACompiled c => (h, Ok c)
    end.
  Fixpoint re_init (abbr : list (pstr * pstr)) (kw : option Flags) (h : dheap) (ps : list rarg) : dheap * res (list C) :=
    match ps with
    | [] => (h, Ok [])
    | p :: r =>
        match init_one abbr kw h p with
        | (h', Ok c) => match re_init abbr kw h' r with
                        | (h2, Ok cs) => (h2, Ok (c :: cs))
                        | (h2, Err e) => (h2, Err e)
                        end
        | (h', Err e) => (h', Err e)
        end
    end.
End Init.
Arguments RDict {Flags}. Arguments AText {Flags C}. Arguments ADict {Flags C}. Arguments ACompiled {Flags C}. Arguments ATuple {Flags C}.
