(** * Registration: rules.py:251-302 [Rules.load], rebulk.py:80-136 and builder.py:216-220 on
    Rebulk objects that share children

    A rule object is named by a number, as in Rules.v.  Calling a class or a function without
    arguments gives an object or raises; what is called twice gives two objects, so [calls]
    are functions of the number of objects created so far.  Not modelled: a member whose
    [__module__] attribute raises; a class whose constructor registers rules. *)
From Verif Require Import Base Loose Rules Rebulk.
Set Implicit Arguments.
Unset Strict Implicit.
Open Scope nat_scope.

(** ** Loading *)
(** what a module attribute is: where it was defined ([__module__]; None: it has none), and
    what calling it without arguments does.  [mb_is_class] is not read by the code. *)
Record member := Member { mb_module : option pstr; mb_is_class : bool; mb_call : nat -> res nat }.
Record pymodule := PyModule { md_name : pstr; md_members : list (pstr * member) }.
Inductive loadable := LModule (m : pymodule) | LClass (call : nat -> res nat) | LInstance (r : nat).
(** the rules registered, and the number of objects created so far *)
Record rules_st := RSt { rs_rules : list nat; rs_count : nat }.
(** rules.py:293-302 [load_class] *)
Definition load_class (call : nat -> res nat) (st : rules_st) : rules_st * res unit :=
  match call (rs_count st) with
  | Ok r => (RSt (rs_rules st ++ [r]) (S (rs_count st)), Ok tt)
  | Err e => (st, Err e)
  end.
Fixpoint load_members (ms : list (pstr * member)) (st : rules_st) : rules_st * res unit :=
  match ms with
  | [] => (st, Ok tt)
  | (_, m) :: t => match load_class (mb_call m) st with
                   | (st', Ok _) => load_members t st'
                   | (st', Err e) => (st', Err e)
                   end
  end.
(** rules.py:287-288 [predicate]: its value ends with [and inspect.isclass], a function, which
    is truthy: whether the member is a class is not tested *)
Definition member_of (m : pymodule) (nm : pstr * member) : bool :=
  match mb_module (snd nm) with Some n => pstr_eqb n (md_name m) | None => false end.
(** rules.py:277-291 [load_module]; [inspect.getmembers] sorts by name *)
Definition load_module (m : pymodule) (st : rules_st) : rules_st * res unit :=
  load_members (sort_by (fun a b => pstr_lt (fst a) (fst b)) (filter (member_of m) (md_members m))) st.
(** rules.py:260-275 [load] *)
Fixpoint load (ls : list loadable) (st : rules_st) : rules_st * res unit :=
  match ls with
  | [] => (st, Ok tt)
  | l :: t =>
      match (match l with
             | LModule m => load_module m st
             | LClass call => load_class call st
             | LInstance r => (RSt (rs_rules st ++ [r]) (rs_count st), Ok tt)
             end) with
      | (st', Ok _) => load t st'
      | (st', Err e) => (st', Err e)
      end
  end.

(** ** Rebulk objects in a heap: children are shared, and may be added to later *)
Section Heap.
  Context {Ctx : Type}.
  Record robj := RObj { ro_disabled : Ctx -> bool; ro_patterns : list (pat Ctx); ro_rules : list nat; ro_children : list nat }.
  Definition rheap := nat -> robj.
  (** rebulk.py:80-104 [__init__]: the default rules are new objects, made by [fresh] *)
  Definition init_obj (disabled : Ctx -> bool) (with_default : bool) (fresh : list nat) : robj :=
    RObj disabled [] (if with_default then fresh else []) [].
  Definition rset (h : rheap) (a : nat) (o : robj) : rheap := fun x => if Nat.eqb x a then o else h x.
  (** one call on the object [a] *)
  Inductive rcall :=
  | CPattern (ps : list (pat Ctx))                       (* rebulk.py:106-116, builder.py:230-264 *)
  | CRules (rs : list nat)                               (* rebulk.py:118-126, what [load] appended *)
  | CRebulk (rs : list nat)                              (* rebulk.py:128-136 *)
  | CReset (fresh : list nat).                           (* builder.py:216-220: [self.__init__()] *)
  Definition rstep (h : rheap) (ac : nat * rcall) : rheap :=
    let '(a, call) := ac in
    let o := h a in
    rset h a match call with
             | CPattern ps => RObj (ro_disabled o) (ro_patterns o ++ ps) (ro_rules o) (ro_children o)
             | CRules rs => RObj (ro_disabled o) (ro_patterns o) (ro_rules o ++ rs) (ro_children o)
             | CRebulk rs => RObj (ro_disabled o) (ro_patterns o) (ro_rules o) (ro_children o ++ rs)
             | CReset fresh => init_obj (fun _ => false) true fresh
             end.
  Definition rrun (h : rheap) (calls : list (nat * rcall)) : rheap := fold_left rstep calls h.
  (** rebulk.py:252-264 [effective_patterns], 167-180 [effective_rules] on the heap *)
  Definition heap_patterns (h : rheap) (ctx : Ctx) (a : nat) : list (pat Ctx) :=
    fold_left (fun ps b => if ro_disabled (h b) ctx then ps else extend_safe (@pat_eq Ctx) (fun _ => true) ps (ro_patterns (h b)))
              (ro_children (h a)) (ro_patterns (h a)).
  Definition heap_rules (env : renv) (h : rheap) (ctx : Ctx) (a : nat) : list nat :=
    fold_left (fun rs b => if ro_disabled (h b) ctx then rs else extend_safe (rule_eq env) (fun _ => true) rs (ro_rules (h b)))
              (ro_children (h a)) (ro_rules (h a)).
End Heap.
Arguments robj : clear implicits.
Arguments rcall : clear implicits.
