(** * rebulk/match.py: [to_dict], typed access and projection; rebulk/key.py

    Classes are named by numbers; [isinstance] and [issubclass] are arguments.  A list value is
    a value here: that [to_dict] appends to the very list held as value by a match (when the
    value is a list) is modelled in ToDict.v; here, only what the returned dictionary holds (C104_by_value links the two). *)
From Verif Require Import Base Match Coll.
Set Implicit Arguments.
Unset Strict Implicit.
Open Scope Z_scope.

(** ** match.py:783-818 [to_dict] *)
(** the values stored: [V] is [pyval] without details, [mtch] with details; [as_list v] is
    the contents when [isinstance(v, list)] *)
Record values (V : Type) := Values {
  v_of : mtch -> V;
  v_eq : V -> V -> bool;
  v_list : V -> option (list V);
  v_mk : list V -> V
}.
Definition plain_values : values pyval :=
  Values m_value py_eqb (fun v => match v with VList l => Some l | _ => None end) VList.
(** a dictionary entry with details: a match or a list of matches *)
Inductive entry := EMatch (m : mtch) | EList (l : list entry).
Definition entry_eq (a b : entry) : bool := match a, b with EMatch a, EMatch b => meq a b | _, _ => false end.
Definition detail_values : values entry :=
  Values EMatch entry_eq (fun v => match v with EList l => Some l | EMatch _ => None end) EList.

Record mdict_result (V : Type) := MatchesDict {
  md_items : dict (option pstr) V;
  md_matches : dict (option pstr) (list mtch);
  md_values : dict (option pstr) (list V)
}.

Section ToDict.
  Context {V : Type} (vs : values V).
  Variables first_value enforce_list : bool.
  (** [x in l] *)
  Definition v_in (x : V) (l : list V) : bool := existsb (v_eq vs x) l.
  (** the body of the loop (match.py:798-818) *)
  Definition to_dict_step (r : mdict_result V) (m : mtch) : mdict_result V :=
    let value := v_of vs m in
    let matches := dpush (md_matches r) (m_name m) m in
    let vlist :=
      if enforce_list then md_values r
      else let t := dtouch (md_values r) (m_name m) in
           if v_in value (dget t (m_name m)) then t else dpush t (m_name m) value in
    let items :=
      match dfind (md_items r) (m_name m) with
      | Some old =>
          if first_value then md_items r
          else match v_list vs old with
               | None => if v_eq vs old value then md_items r
                         else dset (md_items r) (m_name m) (v_mk vs [old; value])
               | Some l => if v_in value l then md_items r
                           else dset (md_items r) (m_name m) (v_mk vs (l ++ [value]))
               end
      | None =>
          dset (md_items r) (m_name m)
            (if enforce_list && match v_list vs value with None => true | Some _ => false end then v_mk vs [value] else value)
      end in
    MatchesDict items matches vlist.
  Definition to_dict (c : coll) : mdict_result V :=
    fold_left to_dict_step (sort_by mlt (c_del c)) (MatchesDict [] [] []).
End ToDict.

(** ** key.py:17-58 [Key] *)
Record key := Key { k_name : pstr; k_type : nat; k_formatter : option (pyval -> pyval) }.
(** key.py:47-53 [__post_init__]; [structured]: the type is a dataclass or a TypedDict *)
Definition new_key (structured : nat -> bool) (n : pstr) (t : nat) (f : option (pyval -> pyval)) : res key :=
  if structured t then Err TypeError else Ok (Key n t f).
(** key.py:55-58 [converter]; [cast] is the class called as a function *)
Definition converter (cast : nat -> pyval -> pyval) (k : key) : pyval -> pyval :=
  match k_formatter k with Some f => f | None => cast (k_type k) end.

(** ** match.py:833-835 [matches[key]] and 841-845 [all] *)
Definition key_item (c : coll) (k : key) : coll * pyval :=
  let '(c1, l) := q_named1 c (k_name k) in (c1, match l with m :: _ => m_value m | [] => VNone end).
Definition key_all (c : coll) (k : key) : coll * list pyval :=
  let '(c1, l) := q_named1 c (k_name k) in (c1, map m_value l).

(** ** match.py:41-63 [_element_type], 66-79 [_contradicts] *)
(** an annotation: [typing.Any], [list[X]] (or a bare [typing.List]), a union, a class, anything else *)
Inductive hint := HAny | HList (arg : option hint) | HUnion (args : list hint) | HType (c : nat) | HOther.

Section Types.
  Variable none_type : nat.                      (* type(None) *)
  Variable issub : nat -> nat -> bool.           (* issubclass *)
  Variable container : nat -> bool.              (* issubclass(c, (list, tuple, set, frozenset, dict)) *)
  Variable isinst : pyval -> nat -> bool.        (* isinstance *)

  Definition is_none_hint (h : hint) : bool := match h with HType c => Nat.eqb c none_type | _ => false end.
  Fixpoint element_type (h : hint) : option nat :=
    match h with
    | HAny => None
    | HList (Some x) => element_type x
    | HList None => None
    | HUnion args =>
        match filter snd (map (fun a => (element_type a, negb (is_none_hint a))) args) with
        | [(e, _)] => e
        | _ => None
        end
    | HType c => if container c then None else Some c
    | HOther => None
    end.
  Definition contradicts (h : hint) (declared : nat) : bool :=
    match element_type h with
    | None => false
    | Some e => negb (issub e declared || issub declared e)
    end.

  (** ** match.py:847-911 [to] *)
  (** a field: its name, its annotation, whether the constructor of the model needs it *)
  Record field := Field { f_name : pstr; f_hint : hint; f_required : bool }.
  Inductive model :=
  | MList (structured : bool)                    (* list[X]; is X a dataclass or TypedDict *)
  | MFields (fields : list field)                (* dataclass, TypedDict *)
  | MType                                        (* any other class *)
  | MOther.
  Inductive projection := PValues (l : list pyval) | PValue (v : pyval) | PFields (kwargs : dict pstr pyval).

  Definition is_list_hint (h : hint) : bool := match h with HList _ => true | _ => false end.
  (** match.py:897-910, the loop over the fields *)
  Fixpoint fill (keys : dict pstr key) (fs : list field) (c : coll) (kwargs : dict pstr pyval) : coll * res (dict pstr pyval) :=
    match fs with
    | [] => (c, Ok kwargs)
    | f :: r =>
        if match dfind keys (f_name f) with Some k => contradicts (f_hint f) (k_type k) | None => false end
        then (c, Err TypeError)
        else
          let '(c1, l) := q_named1 c (f_name f) in
          let values := map m_value l in
          fill keys r c1
            (if is_list_hint (f_hint f) then dset kwargs (f_name f) (VList values)
             else match values with v :: _ => dset kwargs (f_name f) v | [] => kwargs end)
    end.
  Definition to (keys : dict pstr key) (c : coll) (mo : model) : coll * res projection :=
    match mo with
    | MList true => (c, Err TypeError)
    | MList false => (c, Ok (PValues (map m_value (c_del c))))
    | MFields fs =>
        match fill keys fs c [] with
        | (c1, Err e) => (c1, Err e)
        | (c1, Ok kw) =>                         (* the constructor: TypeError when a required field is missing *)
            if forallb (fun f => negb (f_required f) || dmem kw (f_name f)) fs then (c1, Ok (PFields kw)) else (c1, Err TypeError)
        end
    | MType => match c_del c with [] => (c, Err LookupError) | m :: _ => (c, Ok (PValue (m_value m))) end
    | MOther => (c, Err TypeError)
    end.

  (** ** match.py:913-951 [check_declared_keys] *)
  Definition violates (keys : dict pstr key) (m : mtch) : bool :=
    match match m_name m with Some (ch :: r) => dfind keys (ch :: r) | _ => None end with
    | None => false
    | Some k =>
        if m_private m || has_literal m then false
        else match m_value m with
             | VNone => false
             | v => negb (isinst v (k_type k))
             end
    end.
  Definition check_declared_keys (keys : dict pstr key) (c : coll) : res unit :=
    if existsb (violates keys) (c_del c) then Err TypeError else Ok tt.
End Types.
