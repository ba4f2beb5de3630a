(** * rebulk/match.py, class [Match] (lines 1011-1359)

    A match is modelled as an immutable value; attribute assignment returns a new
    value.  [m_id] stands for object identity (Python [is]), used by the conflict
    solver's identity set only.  [m_parent] is a copy of the parent match and
    [m_children] the list of children: the cyclic reference child.parent/parent.children
    is cut by giving the copies stored in [m_parent] whatever children they had when
    attached (no operation modelled reads [x.parent.children]).
    [m_solver] and [m_pattern] are names of a conflict solver function / pattern object. *)
From Verif Require Import Base.
Set Implicit Arguments.
Open Scope Z_scope.

(** match.py:1016-1049 [Match.__init__] (attributes).  [m_lit] is [_value];
    [m_rawstart]/[m_rawend] are [_raw_start]/[_raw_end]; [m_index] is [match_index].
    [defined_at] (debug only) is not modelled; [marker]/[private] [None] is [false]. *)
Inductive mtch := Mtch {
  m_id : nat;
  m_start : Z;
  m_end : Z;
  m_lit : pyval;
  m_name : option pstr;
  m_tags : list pstr;
  m_marker : bool;
  m_private : bool;
  m_fmt : option (pyval -> pyval);
  m_solver : option nat;
  m_input : option pstr;
  m_rawstart : option Z;
  m_rawend : option Z;
  m_index : nat;
  m_pattern : option nat;
  m_parent : option mtch;
  m_children : list mtch
}.

(** A match with default attributes. *)
Definition mk_match (id : nat) (st en : Z) : mtch :=
  Mtch id st en VNone None [] false false None None None None None 0 None None [].

(** ** Attribute assignment *)
Definition set_start (m : mtch) v := Mtch (m_id m) v (m_end m) (m_lit m) (m_name m) (m_tags m) (m_marker m) (m_private m) (m_fmt m) (m_solver m) (m_input m) (m_rawstart m) (m_rawend m) (m_index m) (m_pattern m) (m_parent m) (m_children m).
Definition set_end (m : mtch) v := Mtch (m_id m) (m_start m) v (m_lit m) (m_name m) (m_tags m) (m_marker m) (m_private m) (m_fmt m) (m_solver m) (m_input m) (m_rawstart m) (m_rawend m) (m_index m) (m_pattern m) (m_parent m) (m_children m).
Definition set_lit (m : mtch) v := Mtch (m_id m) (m_start m) (m_end m) v (m_name m) (m_tags m) (m_marker m) (m_private m) (m_fmt m) (m_solver m) (m_input m) (m_rawstart m) (m_rawend m) (m_index m) (m_pattern m) (m_parent m) (m_children m).
Definition set_name (m : mtch) v := Mtch (m_id m) (m_start m) (m_end m) (m_lit m) v (m_tags m) (m_marker m) (m_private m) (m_fmt m) (m_solver m) (m_input m) (m_rawstart m) (m_rawend m) (m_index m) (m_pattern m) (m_parent m) (m_children m).
Definition set_tags (m : mtch) v := Mtch (m_id m) (m_start m) (m_end m) (m_lit m) (m_name m) v (m_marker m) (m_private m) (m_fmt m) (m_solver m) (m_input m) (m_rawstart m) (m_rawend m) (m_index m) (m_pattern m) (m_parent m) (m_children m).
Definition set_marker (m : mtch) v := Mtch (m_id m) (m_start m) (m_end m) (m_lit m) (m_name m) (m_tags m) v (m_private m) (m_fmt m) (m_solver m) (m_input m) (m_rawstart m) (m_rawend m) (m_index m) (m_pattern m) (m_parent m) (m_children m).
Definition set_private (m : mtch) v := Mtch (m_id m) (m_start m) (m_end m) (m_lit m) (m_name m) (m_tags m) (m_marker m) v (m_fmt m) (m_solver m) (m_input m) (m_rawstart m) (m_rawend m) (m_index m) (m_pattern m) (m_parent m) (m_children m).
Definition set_fmt (m : mtch) v := Mtch (m_id m) (m_start m) (m_end m) (m_lit m) (m_name m) (m_tags m) (m_marker m) (m_private m) v (m_solver m) (m_input m) (m_rawstart m) (m_rawend m) (m_index m) (m_pattern m) (m_parent m) (m_children m).
Definition set_solver (m : mtch) v := Mtch (m_id m) (m_start m) (m_end m) (m_lit m) (m_name m) (m_tags m) (m_marker m) (m_private m) (m_fmt m) v (m_input m) (m_rawstart m) (m_rawend m) (m_index m) (m_pattern m) (m_parent m) (m_children m).
Definition set_input (m : mtch) v := Mtch (m_id m) (m_start m) (m_end m) (m_lit m) (m_name m) (m_tags m) (m_marker m) (m_private m) (m_fmt m) (m_solver m) v (m_rawstart m) (m_rawend m) (m_index m) (m_pattern m) (m_parent m) (m_children m).
Definition set_index (m : mtch) v := Mtch (m_id m) (m_start m) (m_end m) (m_lit m) (m_name m) (m_tags m) (m_marker m) (m_private m) (m_fmt m) (m_solver m) (m_input m) (m_rawstart m) (m_rawend m) v (m_pattern m) (m_parent m) (m_children m).
Definition set_pattern (m : mtch) v := Mtch (m_id m) (m_start m) (m_end m) (m_lit m) (m_name m) (m_tags m) (m_marker m) (m_private m) (m_fmt m) (m_solver m) (m_input m) (m_rawstart m) (m_rawend m) (m_index m) v (m_parent m) (m_children m).
Definition set_parent (m : mtch) v := Mtch (m_id m) (m_start m) (m_end m) (m_lit m) (m_name m) (m_tags m) (m_marker m) (m_private m) (m_fmt m) (m_solver m) (m_input m) (m_rawstart m) (m_rawend m) (m_index m) (m_pattern m) v (m_children m).
Definition set_children (m : mtch) v := Mtch (m_id m) (m_start m) (m_end m) (m_lit m) (m_name m) (m_tags m) (m_marker m) (m_private m) (m_fmt m) (m_solver m) (m_input m) (m_rawstart m) (m_rawend m) (m_index m) (m_pattern m) (m_parent m) v.

(** match.py:1051-1056 [span] *)
Definition m_span (m : mtch) : Z * Z := (m_start m, m_end m).

(** match.py:1121-1159 [raw_start]/[raw_end] *)
Definition raw_start (m : mtch) : Z := match m_rawstart m with None => m_start m | Some v => v end.
Definition raw_end (m : mtch) : Z := match m_rawend m with None => m_end m | Some v => v end.

(** match.py:1161-1170 [raw]: None when the input string is None or empty. *)
Definition m_raw (m : mtch) : pyval :=
  match m_input m with
  | None | Some [] => VNone
  | Some str => VStr (py_slice str (Some (raw_start m)) (Some (raw_end m)))
  end.

(** match.py:1071-1082 [value] getter *)
Definition m_value (m : mtch) : pyval :=
  if truthy (m_lit m) then m_lit m
  else match m_fmt m with
       | Some f => f (m_raw m)
       | None => m_raw m
       end.

(** match.py:1095-1104 [has_literal_value] *)
Definition has_literal (m : mtch) : bool := truthy (m_lit m).

(** match.py:1293-1294 [__len__] *)
Definition mlen (m : mtch) : Z := m_end m - m_start m.

(** [bool(match)]: Python calls [__len__]; a negative length is a ValueError. *)
Definition mbool (m : mtch) : res bool :=
  if mlen m <? 0 then Err ValueError else Ok (negb (mlen m =? 0)).
(** truth value when no error is possible (0 <= length) *)
Definition mtrue (m : mtch) : bool := negb (mlen m =? 0).

(** match.py:1172-1184 [initiator].  Simplification: a parent of negative length
    (a ValueError in Python) counts as truthy. *)
Fixpoint initiator (m : mtch) : mtch :=
  match m_parent m with
  | Some p => if mtrue p then initiator p else m
  | None => m
  end.

(** match.py:1106-1119 [names], as the list of the elements of the set (duplicates
    stand for one element). *)
Fixpoint m_names (m : mtch) : list (option pstr) :=
  match m_children m with
  | [] => [m_name m]
  | cs => flat_map m_names cs
  end.

(** match.py:1275-1291 [tagged]/[named] *)
Definition m_tagged (m : mtch) (tags : list pstr) : bool :=
  existsb (fun t => mem pstr_eqb t (m_tags m)) tags.
Definition m_named (m : mtch) (names : list pstr) : bool :=
  existsb (fun n => mem (option_eqb pstr_eqb) (Some n) (m_names m)) names.

(** match.py:1303-1311 [__eq__] *)
Fixpoint meq (a b : mtch) : bool :=
  (m_start a =? m_start b) && (m_end a =? m_end b)
  && py_eqb (m_value a) (m_value b)
  && option_eqb pstr_eqb (m_name a) (m_name b)
  && match m_parent a, m_parent b with
     | Some p, Some q => meq p q
     | None, None => true
     | _, _ => false
     end.

(** match.py:1313-1321 [__ne__] (the parents are compared with [!=]) *)
Fixpoint mne (a b : mtch) : bool :=
  negb ((m_start a =? m_start b) && (m_end a =? m_end b))
  || negb (py_eqb (m_value a) (m_value b))
  || negb (option_eqb pstr_eqb (m_name a) (m_name b))
  || match m_parent a, m_parent b with
     | Some p, Some q => mne p q
     | None, None => false
     | _, _ => true
     end.

(** match.py:1323-1341: tuple comparison of spans *)
Definition span_ltb (a b : Z * Z) : bool :=
  (fst a <? fst b) || ((fst a =? fst b) && (snd a <? snd b)).
Definition span_leb (a b : Z * Z) : bool :=
  (fst a <? fst b) || ((fst a =? fst b) && (snd a <=? snd b)).
Definition mlt (a b : mtch) : bool := span_ltb (m_span a) (m_span b).
Definition mle (a b : mtch) : bool := span_leb (m_span a) (m_span b).
Definition mgt (a b : mtch) : bool := span_ltb (m_span b) (m_span a).
Definition mge (a b : mtch) : bool := span_leb (m_span b) (m_span a).

(** match.py:1296-1301 [__hash__]: the hash of the tuple (Match, start, end);
    [h] is Python's tuple hash. *)
Definition mhash (h : Z * Z -> Z) (m : mtch) : Z := h (m_span m).

(** match.py:1186-1233 [crop].  One crop span [st,en) against the snapshot [todo] of the
    current pieces: [done] are the pieces already handled (still in [ret]), [rights] the
    right parts appended during this pass, so that [ret = done ++ todo ++ rights].
    [ret.remove(current)] removes the first equal element, which may be one of [done]. *)
Fixpoint crop_pass (st en : Z) (done todo rights : list mtch) : list mtch :=
  match todo with
  | [] => done ++ rights
  | cur :: rest =>
      if (st <=? m_start cur) && (en >=? m_end cur) then
        match remove_first (meq cur) done with
        | Some done' => crop_pass st en (done' ++ [cur]) rest rights
        | None => crop_pass st en done rest rights
        end
      else if (st >=? m_start cur) && (en <=? m_end cur) then
        let right := set_start cur en in
        let cur' := set_end cur st in
        let rights' := if mtrue right then rights ++ [right] else rights in
        if mtrue cur' then crop_pass st en (done ++ [cur']) rest rights'
        else match remove_first (meq cur') done with
             | Some done' => crop_pass st en (done' ++ [cur']) rest rights'
             | None => crop_pass st en done rest rights'
             end
      else if (m_end cur >=? en) && (en >? m_start cur) then
        crop_pass st en (done ++ [set_start cur en]) rest rights
      else if (m_start cur <=? st) && (st <? m_end cur) then
        crop_pass st en (done ++ [set_end cur st]) rest rights
      else crop_pass st en (done ++ [cur]) rest rights
  end.

(** match.py:1209-1232; copies keep [m_id] (their identity is never compared). *)
Definition crop (self : mtch) (crops : list (Z * Z)) : list mtch :=
  fold_left (fun ret c => crop_pass (fst c) (snd c) [] ret []) crops [self].

(** match.py:1235-1273 [split].  [ret] is kept reversed: its head, when there is one, is
    the object [current_match]; [cur0] is [current_match] while [ret] is empty;
    [sp] is [split_match]. *)
Fixpoint split_loop (st : Z) (seps : pstr) (i : Z) (chars : pstr)
         (cur0 : mtch) (sp : option mtch) (ret : list mtch) : list mtch :=
  match chars with
  | [] => rev ret
  | ch :: rest =>
      let cur := match ret with [] => cur0 | c :: _ => c end in
      let sp_true := match sp with Some m => mtrue m | None => false end in
      if char_in ch seps then
        if negb sp_true then
          let cur' := set_end cur (st + i) in
          match ret with
          | [] => split_loop st seps (i + 1) rest cur' (Some cur) []
          | _ :: t => split_loop st seps (i + 1) rest cur0 (Some cur) (cur' :: t)
          end
        else split_loop st seps (i + 1) rest cur0 sp ret
      else
        match sp with
        | Some m => if mtrue m
                    then split_loop st seps (i + 1) rest cur0 None (set_start m (st + i) :: ret)
                    else split_loop st seps (i + 1) rest cur0 sp ret
        | None => split_loop st seps (i + 1) rest cur0 sp ret
        end
  end.

(** TypeError: [enumerate(None)] when there is no raw text. *)
Definition split (self : mtch) (seps : pstr) : res (list mtch) :=
  match m_raw self with
  | VStr chars => Ok (split_loop (m_start self) seps 0 chars self (Some self) [])
  | _ => Err TypeError
  end.
