(** * rebulk/chain.py

    A part is given by its pattern (any [matcher], possibly another chain), its repeater and
    whether it is hidden.  [context] is not modelled. *)
From Verif Require Import Base Match Coll Loose Pattern.
Set Implicit Arguments.
Unset Strict Implicit.
Open Scope Z_scope.

(** chain.py:224-229 attributes of [ChainPart] *)
Record cpart := CPart {
  cp_match : matcher;
  cp_start : Z;                 (* repeater_start *)
  cp_end : option Z;            (* repeater_end *)
  cp_hidden : bool
}.

(** [input[i:j]] is non-empty: [if separator] *)
Definition separated (input : pstr) (i j : Z) : bool :=
  match py_slice input (Some i) (Some j) with [] => false | _ => true end.

(** chain.py:291-297: the matches up to the first separator; [m] is kept *)
Fixpoint contiguous (input : pstr) (m : mtch) (rest : list mtch) : list mtch :=
  match rest with
  | [] => [m]
  | m' :: r => if separated input (raw_end (initiator m)) (raw_start (initiator m')) then [m]
               else m :: contiguous input m' r
  end.
(** chain.py:282-300 [_truncate_repeater]; [first] is [_is_chain_start] *)
Definition truncate_repeater (first : bool) (rend : option Z) (ms : list mtch) (input : pstr) : list mtch :=
  match ms with
  | [] => []
  | m :: r =>
      if negb first && separated input 0 (raw_start (initiator m)) then []
      else let kept := contiguous input m r in
           match rend with
           | Some e => filter (fun x => Z.of_nat (m_index x) <? e) kept
           | None => kept
           end
  end.
(** chain.py:302-307 [_validate_repeater] *)
Definition validate_repeater (rstart : Z) (ms : list mtch) : bool :=
  negb (fold_left (fun a m => Z.max a (Z.of_nat (m_index m))) ms (-1) + 1 <? rstart).

(** chain.py:264-280 [ChainPart.matches] *)
Definition part_matches (first : bool) (cp : cpart) (n : nat) (input : pstr) : res (nat * (list mtch * list mtch)) :=
  match cp_match cp n input with
  | Err e => Err e
  | Ok (n', (ms, raws)) =>
      let ms := truncate_repeater first (cp_end cp) ms input in
      let raws := truncate_repeater first (cp_end cp) raws input in
      if validate_repeater (cp_start cp) raws then Ok (n', (ms, raws)) else Err InvalidChain
  end.

(** chain.py:184-192 [_fix_matches_offset] on one match.  The copy of its parent is the shared
    parent object, which is moved as well because it is among the raw matches; simplification: a
    parent that was cut off from the raw matches while its child was kept (possible only when a
    function yields matches out of order) is moved here and not in Python. *)
Fixpoint shift (input : pstr) (offset : Z) (m : mtch) {struct m} : mtch :=
  let moved := option_eqb pstr_eqb (m_input m) (Some input) in
  Mtch (m_id m) (if moved then m_start m else m_start m + offset) (if moved then m_end m else m_end m + offset)
       (m_lit m) (m_name m) (m_tags m) (m_marker m) (m_private m) (m_fmt m) (m_solver m) (Some input)
       (m_rawstart m) (m_rawend m) (m_index m) (m_pattern m)
       (match m_parent m with Some p => Some (shift input offset p) | None => None end)
       (map (shift input offset) (m_children m)).

(** chain.py:194-202 [_group_by_match_index] *)
Definition group_by_index (ms : list mtch) : list (nat * list mtch) :=
  groupby m_index (sort_by (fun a b => Nat.ltb (m_index a) (m_index b)) ms).

(** the local variables of [_match] (chain.py:58-64) *)
Record cstate := CState {
  cs_next : nat;                  (* supply of identities *)
  cs_found : bool;                (* chain_found *)
  cs_text : pstr;                 (* chain_input_string *)
  cs_offset : Z;
  cs_current : list mtch          (* current_chain_matches *)
}.

(** chain.py:181-182 [_chain_breaker_eval] is [breaker_allows]; [Matches(...)] refuses markers *)
Definition breaker_allows (breaker : option (list mtch -> bool)) (ms : list mtch) : res bool :=
  match breaker with
  | None => Ok true
  | Some b => if existsb m_marker ms then Err AssertionError else Ok (negb (b ms))
  end.

(** chain.py:112-120, the loop over the groups of raw matches *)
Fixpoint next_groups (breaker : option (list mtch -> bool)) (hidden : bool) (input : pstr)
         (visible : list (nat * list mtch)) (groups : list (nat * list mtch)) (st : cstate) : res cstate :=
  match groups with
  | [] => Ok st
  | (i, g) :: r =>
      let offset := match rev g with x :: _ => raw_end x | [] => cs_offset st end in
      let text := py_slice input (Some offset) None in
      if hidden then next_groups breaker hidden input visible r (CState (cs_next st) true text offset (cs_current st))
      else
        let gm := match dfind visible i with Some l => l | None => [] end in
        match breaker_allows breaker (cs_current st ++ gm) with
        | Err e => Err e
        | Ok b => next_groups breaker hidden input visible r
                    (CState (cs_next st) true text offset (if b then cs_current st ++ gm else cs_current st))
        end
  end.
(** chain.py:94-121 [_to_next_chain_part] *)
Definition to_next_part (breaker : option (list mtch -> bool)) (cp : cpart) (input : pstr) (ms raws : list mtch) (st : cstate)
  : res cstate :=
  let ms := map (shift input (cs_offset st)) ms in
  let raws := map (shift input (cs_offset st)) raws in
  next_groups breaker (cp_hidden cp) input (group_by_index ms) (group_by_index raws) st.

(** chain.py:65-85, the loop over the parts: the state and [valid_chain] *)
Fixpoint run_parts (breaker : option (list mtch -> bool)) (input : pstr) (first : bool) (parts : list cpart) (st : cstate)
  : res (cstate * bool) :=
  match parts with
  | [] => Ok (st, true)
  | cp :: r =>
      match part_matches first cp (cs_next st) (cs_text st) with
      | Err InvalidChain =>
          Ok (match cs_current st with
              | m :: _ => CState (cs_next st) (cs_found st) (cs_text st) (raw_end m) (cs_current st)
              | [] => st
              end, false)
      | Err e => Err e
      | Ok (n', (ms, raws)) =>
          match to_next_part breaker cp input ms raws (CState n' (cs_found st) (cs_text st) (cs_offset st) (cs_current st)) with
          | Err e => Err e
          | Ok st' => run_parts breaker input false r st'
          end
      end
  end.

(** [match.children.append]: AssertionError for a marker *)
Definition append_child (cs : list mtch) (c : mtch) : res (list mtch) :=
  if m_marker c then Err AssertionError else Ok (cs ++ [c]).
Fixpoint append_all (cs add : list mtch) : res (list mtch) :=
  match add with
  | [] => Ok cs
  | c :: r => match append_child cs c with Err e => Err e | Ok cs' => append_all cs' r end
  end.
(** chain.py:172-178, the children of the chain match.  Simplification: when an object appended by itself is
    appended again among the children of a later match (see C120 for when that happens), this second copy
    keeps its former parent here; in Python it is the same object, whose parent is the chain match. *)
Fixpoint chain_children (main : mtch) (cur cs : list mtch) : res (list mtch) :=
  match cur with
  | [] => Ok cs
  | m :: r =>
      match append_all cs (m_children m) with
      | Err e => Err e
      | Ok cs1 =>
          if mem meq m cs1 then chain_children main r cs1
          else match append_child cs1 (set_parent m (Some (shell main))) with
               | Err e => Err e
               | Ok cs2 => chain_children main r cs2
               end
      end
  end.
(** chain.py:163-179 [_build_chain_match]; [cur] is not empty *)
Definition build_chain_match (p : popts) (id : nat) (cur : list mtch) (input : pstr) : res mtch :=
  match cur with
  | [] => Err TypeError
  | m :: r =>
      let st := fold_left (fun a x => Z.min a (m_start x)) r (m_start m) in
      let en := fold_left (fun a x => Z.max a (m_end x)) r (m_end m) in
      let main := new_match id st en (filter_match_kwargs (po_kw p) false) (po_id p) input in
      match chain_children main cur [] with
      | Err e => Err e
      | Ok cs => Ok (relink_children (set_children main cs))
      end
  end.

(** chain.py:52-92 [_match]: the while loop.  [Diverges]: not finished after [fuel] rounds. *)
Fixpoint chain_loop (fuel : nat) (p : popts) (breaker : option (list mtch -> bool)) (parts : list cpart) (input : pstr)
         (n : nat) (text : pstr) (offset : Z) (acc : list mtch) : res (nat * list mtch) :=
  if offset <? zlen input then
    match fuel with
    | O => Err Diverges
    | S f =>
        match run_parts breaker input true parts (CState n false text offset []) with
        | Err e => Err e
        | Ok (st, valid) =>
            if negb (cs_found st) then Ok (cs_next st, acc)
            else
              match cs_current st with
              | _ :: _ =>
                  if valid then
                    match build_chain_match p (cs_next st) (cs_current st) input with
                    | Err e => Err e
                    | Ok m => chain_loop f p breaker parts input (S (cs_next st)) (cs_text st) (cs_offset st) (acc ++ [m])
                    end
                  else chain_loop f p breaker parts input (cs_next st) (cs_text st) (cs_offset st) acc
              | [] => chain_loop f p breaker parts input (cs_next st) (cs_text st) (cs_offset st) acc
              end
        end
    end
  else Ok (n, acc).
Definition chain_match (fuel : nat) (p : popts) (breaker : option (list mtch -> bool)) (parts : list cpart) (n : nat) (input : pstr) :=
  chain_loop fuel p breaker parts input n input 0 [].

(** chain.py:123-161 [_process_match] *)
(** chain.py:149-156: give up the groups of the last pattern one by one, from the last *)
Fixpoint shrink (p : popts) (i : nat) (child : bool) (groups : list (list mtch)) (m : mtch) : option mtch :=
  match groups with
  | [] => None
  | g :: r =>
      let cs := fold_left (fun cs x => match remove_first (meq x) cs with Some cs' => cs' | None => cs end) g (m_children m) in
      let m1 := set_end (set_children m cs) (match rev cs with x :: _ => m_end x | [] => m_start m end) in
      let '(m2, ok) := process_match p m1 i child in
      if ok then Some m2 else shrink p i child r m2
  end.
Definition chain_process_match (p : popts) (m : mtch) (i : nat) (child : bool) : mtch * bool :=
  let '(m1, ok) := process_match p m i child in
  if ok then (m1, true)
  else
    match rev (m_children m1) with
    | [] => (m1, false)
    | last :: _ =>
        let same := filter (fun c => option_eqb Nat.eqb (m_pattern c) (m_pattern last)) (m_children m1) in
        match shrink p i child (rev (map snd (group_by_index same))) m1 with
        | Some m2 => (m2, true)
        | None => (m1, false)       (* children and end restored *)
        end
    end.

(** [Chain.matches] (pattern.py:177-208 with [patterns = [self]], chain.py:208-210) *)
Definition chain_matches (fuel : nat) (p : popts) (breaker : option (list mtch -> bool)) (parts : list cpart) : matcher :=
  fun n input =>
    match chain_match fuel p breaker parts n input with
    | Err e => Err e
    | Ok (n', ms) =>
        match finish_matches p (chain_process_match p) [ms] with
        | Err e => Err e
        | Ok r => Ok (n', r)
        end
    end.

(** ** chain.py:363-396 [repeater] *)
Definition is_digit (c : char) : bool := (48 <=? c)%N && (c <=? 57)%N.
(** ASCII white space (Unicode white space and digits are not modelled) *)
Definition is_space (c : char) : bool := (9 <=? c)%N && (c <=? 13)%N || (28 <=? c)%N && (c <=? 32)%N.
Fixpoint skip_spaces (t : pstr) : pstr := match t with c :: r => if is_space c then skip_spaces r else t | [] => [] end.
Fixpoint take_digits (t : pstr) : pstr * pstr :=
  match t with
  | c :: r => if is_digit c then let '(d, r') := take_digits r in (c :: d, r') else ([], t)
  | [] => ([], [])
  end.
Definition dec (ds : pstr) : Z := fold_left (fun a c => 10 * a + (Z.of_N c - 48)) ds 0.
(** the digits of a number, with single underscores between digits *)
Definition begins_digit (t : pstr) : bool := match t with c :: _ => is_digit c | [] => false end.
Fixpoint take_number (t : pstr) : pstr * pstr :=
  match t with
  | c :: r => if is_digit c
              then let '(d, r') := take_number (match r with
                                                | u :: r2 => if N.eqb u 95 && begins_digit r2 then r2 else r
                                                | [] => r
                                                end) in (c :: d, r')
              else ([], t)
  | [] => ([], [])
  end.
(** CPython [int(str)]: optional sign, digits, surrounding spaces (the limit of 4300 digits of recent
    versions is not modelled) *)
Definition py_int (t : pstr) : option Z :=
  let t := skip_spaces t in
  let '(neg, t) := match t with
                   | 43%N :: r => (false, r)
                   | 45%N :: r => (true, r)
                   | _ => (false, t)
                   end in
  let '(d, r) := take_number t in
  match d, skip_spaces r with
  | _ :: _, [] => Some (if neg : bool then - dec d else dec d)
  | _, _ => None
  end.
(** the regular expression of chain.py:389: the groups start and end *)
Definition match_braces (t : pstr) : option (pstr * pstr) :=
  match t with
  | 123%N :: r =>
      let '(a, r) := take_digits (skip_spaces r) in
      let r := skip_spaces r in
      let r := match r with 44%N :: r' => r' | _ => r end in
      let '(b, r) := take_digits (skip_spaces r) in
      match skip_spaces r with
      | 125%N :: _ => Some (a, b)
      | _ => None
      end
  | _ => None
  end.
Inductive rvalue := RInt (z : Z) | RStr (t : pstr).
Definition str_is (t : pstr) (c : N) : bool := pstr_eqb t [c].
(** the new (repeater_start, repeater_end) from the previous ones *)
Definition repeater (v : rvalue) (old : Z * option Z) : Z * option Z :=
  match match v with RInt z => Some z | RStr t => py_int t end with
  | Some z => (z, Some z)
  | None =>
      match v with
      | RInt _ => old                                              (* unreachable *)
      | RStr t =>
          let old := if str_is t 43 then (1, None) else old in      (* "+" *)
          if str_is t 42 then (0, None)                            (* "*" *)
          else if str_is t 63 then (0, Some 1)                     (* "?" *)
          else match match_braces t with
               | Some ([], []) => old
               | Some (a, b) => (match a with [] => 0 | _ => dec a end, match b with [] => None | _ => Some (dec b) end)
               | None => old
               end
      end
  end.
Definition set_repeater (cp : cpart) (v : rvalue) : cpart :=
  let '(a, b) := repeater v (cp_start cp, cp_end cp) in CPart (cp_match cp) a b (cp_hidden cp).
(** chain.py:227-228: the repeater of a new part *)
Definition default_repeater : Z * option Z := (1, Some 1).
