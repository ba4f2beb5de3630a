(** * rebulk/match.py, classes [_BaseMatches], [Matches], [Markers] (lines 97-1008)

    The collection is a state: the underlying list plus five lazily built lookup
    dictionaries ([None] until first use) and the cached maximum end.  A call that
    mutates before raising returns the mutated state together with the error.
    Matches are values, so a match held by the collection is never modified behind
    its back (the rules of rules.py remove a match before modifying it). *)
From Verif Require Import Base Match.
Set Implicit Arguments.
Open Scope Z_scope.

(** [_BaseMatches] itself (no assertion), [Matches], [Markers]. *)
Inductive kind := KBase | KMatches | KMarkers.

Definition mdict (K : Type) := dict K (list mtch).

(** match.py:107-118 attributes ([declared_keys] is modelled with its users in Typed.v;
    [Matches.markers] is a separate collection, see Rebulk.v). *)
Record coll := Coll {
  c_kind : kind;
  c_input : option pstr;
  c_maxend : Z;                          (* _max_end *)
  c_del : list mtch;                     (* _delegate *)
  c_named : option (mdict pstr);         (* __name_dict *)
  c_tagged : option (mdict pstr);        (* __tag_dict *)
  c_starting : option (mdict Z);         (* __start_dict *)
  c_ending : option (mdict Z);           (* __end_dict *)
  c_indexed : option (mdict Z)           (* __index_dict *)
}.

(** match.py:107-118 [__init__] without initial matches. *)
Definition empty_coll (k : kind) (input : option pstr) : coll :=
  Coll k input 0 [] None None None None None.

Definition with_del (c : coll) d := Coll (c_kind c) (c_input c) (c_maxend c) d (c_named c) (c_tagged c) (c_starting c) (c_ending c) (c_indexed c).
Definition with_maxend (c : coll) v := Coll (c_kind c) (c_input c) v (c_del c) (c_named c) (c_tagged c) (c_starting c) (c_ending c) (c_indexed c).
Definition with_named (c : coll) d := Coll (c_kind c) (c_input c) (c_maxend c) (c_del c) d (c_tagged c) (c_starting c) (c_ending c) (c_indexed c).
Definition with_tagged (c : coll) d := Coll (c_kind c) (c_input c) (c_maxend c) (c_del c) (c_named c) d (c_starting c) (c_ending c) (c_indexed c).
Definition with_starting (c : coll) d := Coll (c_kind c) (c_input c) (c_maxend c) (c_del c) (c_named c) (c_tagged c) d (c_ending c) (c_indexed c).
Definition with_ending (c : coll) d := Coll (c_kind c) (c_input c) (c_maxend c) (c_del c) (c_named c) (c_tagged c) (c_starting c) d (c_indexed c).
Definition with_indexed (c : coll) d := Coll (c_kind c) (c_input c) (c_maxend c) (c_del c) (c_named c) (c_tagged c) (c_starting c) (c_ending c) d.

(** ** The keys under which a match is filed in each dictionary *)
Definition name_keys (m : mtch) : list pstr :=
  match m_name m with Some (ch :: r) => [ch :: r] | _ => [] end.   (* [if match.name] *)
Definition tag_keys (m : mtch) : list pstr := m_tags m.
Definition start_keys (m : mtch) : list Z := [m_start m].
Definition end_keys (m : mtch) : list Z := [m_end m].
Definition index_keys (m : mtch) : list Z := zrange (m_start m) (m_end m).  (* range over match.span *)

(** ** Lazy construction *)

(** match.py:120-127 [_name_dict] *)
Definition build_named (l : list mtch) : mdict pstr :=
  fold_left (fun d g => match fst g with
                        | Some n => dextend d n (snd g)
                        | None => d                     (* unreachable: filtered out *)
                        end)
            (groupby m_name (filter (fun m => negb (match name_keys m with [] => true | _ => false end)) l)) [].
(** match.py:129-136 [_start_dict] *)
Definition build_starting (l : list mtch) : mdict Z :=
  fold_left (fun d g => dextend d (fst g) (snd g)) (groupby m_start l) [].
(** match.py:138-145 [_end_dict] *)
Definition build_ending (l : list mtch) : mdict Z :=
  fold_left (fun d g => dextend d (fst g) (snd g)) (groupby m_end l) [].
(** match.py:147-155 [_tag_dict] *)
Definition build_tagged (l : list mtch) : mdict pstr :=
  fold_left (fun d m => fold_left (fun d t => dpush d t m) (tag_keys m) d) l [].
(** match.py:157-165 [_index_dict] *)
Definition build_indexed (l : list mtch) : mdict Z :=
  fold_left (fun d m => fold_left (fun d i => dpush d i m) (index_keys m) d) l [].

Definition named_dict (c : coll) : mdict pstr :=
  match c_named c with Some d => d | None => build_named (c_del c) end.
Definition tagged_dict (c : coll) : mdict pstr :=
  match c_tagged c with Some d => d | None => build_tagged (c_del c) end.
Definition starting_dict (c : coll) : mdict Z :=
  match c_starting c with Some d => d | None => build_starting (c_del c) end.
Definition ending_dict (c : coll) : mdict Z :=
  match c_ending c with Some d => d | None => build_ending (c_del c) end.
Definition indexed_dict (c : coll) : mdict Z :=
  match c_indexed c with Some d => d | None => build_indexed (c_del c) end.

(** ** Incremental maintenance *)

(** [for k in keys: d[k].append(m)] when the dictionary exists *)
Definition push_all {K} `{Eqb K} (keys : list K) (m : mtch) (d : option (mdict K)) : option (mdict K) :=
  match d with
  | None => None
  | Some d => Some (fold_left (fun d k => dpush d k m) keys d)
  end.

(** [for k in keys: d[k].remove(m)]: ValueError at the first key where no equal
    match is filed (the removals done so far stay done). *)
Fixpoint remove_keys {K} `{Eqb K} (keys : list K) (m : mtch) (d : mdict K) : mdict K * res unit :=
  match keys with
  | [] => (d, Ok tt)
  | k :: r =>
      match remove_first (meq m) (dget d k) with
      | Some l => remove_keys r m (dset d k l)
      | None => (dtouch d k, Err ValueError)
      end
  end.
Definition remove_all {K} `{Eqb K} (keys : list K) (m : mtch) (d : option (mdict K))
  : option (mdict K) * res unit :=
  match d with
  | None => (None, Ok tt)
  | Some d => let '(d', r) := remove_keys keys m d in (Some d', r)
  end.

(** match.py:993-995 and 1006-1008: the assertions of the two subclasses *)
Definition accepts (k : kind) (m : mtch) : bool :=
  match k with
  | KBase => true
  | KMatches => negb (m_marker m)
  | KMarkers => m_marker m
  end.

(** match.py:167-185 [_add_match] *)
Definition add_match (c : coll) (m : mtch) : coll * res unit :=
  if accepts (c_kind c) m then
    (Coll (c_kind c) (c_input c) (Z.max (c_maxend c) (m_end m)) (c_del c)
          (push_all (name_keys m) m (c_named c))
          (push_all (tag_keys m) m (c_tagged c))
          (push_all (start_keys m) m (c_starting c))
          (push_all (end_keys m) m (c_ending c))
          (push_all (index_keys m) m (c_indexed c)), Ok tt)
  else (c, Err AssertionError).

(** maximum of a non-empty list of keys; [max] of an empty one cannot occur (line 205
    creates the key before line 206 reads the keys). *)
Definition zmax_list (l : list Z) : Z := match l with [] => 0 | x :: r => fold_left Z.max r x end.

(** match.py:205-206, the update of [_max_end] when a match leaves: reading
    [self._end_dict[match.end]] builds the dictionary and creates the key. *)
Definition shrink_maxend (c : coll) (m : mtch) : coll :=
  if m_end m >=? c_maxend c then
    let d := dtouch (ending_dict c) (m_end m) in
    let c' := with_ending c (Some d) in
    match dget d (m_end m) with
    | [] => with_maxend c' (zmax_list (dkeys d))
    | _ => c'
    end
  else c.

(** match.py:187-206 [_remove_match] *)
Definition remove_match (c : coll) (m : mtch) : coll * res unit :=
  let '(n, r1) := remove_all (name_keys m) m (c_named c) in
  let c := with_named c n in
  match r1 with Err e => (c, Err e) | Ok _ =>
  let '(t, r2) := remove_all (tag_keys m) m (c_tagged c) in
  let c := with_tagged c t in
  match r2 with Err e => (c, Err e) | Ok _ =>
  let '(st, r3) := remove_all (start_keys m) m (c_starting c) in
  let c := with_starting c st in
  match r3 with Err e => (c, Err e) | Ok _ =>
  let '(en, r4) := remove_all (end_keys m) m (c_ending c) in
  let c := with_ending c en in
  match r4 with Err e => (c, Err e) | Ok _ =>
  let '(ix, r5) := remove_all (index_keys m) m (c_indexed c) in
  let c := with_indexed c ix in
  match r5 with Err e => (c, Err e) | Ok _ =>
    (shrink_maxend c m, Ok tt)
  end end end end end.

(** ** The sequence protocol *)

(** match.py:979-981 [insert] *)
Definition insert (c : coll) (i : Z) (m : mtch) : coll * res unit :=
  add_match (with_del c (insert_nth (Z.to_nat (py_clip (zlen (c_del c)) i)) m (c_del c))) m.

(** [MutableSequence.append]: [self.insert(len(self), value)] *)
Definition append (c : coll) (m : mtch) : coll * res unit := insert c (zlen (c_del c)) m.

(** [MutableSequence.extend]: append one by one, stopping at the first exception *)
Fixpoint extend (c : coll) (ms : list mtch) : coll * res unit :=
  match ms with
  | [] => (c, Ok tt)
  | m :: r => match append c m with
              | (c', Ok _) => extend c' r
              | (c', Err e) => (c', Err e)
              end
  end.

(** match.py:966-974 [__delitem__] with an integer *)
Definition delitem (c : coll) (i : Z) : coll * res unit :=
  match py_pos (c_del c) i with
  | None => (c, Err IndexError)
  | Some n =>
      match nth_error (c_del c) n with
      | None => (c, Err IndexError)
      | Some m => remove_match (with_del c (remove_nth n (c_del c))) m
      end
  end.

(** [_remove_match] for each of a list (match.py:971-972) *)
Fixpoint remove_matches (c : coll) (ms : list mtch) : coll * res unit :=
  match ms with
  | [] => (c, Ok tt)
  | m :: r => match remove_match c m with
              | (c', Ok _) => remove_matches c' r
              | (c', Err e) => (c', Err e)
              end
  end.

(** match.py:966-974 [__delitem__] with a slice (step 1) *)
Definition delslice (c : coll) (i j : option Z) : coll * res unit :=
  remove_matches (with_del c (py_unslice (c_del c) i j)) (py_slice (c_del c) i j).

(** [MutableSequence.pop] *)
Definition pop (c : coll) (i : Z) : coll * res mtch :=
  match py_nth (c_del c) i with
  | None => (c, Err IndexError)
  | Some m => match delitem c i with
              | (c', Ok _) => (c', Ok m)
              | (c', Err e) => (c', Err e)
              end
  end.

(** [Sequence.index]: first position holding an equal match *)
Definition seq_index (c : coll) (m : mtch) : res Z :=
  match index_of (meq m) (c_del c) with
  | Some n => Ok (Z.of_nat n)
  | None => Err ValueError
  end.

(** [Sequence.__contains__], [Sequence.count] *)
Definition contains (c : coll) (m : mtch) : bool := mem meq m (c_del c).
Definition seq_count (c : coll) (m : mtch) : nat := countb (meq m) (c_del c).

(** [MutableSequence.remove]: [del self[self.index(value)]] *)
Definition remove (c : coll) (m : mtch) : coll * res unit :=
  match seq_index c m with
  | Ok i => delitem c i
  | Err e => (c, Err e)
  end.

(** [MutableSequence.clear]: [pop()] until IndexError; [n] bounds the number of pops. *)
Fixpoint clear_loop (n : nat) (c : coll) : coll * res unit :=
  match n with
  | O => (c, Ok tt)
  | S n' => match pop c (-1) with
            | (c', Ok _) => clear_loop n' c'
            | (c', Err IndexError) => (c', Ok tt)
            | (c', Err e) => (c', Err e)
            end
  end.
Definition clear (c : coll) : coll * res unit := clear_loop (S (length (c_del c))) c.

(** match.py:958-964 [__setitem__] with an integer: the replaced match stays filed *)
Definition setitem (c : coll) (i : Z) (m : mtch) : coll * res unit :=
  match py_pos (c_del c) i with
  | None => (c, Err IndexError)
  | Some n => add_match (with_del c (replace_nth n m (c_del c))) m
  end.

(** [_add_match] for each of a list (match.py:961-962) *)
Fixpoint add_matches (c : coll) (ms : list mtch) : coll * res unit :=
  match ms with
  | [] => (c, Ok tt)
  | m :: r => match add_match c m with
              | (c', Ok _) => add_matches c' r
              | (c', Err e) => (c', Err e)
              end
  end.
(** match.py:958-964 [__setitem__] with a slice (step 1) *)
Definition setslice (c : coll) (i j : option Z) (ms : list mtch) : coll * res unit :=
  let l := c_del c in
  let a := match i with None => 0 | Some i => py_clip (zlen l) i end in
  let b := match j with None => zlen l | Some j => py_clip (zlen l) j end in
  add_matches (with_del c (firstn (Z.to_nat a) l ++ ms ++ skipn (Z.to_nat (Z.max a b)) l)) ms.

(** [MutableSequence.reverse]: pairwise swaps through [__setitem__] *)
Fixpoint reverse_loop (n : Z) (is : list Z) (c : coll) : coll * res unit :=
  match is with
  | [] => (c, Ok tt)
  | i :: r =>
      match py_nth (c_del c) (n - i - 1), py_nth (c_del c) i with
      | Some a, Some b =>
          match setitem c i a with
          | (c1, Err e) => (c1, Err e)
          | (c1, Ok _) => match setitem c1 (n - i - 1) b with
                          | (c2, Err e) => (c2, Err e)
                          | (c2, Ok _) => reverse_loop n r c2
                          end
          end
      | _, _ => (c, Err IndexError)
      end
  end.
Definition reverse (c : coll) : coll * res unit :=
  reverse_loop (zlen (c_del c)) (zrange 0 (zlen (c_del c) / 2)) c.

(** match.py:836-839 [__getitem__] with a slice: always a [Matches] without input string *)
Definition getslice (c : coll) (i j : option Z) : coll * res unit :=
  extend (empty_coll KMatches None) (py_slice (c_del c) i j).

(** ** Lookups (without predicate/index, see [filter_index] in Loose.v)

    Each returns the state it leaves: dictionaries built, missing keys created. *)

(** match.py:278-312 [named]: distinct names in order *)
Fixpoint dedup {A} (eq : A -> A -> bool) (l : list A) : list A :=     (* dict.fromkeys *)
  match l with
  | [] => []
  | x :: r => x :: filter (fun y => negb (eq x y)) (dedup eq r)
  end.
Definition q_named1 (c : coll) (n : pstr) : coll * list mtch :=
  let d := dtouch (named_dict c) n in (with_named c (Some d), dget d n).
Fixpoint q_named_loop (c : coll) (ns : list pstr) : coll * list mtch :=
  match ns with
  | [] => (c, [])
  | n :: r => let '(c1, l) := q_named1 c n in
              let '(c2, l') := q_named_loop c1 r in (c2, l ++ l')
  end.
Definition q_named (c : coll) (ns : list pstr) : coll * list mtch :=
  q_named_loop c (dedup pstr_eqb ns).

(** match.py:322-334 [tagged] *)
Definition q_tagged (c : coll) (t : pstr) : coll * list mtch :=
  let d := dtouch (tagged_dict c) t in (with_tagged c (Some d), dget d t).
(** match.py:344-358 [starting] *)
Definition q_starting (c : coll) (i : Z) : coll * list mtch :=
  let d := dtouch (starting_dict c) i in (with_starting c (Some d), dget d i).
(** match.py:368-378 [ending] *)
Definition q_ending (c : coll) (i : Z) : coll * list mtch :=
  let d := dtouch (ending_dict c) i in (with_ending c (Some d), dget d i).
(** match.py:753-759 [at_index] *)
Definition q_at_index (c : coll) (i : Z) : coll * list mtch :=
  let d := dtouch (indexed_dict c) i in (with_indexed c (Some d), dget d i).

(** match.py:216-236 [previous]: scan down from [match.start] to 0 *)
Fixpoint previous_loop (fuel : nat) (c : coll) (cur : Z) : coll * list mtch :=
  match fuel with
  | O => (c, [])
  | S f => let '(c1, l) := q_ending c cur in
           match l with [] => previous_loop f c1 (cur - 1) | _ => (c1, l) end
  end.
Definition q_previous (c : coll) (m : mtch) : coll * list mtch :=
  previous_loop (Z.to_nat (m_start m + 1)) c (m_start m).

(** match.py:246-266 [next]: scan up from [match.start + 1] to [_max_end] *)
Fixpoint next_loop (fuel : nat) (c : coll) (cur : Z) : coll * list mtch :=
  match fuel with
  | O => (c, [])
  | S f => let '(c1, l) := q_starting c cur in
           match l with [] => next_loop f c1 (cur + 1) | _ => (c1, l) end
  end.
Definition q_next (c : coll) (m : mtch) : coll * list mtch :=
  next_loop (Z.to_nat (c_maxend c - m_start m)) c (m_start m + 1).

(** match.py:538-544 [max_end] *)
Definition max_end (c : coll) : Z :=
  match c_input c with
  | None | Some [] => c_maxend c
  | Some str => Z.max (zlen str) (c_maxend c)
  end.

(** match.py:399-424 [range] *)
Definition range_end (c : coll) (en : option Z) : Z :=
  match en with None => max_end c | Some e => Z.min (max_end c) e end.
Definition q_range (c : coll) (st : Z) (en : option Z) : list mtch :=
  let e := range_end c en in
  filter (fun m => (m_start m <? e) && (m_end m >? st)) (sort_by mlt (c_del c)).

(** [input_string[i] not in seps]: TypeError without string, IndexError out of range *)
Definition sep_at (input : option pstr) (seps : pstr) (i : Z) : res bool :=
  match input with
  | None => Err TypeError
  | Some str => match py_nth str i with
                | None => Err IndexError
                | Some ch => Ok (char_in ch seps)
                end
  end.

(** match.py:473-476 / 529-532: append the matches not yet in the chain *)
Definition chain_add (chain ms : list mtch) : list mtch :=
  fold_left (fun ch m => if mem meq m ch then ch else ch ++ [m]) ms chain.

(** The loop shared by match.py:470-478 and 526-534, over the positions [is]. *)
Fixpoint chain_loop (pred : mtch -> bool) (seps : pstr) (is : list Z) (c : coll) (chain : list mtch)
  : coll * res (list mtch) :=
  match is with
  | [] => (c, Ok chain)
  | i :: r =>
      let '(c1, l) := q_at_index c i in
      match filter pred l with
      | [] => match sep_at (c_input c) seps i with
              | Err e => (c1, Err e)
              | Ok true => chain_loop pred seps r c1 chain
              | Ok false => (c1, Ok chain)
              end
      | fl => chain_loop pred seps r c1 (chain_add chain fl)
      end
  end.
(** match.py:440-480 [chain_before]; [pos] is the position or the start of the match given.
    Without predicate [pred] is constantly true. *)
Definition q_chain_before (c : coll) (pos : Z) (seps : pstr) (st : Z) (pred : mtch -> bool)
  : coll * res (list mtch) :=
  chain_loop pred seps (rev (zrange st (Z.min (max_end c) pos))) c [].
(** match.py:496-536 [chain_after]; [pos] is the position or the end of the match given. *)
Definition q_chain_after (c : coll) (pos : Z) (seps : pstr) (en : option Z) (pred : mtch -> bool)
  : coll * res (list mtch) :=
  chain_loop pred seps (zrange pos (range_end c en)) c [].

(** match.py:546-560 [_hole_start]; [keep m] is [not ignore or not ignore(m)] *)
Fixpoint hole_start_loop (keep : mtch -> bool) (is : list Z) (c : coll) : coll * Z :=
  match is with
  | [] => (c, 0)
  | i :: r => let '(c1, l) := q_starting c i in
              if existsb keep l then (c1, i) else hole_start_loop keep r c1
  end.
Definition hole_start (c : coll) (pos : Z) (keep : mtch -> bool) : coll * Z :=
  hole_start_loop keep (rev (zrange 0 pos)) c.

(** match.py:562-576 [_hole_end] *)
Fixpoint hole_end_loop (keep : mtch -> bool) (is : list Z) (c : coll) : coll * Z :=
  match is with
  | [] => (c, max_end c)
  | i :: r => let '(c1, l) := q_starting c i in
              if existsb keep l then (c1, i) else hole_end_loop keep r c1
  end.
Definition hole_end (c : coll) (pos : Z) (keep : mtch -> bool) : coll * Z :=
  hole_end_loop keep (zrange pos (max_end c)) c.

(** match.py:637-656: the scan of [holes].  [ret] holds the closed holes (reversed) and
    [hole] the start of the open one; [last] is the last value of [rindex]. *)
Fixpoint holes_loop (keep : mtch -> bool) (seps : option pstr) (st : Z) (is : list Z)
         (c : coll) (ret : list (Z * Z)) (hole : option Z) (last : Z)
  : coll * res (list (Z * Z) * option Z * Z) :=
  match is with
  | [] => (c, Ok (ret, hole, last))
  | i :: r =>
      let '(c1, l) := q_at_index c i in
      let current := filter keep l in
      (* [seps and hole and self.input_string and self.input_string[rindex] in seps] *)
      let at_sep :=
        match seps, hole, c_input c with
        | Some (s0 :: sr), Some _, Some (i0 :: ir) => sep_at (Some (i0 :: ir)) (s0 :: sr) i
        | _, _, _ => Ok false
        end in
      match at_sep, hole with
      | Err e, _ => (c1, Err e)
      | Ok true, Some h => holes_loop keep seps st r c1 ((h, i) :: ret) None i
      | Ok _, None => match current with
                      | [] => holes_loop keep seps st r c1 ret (Some (Z.max i st)) i
                      | _ => holes_loop keep seps st r c1 ret None i
                      end
      | Ok _, Some h => match current with
                        | [] => holes_loop keep seps st r c1 ret (Some h) i
                        | _ => holes_loop keep seps st r c1 ((h, i) :: ret) None i
                        end
      end
  end.
(** match.py:600-661 [holes]: the spans of the hole matches.  The result is a list of spans;
    each is turned into a match with the collection's input string and the given formatter.
    AssertionError: separators given without input string (line 629). *)
Definition q_holes (c : coll) (st : Z) (en : option Z) (keep : mtch -> bool) (seps : option pstr)
  : coll * res (list (Z * Z)) :=
  let bad := match seps, c_input c with
             | Some (_ :: _), Some (_ :: _) => false
             | Some (_ :: _), _ => true
             | _, _ => false
             end in
  if bad then (c, Err AssertionError) else
  let e := range_end c en in
  let '(c1, ls) := hole_start c st keep in
  match holes_loop keep seps st (zrange ls e) c1 [] None st with
  | (c2, Err x) => (c2, Err x)
  | (c2, Ok (ret, None, _)) => (c2, Ok (rev ret))
  | (c2, Ok (ret, Some h, last)) =>
      let '(c3, he) := hole_end c2 last keep in
      (c3, Ok (rev ((h, Z.min he e) :: ret)))
  end.

(** match.py:673-696 [conflicting]: ValueError when [match] is not among the matches found *)
Fixpoint conflicting_loop (is : list Z) (c : coll) (ret : list mtch) : coll * list mtch :=
  match is with
  | [] => (c, ret)
  | i :: r => let '(c1, l) := q_at_index c i in conflicting_loop r c1 (chain_add ret l)
  end.
Definition q_conflicting (c : coll) (m : mtch) : coll * res (list mtch) :=
  let '(c1, ret) := conflicting_loop (zrange (m_start m) (m_end m)) c [] in
  match remove_first (meq m) ret with
  | Some l => (c1, Ok l)
  | None => (c1, Err ValueError)
  end.

(** match.py:726-743 [at_span] and 706-714 [at_match] *)
Definition q_at_span (c : coll) (sp : Z * Z) : coll * list mtch :=
  let '(c1, l1) := q_at_index c (fst sp) in
  let '(c2, l2) := q_at_index c1 (snd sp - 1) in
  (c2, chain_add l1 l2).
Definition q_at_match (c : coll) (m : mtch) : coll * list mtch := q_at_span c (m_span m).

(** match.py:761-775 [names]/[tags]: the keys of the dictionaries *)
Definition q_names (c : coll) : coll * list pstr :=
  (with_named c (Some (named_dict c)), dkeys (named_dict c)).
Definition q_tags (c : coll) : coll * list pstr :=
  (with_tagged c (Some (tagged_dict c)), dkeys (tagged_dict c)).

(** ** Histories *)
Inductive op :=
(* mutators *)
| OAppend (m : mtch) | OInsert (i : Z) (m : mtch) | OExtend (ms : list mtch)
| ORemove (m : mtch) | ODelitem (i : Z) | ODelslice (i j : option Z) | OPop (i : Z) | OClear
| OSetitem (i : Z) (m : mtch) | OSetslice (i j : option Z) (ms : list mtch) | OReverse
(* lookups *)
| ONamed (ns : list pstr) | OTagged (t : pstr) | OStarting (i : Z) | OEnding (i : Z) | OAtIndex (i : Z)
| OPrevious (m : mtch) | ONext (m : mtch) | ORange (i : Z) (j : option Z)
| OHoles (i : Z) (j : option Z) (keep : mtch -> bool) (seps : option pstr)
| OConflicting (m : mtch) | OAtSpan (sp : Z * Z)
| OChainBefore (p : Z) (seps : pstr) (st : Z) (pred : mtch -> bool)
| OChainAfter (p : Z) (seps : pstr) (en : option Z) (pred : mtch -> bool)
| ONames | OTags.

(** What a call returns to the caller. *)
Inductive out :=
| RUnit | RMatch (m : mtch) | RList (l : list mtch) | RSpans (l : list (Z * Z)) | RKeys (l : list pstr)
| RErr (e : exn).

Definition unit_out (r : coll * res unit) : coll * out :=
  (fst r, match snd r with Ok _ => RUnit | Err e => RErr e end).
Definition list_out (r : coll * res (list mtch)) : coll * out :=
  (fst r, match snd r with Ok l => RList l | Err e => RErr e end).

Definition step (c : coll) (o : op) : coll * out :=
  match o with
  | OAppend m => unit_out (append c m)
  | OInsert i m => unit_out (insert c i m)
  | OExtend ms => unit_out (extend c ms)
  | ORemove m => unit_out (remove c m)
  | ODelitem i => unit_out (delitem c i)
  | ODelslice i j => unit_out (delslice c i j)
  | OPop i => let '(c', r) := pop c i in (c', match r with Ok m => RMatch m | Err e => RErr e end)
  | OClear => unit_out (clear c)
  | OSetitem i m => unit_out (setitem c i m)
  | OSetslice i j ms => unit_out (setslice c i j ms)
  | OReverse => unit_out (reverse c)
  | ONamed ns => let '(c', l) := q_named c ns in (c', RList l)
  | OTagged t => let '(c', l) := q_tagged c t in (c', RList l)
  | OStarting i => let '(c', l) := q_starting c i in (c', RList l)
  | OEnding i => let '(c', l) := q_ending c i in (c', RList l)
  | OAtIndex i => let '(c', l) := q_at_index c i in (c', RList l)
  | OPrevious m => let '(c', l) := q_previous c m in (c', RList l)
  | ONext m => let '(c', l) := q_next c m in (c', RList l)
  | ORange i j => (c, RList (q_range c i j))
  | OHoles i j keep seps =>
      let '(c', r) := q_holes c i j keep seps in
      (c', match r with Ok l => RSpans l | Err e => RErr e end)
  | OConflicting m => list_out (q_conflicting c m)
  | OAtSpan sp => let '(c', l) := q_at_span c sp in (c', RList l)
  | OChainBefore p seps st pred => list_out (q_chain_before c p seps st pred)
  | OChainAfter p seps en pred => list_out (q_chain_after c p seps en pred)
  | ONames => let '(c', l) := q_names c in (c', RKeys l)
  | OTags => let '(c', l) := q_tags c in (c', RKeys l)
  end.

(** The state after a history (an exception is caught by the caller, who goes on). *)
Definition run (c : coll) (ops : list op) : coll := fold_left (fun c o => fst (step c o)) ops c.
