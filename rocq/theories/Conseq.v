(** * rebulk/rules.py: the consequences (lines 111-253)

    [when_response] is a match or a list of matches ([list(when_response)]: a generator is
    read once).  Matches given to a consequence are objects: assigning one of their
    attributes is seen through every reference to it.  [upd] is that assignment, seen from a
    match [m] which is the object [id] or has it among its ancestors.  Simplifications:
    references held in [children] lists are not followed, and a [tags] list shared by several
    matches is modelled in TagHeap.v.  [execute_rule] ignores what a consequence returns. *)
From Verif Require Import Base Match Coll.
Set Implicit Arguments.
Unset Strict Implicit.
Open Scope Z_scope.

Inductive response := One (m : mtch) | Many (ms : list mtch).

(** ** Assignment to an attribute of the object [id] *)
Fixpoint upd (id : nat) (f : mtch -> mtch) (m : mtch) : mtch :=
  let m' := match m_parent m with
            | Some p => set_parent m (Some (upd id f p))
            | None => m
            end in
  if Nat.eqb (m_id m) id then f m' else m'.
Definition upd_dict {K} (u : mtch -> mtch) (d : option (mdict K)) : option (mdict K) :=
  match d with None => None | Some d => Some (map (fun kv => (fst kv, map u (snd kv))) d) end.
Definition assign (id : nat) (f : mtch -> mtch) (c : coll) : coll :=
  Coll (c_kind c) (c_input c) (c_maxend c) (map (upd id f) (c_del c))
       (upd_dict (upd id f) (c_named c)) (upd_dict (upd id f) (c_tagged c)) (upd_dict (upd id f) (c_starting c))
       (upd_dict (upd id f) (c_ending c)) (upd_dict (upd id f) (c_indexed c)).

(** ** RemoveMatch *)
(** rules.py:140-147: the given matches that were removed *)
Fixpoint remove_many (c : coll) (ms : list mtch) : coll * res (list mtch) :=
  match ms with
  | [] => (c, Ok [])
  | m :: r =>
      if contains c m then
        match remove c m with
        | (c1, Err e) => (c1, Err e)
        | (c1, Ok _) => match remove_many c1 r with
                        | (c2, Ok l) => (c2, Ok (m :: l))
                        | (c2, Err e) => (c2, Err e)
                        end
        end
      else remove_many c r
  end.
(** rules.py:148-151 *)
Definition remove_one (c : coll) (m : mtch) : coll * res (option mtch) :=
  if contains c m then
    match remove c m with
    | (c1, Err e) => (c1, Err e)
    | (c1, Ok _) => (c1, Ok (Some m))
    end
  else (c, Ok None).
(** rules.py:139-151; [None] when a single match was absent *)
Definition remove_then (c : coll) (r : response) : coll * res (option response) :=
  match r with
  | Many ms => match remove_many c ms with (c1, Ok l) => (c1, Ok (Some (Many l))) | (c1, Err e) => (c1, Err e) end
  | One m => match remove_one c m with (c1, Ok o) => (c1, Ok (option_map One o)) | (c1, Err e) => (c1, Err e) end
  end.

(** ** AppendMatch *)
(** [if self.match_name]: None and '' do not rename *)
Definition renames (name : option pstr) : option pstr := match name with Some [] => None | o => o end.
(** rules.py:163-172; [ids]: the objects renamed so far (the rest of the response sees it) *)
Fixpoint append_many (name : option pstr) (ids : list nat) (c : coll) (ms : list mtch) : coll * res (list mtch) :=
  match ms with
  | [] => (c, Ok [])
  | m0 :: r =>
      let m := fold_left (fun m id => upd id (fun x => set_name x name) m) ids m0 in
      if contains c m then append_many name ids c r
      else
        let '(c1, m1, ids1) :=
          match renames name with
          | Some n => (assign (m_id m) (fun x => set_name x (Some n)) c, upd (m_id m) (fun x => set_name x (Some n)) m, ids ++ [m_id m])
          | None => (c, m, ids)
          end in
        match append c1 m1 with
        | (c2, Err e) => (c2, Err e)
        | (c2, Ok _) => match append_many name ids1 c2 r with
                        | (c3, Ok l) => (c3, Ok (m1 :: l))
                        | (c3, Err e) => (c3, Err e)
                        end
        end
  end.
(** rules.py:173-178 *)
Definition append_one (name : option pstr) (c : coll) (m : mtch) : coll * res (option mtch) :=
  let '(c1, m1) :=
    match renames name with
    | Some n => (assign (m_id m) (fun x => set_name x (Some n)) c, upd (m_id m) (fun x => set_name x (Some n)) m)
    | None => (c, m)
    end in
  if contains c1 m1 then (c1, Ok None)
  else match append c1 m1 with
       | (c2, Err e) => (c2, Err e)
       | (c2, Ok _) => (c2, Ok (Some m1))
       end.
Definition drop_ret {A} (r : coll * res A) : coll * res unit := (fst r, match snd r with Ok _ => Ok tt | Err e => Err e end).
(** rules.py:162-178 *)
Definition append_then (name : option pstr) (c : coll) (r : response) : coll * res unit :=
  match r with
  | Many ms => drop_ret (append_many name [] c ms)
  | One m => drop_ret (append_one name c m)
  end.

(** ** RenameMatch, AppendTags, RemoveTags: remove, modify, append again *)
(** rules.py:193-198, 215-220, 237-246: the attribute of each removed match is assigned *)
Definition assign_each (f : mtch -> mtch) (c : coll) (ms : list mtch) : coll * list mtch :=
  fold_left (fun st id => (assign id f (fst st), map (upd id f) (snd st))) (map m_id ms) (c, ms).
(** rules.py:191-200, 213-222, 235-248.  [elif removed] / [if removed]: the truth value of a
    match is its length (ValueError when negative). *)
Definition modify_then (f : mtch -> mtch) (c : coll) (r : response) : coll * res unit :=
  match remove_then c r with
  | (c1, Err e) => (c1, Err e)
  | (c1, Ok None) => (c1, Ok tt)
  | (c1, Ok (Some (Many []))) => (c1, Ok tt)
  | (c1, Ok (Some (Many l))) =>
      let '(c2, l2) := assign_each f c1 l in append_then None c2 (Many l2)
  | (c1, Ok (Some (One m))) =>
      match mbool m with
      | Err e => (c1, Err e)
      | Ok false => (c1, Ok tt)
      | Ok true => append_then None (assign (m_id m) f c1) (One (upd (m_id m) f m))
      end
  end.
(** rules.py:186-200 RenameMatch *)
Definition rename_then (n : option pstr) (c : coll) (r : response) : coll * res unit :=
  modify_then (fun m => set_name m n) c r.
(** rules.py:217-220 [match.tags.extend(self.tags)] *)
Definition add_tags (ts : list pstr) (m : mtch) : mtch := set_tags m (m_tags m ++ ts).
Definition append_tags_then (ts : list pstr) (c : coll) (r : response) : coll * res unit := modify_then (add_tags ts) c r.
(** rules.py:240-242 [for tag in self.tags: if tag in match.tags: match.tags.remove(tag)] *)
Definition del_tag (tags : list pstr) (t : pstr) : list pstr :=
  match remove_first (pstr_eqb t) tags with Some l => l | None => tags end.
Definition del_tags (ts : list pstr) (m : mtch) : mtch := set_tags m (fold_left del_tag ts (m_tags m)).
Definition remove_tags_then (ts : list pstr) (c : coll) (r : response) : coll * res unit := modify_then (del_tags ts) c r.
