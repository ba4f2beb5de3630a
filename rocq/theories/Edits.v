(** * Matches changed from outside between calls on a collection

    A match is a mutable object (match.py:1016-1050: [start], [end], [name], [tags], [marker],
    [private], [formatter], [parent]... are plain attributes; 1095-1103 the setter of [value]): user
    code may assign them while the match is in a collection.  A match being a value with an identity here,
    the change is made in every copy of the object, copies inside other matches (parents, children)
    included.  The collection is not told: the keys of its dictionaries and [_max_end] stay. *)
From Verif Require Import Base Match Spec Coll.
Set Implicit Arguments.
Open Scope Z_scope.

(** the copies of object [id] in [m], changed by [f] *)
Fixpoint update (id : nat) (f : mtch -> mtch) (m : mtch) {struct m} : mtch :=
  let m' := Mtch (m_id m) (m_start m) (m_end m) (m_lit m) (m_name m) (m_tags m) (m_marker m) (m_private m) (m_fmt m)
                 (m_solver m) (m_input m) (m_rawstart m) (m_rawend m) (m_index m) (m_pattern m)
                 (match m_parent m with Some p => Some (update id f p) | None => None end)
                 (map (update id f) (m_children m)) in
  if Nat.eqb (m_id m) id then f m' else m'.

Definition dict_update {K} (u : mtch -> mtch) (d : mdict K) : mdict K := map (fun kv => (fst kv, map u (snd kv))) d.
Definition edited (c : coll) (id : nat) (f : mtch -> mtch) : coll :=
  let u := update id f in
  Coll (c_kind c) (c_input c) (c_maxend c) (map u (c_del c))
       (option_map (dict_update u) (c_named c)) (option_map (dict_update u) (c_tagged c))
       (option_map (dict_update u) (c_starting c)) (option_map (dict_update u) (c_ending c))
       (option_map (dict_update u) (c_indexed c)).

(** Histories of calls and changes, and the outcomes of the calls *)
Inductive event := Call (o : op) | Change (id : nat) (f : mtch -> mtch).
Definition estep (c : coll) (e : event) : coll :=
  match e with Call o => fst (step c o) | Change id f => edited c id f end.
Definition erun (c : coll) (es : list event) : coll := fold_left estep es c.
Fixpoint eoutcomes (c : coll) (es : list event) : list out :=
  match es with
  | [] => []
  | e :: r => match e with Call o => [snd (step c o)] | Change _ _ => [] end ++ eoutcomes (estep c e) r
  end.
