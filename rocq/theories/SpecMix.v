(** * Histories in which calls on a collection and consequences of rules alternate

    A consequence changes the objects it is given.  Here is what such a history should do to a plain
    list of objects ([settle]), and which histories are considered ([proper]). *)
From Verif Require Import Base Match Spec Coll SpecColl Conseq ConseqFacts PropsLoose.
Set Implicit Arguments.
Open Scope Z_scope.

Inductive action :=
| Removing                           (* RemoveMatch *)
| Appending (name : option pstr)     (* AppendMatch(name) *)
| Renaming (name : option pstr)      (* RenameMatch(name) *)
| Tagging (tags : list pstr)         (* AppendTags(tags) *)
| Untagging (tags : list pstr).      (* RemoveTags(tags) *)
Inductive event := Call (o : op) | Then (a : action) (given : response).

Definition responded (r : response) : list mtch := match r with One m => [m] | Many ms => ms end.

(** An attribute of the objects [ids] is changed by [f]: what is then seen of the match [m], which may
    be one of them or have one of them among its ancestors. *)
Fixpoint seen1 (id : nat) (f : mtch -> mtch) (m : mtch) : mtch :=
  let m' := match m_parent m with Some p => set_parent m (Some (seen1 id f p)) | None => m end in
  if Nat.eqb (m_id m) id then f m' else m'.
Definition seen (f : mtch -> mtch) (ids : list nat) (m : mtch) : mtch := fold_left (fun m id => seen1 id f m) ids m.

(** each of [ms] goes to the end of the list unless an equal match is there *)
Definition joined (l ms : list mtch) : list mtch := l ++ new_elements meq l ms.
(** ... and gets the name [n] when it does; [ids]: the objects that got it so far *)
Fixpoint joined_as (n : pstr) (ids : list nat) (l ms : list mtch) : list mtch :=
  match ms with
  | [] => l
  | m0 :: r => let named := fun x => set_name x (Some n) in
               let m := seen named ids m0 in
               if existsb (meq m) l then joined_as n ids l r
               else let g := seen1 (m_id m) named in joined_as n (ids ++ [m_id m]) (map g l ++ [g m]) r
  end.

(** the attribute changed by RenameMatch, AppendTags, RemoveTags *)
Definition new_name (n : option pstr) (m : mtch) : mtch := set_name m n.
Definition more_tags (ts : list pstr) (m : mtch) : mtch := set_tags m (m_tags m ++ ts).
Definition fewer_tags (ts : list pstr) (m : mtch) : mtch :=
  set_tags m (fold_left (fun tags t => match remove_first (pstr_eqb t) tags with Some l => l | None => tags end) ts (m_tags m)).

(** the given ones that have an equal member are taken out, changed, and joined again; an empty match
    given alone is only taken out *)
Definition changed (f : mtch -> mtch) (l : list mtch) (r : response) : list mtch :=
  let ms := taken l (responded r) in
  let l1 := take_out_all l (responded r) in
  let ids := map m_id ms in
  match r with
  | One m => if m_start m =? m_end m then l1 else joined (map (seen f ids) l1) (map (seen f ids) ms)
  | Many _ => joined (map (seen f ids) l1) (map (seen f ids) ms)
  end.

Definition settle (l : list mtch) (e : event) : list mtch :=
  match e with
  | Call o => fst (list_step l o)
  | Then Removing r => take_out_all l (responded r)
  | Then (Appending name) r =>
      match name, r with
      | Some (ch :: n), One m => let g := seen1 (m_id m) (fun x => set_name x (Some (ch :: n))) in joined (map g l) [g m]
      | Some (ch :: n), Many ms => joined_as (ch :: n) [] l ms
      | _, _ => joined l (responded r)
      end
  | Then (Renaming n) r => changed (new_name n) l r
  | Then (Tagging ts) r => changed (more_tags ts) l r
  | Then (Untagging ts) r => changed (fewer_tags ts) l r
  end.
Definition settled (l : list mtch) (es : list event) : list mtch := fold_left settle es l.

(** equal members are the same object *)
Definition told_apart (l : list mtch) : Prop := forall a b, In a l -> In b l -> meq a b = true -> a = b.
(** matches with one identity are one object, described in its present state *)
Definition one_state (l : list mtch) : Prop := forall a b, In a l -> In b l -> m_id a = m_id b -> a = b.

(** The events considered, [l] being the contents: every match handed over is accepted; nothing is assigned
    by [l[i] = m] or reversed; whenever something is taken out, equal members are the same object; when
    objects are changed, no member is listed twice; AppendMatch(name) is not given one match that is a member. *)
Definition proper (k : kind) (l : list mtch) (e : event) : Prop :=
  match e with
  | Call o =>
      Forall (fun m => accepts k m = true) (handed o) /\ is_assignment o = false
      /\ match o with
         | ORemove _ | ODelitem _ | OPop _ | OClear => told_apart l
         | ODelslice i j => told_apart l /\ furthest_last l (py_slice l i j)
         | _ => True
         end
  | Then Removing r => told_apart l
  | Then (Appending name) r =>
      Forall (fun m => accepts k m = true) (responded r)
      /\ match name with
         | Some (_ :: _) => one_state (l ++ responded r) /\ match r with One m => ~ In m l | Many _ => True end
         | _ => True
         end
  | Then _ r =>
      Forall (fun m => accepts k m = true) (responded r) /\ no_equal l /\ one_state (l ++ responded r)
      /\ match r with One m => m_start m <= m_end m | Many _ => True end
  end.
Fixpoint all_proper (k : kind) (l : list mtch) (es : list event) : Prop :=
  match es with
  | [] => True
  | e :: r => proper k l e /\ all_proper k (settle l e) r
  end.

(** what the lookups show is exactly the members, up to the order *)
Definition shows_members (c : coll) : Prop :=
  (forall n, n <> [] -> exists r, snd (step c (ONamed [n])) = RList r /\ Permutation r (filter (name_is n) (c_del c)))
  /\ (forall t, exists r, snd (step c (OTagged t)) = RList r /\ Permutation r (tagged_members t (c_del c)))
  /\ (forall i, exists r, snd (step c (OStarting i)) = RList r /\ Permutation r (filter (starts_at i) (c_del c)))
  /\ (forall i, exists r, snd (step c (OEnding i)) = RList r /\ Permutation r (filter (ends_at i) (c_del c)))
  /\ (forall i, exists r, snd (step c (OAtIndex i)) = RList r /\ Permutation r (filter (coversb i) (c_del c))).
