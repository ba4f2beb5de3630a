(** * Tag lists as shared objects: rules.py AppendTags / RemoveTags over several calls of matches()

    The lists of tags given to the patterns are Python lists shared by reference: pattern.py keeps
    the keyword argument and gives it to each Match (pattern.py:453, 507, 518-525, 573, 582), and
    [ensure_list] (loose.py:102-115) keeps a non-empty list as it is.  Here they live in a heap
    which survives from one call to the next.
    Simplifications: a pattern is what it finds in an input (its matching does not depend on tags,
    see Pattern.v); a rule's [when] sees the members with their tags and selects some of them (a rule creating
    matches is not included); the lookup structures are those of Coll.v and left out. *)
From Verif Require Import Base Match Conseq.
Set Implicit Arguments.
Unset Strict Implicit.

Record tags_heap := THeap { th_next : nat; th_cell : nat -> list pstr }.
Definition th_set (h : tags_heap) (a : nat) (l : list pstr) : tags_heap := THeap (th_next h) (fun x => if Nat.eqb x a then l else th_cell h x).
Definition th_new (h : tags_heap) (l : list pstr) : tags_heap * nat := (THeap (S (th_next h)) (fun x => if Nat.eqb x (th_next h) then l else th_cell h x), th_next h).
(** a Match object and the object its [tags] attribute is *)
Record tobj := TObj { t_match : mtch; t_tags : nat }.
(** what the object looks like *)
Definition tview (h : tags_heap) (o : tobj) : mtch := set_tags (t_match o) (th_cell h (t_tags o)).

(** ** match.py:1036 with loose.py:111-112: [self.tags = ensure_list(tags)] *)
Definition new_match (h : tags_heap) (tags : option nat) (m : mtch) : tags_heap * tobj :=
  match tags with
  | Some a => match th_cell h a with
              | [] => let '(h', b) := th_new h [] in (h', TObj m b)
              | _ => (h, TObj m a)
              end
  | None => let '(h', b) := th_new h [] in (h', TObj m b)
  end.
(** a pattern: its list of tags, and what it finds (pattern.py:451-455, 502-531, 553-584) *)
Record tpattern := TPat { tp_tags : option nat; tp_find : pstr -> list mtch }.
Definition find_one (tags : option nat) (st : tags_heap * list tobj) (m : mtch) : tags_heap * list tobj :=
  let '(h, l) := st in let '(h', o) := new_match h tags m in (h', l ++ [o]).
(** rebulk.py:266-291 [_matches_patterns] *)
Definition find_all (ps : list tpattern) (input : pstr) (h : tags_heap) : tags_heap * list tobj :=
  fold_left (fun st p => fold_left (find_one (tp_tags p)) (tp_find p input) st) ps (h, []).

(** ** rules.py:134-178, 203-248: remove, modify the tags, append again *)
Definition t_in (o : tobj) (l : list tobj) : bool := existsb (fun x => meq (t_match x) (t_match o)) l.
Definition t_remove (o : tobj) (l : list tobj) : list tobj := match remove_first (fun x => meq (t_match x) (t_match o)) l with Some l' => l' | None => l end.
Definition t_remove_one (st : list tobj * list tobj) (o : tobj) : list tobj * list tobj :=
  let '(l, ret) := st in if t_in o l then (t_remove o l, ret ++ [o]) else (l, ret).
Definition t_append_one (l : list tobj) (o : tobj) : list tobj := if t_in o l then l else l ++ [o].
Definition edit_one (e : list pstr -> list pstr) (h : tags_heap) (o : tobj) : tags_heap := th_set h (t_tags o) (e (th_cell h (t_tags o))).
(** a rule: which members it selects, and what it does: keep only those, rename them, or change their tags *)
Inductive taction := TKeep | TRename (n : option pstr) | TTags (e : list pstr -> list pstr).
Record trule := TRule { tr_when : list mtch -> list nat; tr_action : taction }.
(** rules.py:218 and 240-242 *)
Definition append_tags (ts : list pstr) : taction := TTags (fun tags => tags ++ ts).
Definition remove_tags (ts : list pstr) : taction := TTags (fun tags => fold_left del_tag ts tags).
Definition picked (l : list tobj) (is : list nat) : list tobj := flat_map (fun i => match nth_error l i with Some o => [o] | None => [] end) is.
Definition rename_obj (n : option pstr) (o : tobj) : tobj := TObj (set_name (t_match o) n) (t_tags o).
Definition run_rule (st : tags_heap * list tobj) (r : trule) : tags_heap * list tobj :=
  let '(h, l) := st in
  let sel := picked l (tr_when r (map (tview h) l)) in
  match tr_action r with
  | TKeep => (h, sel)
  | TRename n => let '(l1, removed) := fold_left t_remove_one sel (l, []) in (h, fold_left t_append_one (map (rename_obj n) removed) l1)
  | TTags e => let '(l1, removed) := fold_left t_remove_one sel (l, []) in (fold_left (edit_one e) removed h, fold_left t_append_one removed l1)
  end.
(** ** rebulk.py:138-165 [matches]: the heap afterwards and the returned matches *)
Definition t_matches (ps : list tpattern) (rules : list trule) (h : tags_heap) (input : pstr) : tags_heap * list mtch :=
  let '(h', l) := fold_left run_rule rules (find_all ps input h) in (h', map (tview h') l).
(** several calls on the same Rebulk object *)
Fixpoint t_calls (ps : list tpattern) (rules : list trule) (h : tags_heap) (inputs : list pstr) : tags_heap * list (list mtch) :=
  match inputs with
  | [] => (h, [])
  | i :: r => let '(h1, l) := t_matches ps rules h i in let '(h2, ls) := t_calls ps rules h1 r in (h2, l :: ls)
  end.
