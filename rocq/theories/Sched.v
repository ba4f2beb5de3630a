(** * Several calls of matches() at the same time: rebulk.py:138-165, 266-291, 293-305, rules.py:112-248

    The calls share the lists of tags given to the patterns ([TagHeap]); a call is cut into the steps another thread can come
    between: the creation of one match, a look at one match (with its tags) by the [when] of a rule, its choice with what the rule does to the call's
    own list of matches, a look at the tags of one match to be changed, their replacement, the return of the changed matches to the list.
    Simplifications: those of [TagHeap]; [when] looks at each match once, before it chooses; the tags are replaced by the changed ones at once (a
    sequence of changes in place, rules.py:219 and 240-242, is the last of several replacements, by the call that owns the list in the theorem). *)
From Verif Require Import Base Match Conseq TagHeap.
Set Implicit Arguments.
Unset Strict Implicit.

(** what a call still has to do: pattern.py:451-455 (make one match and append it), rules.py:326-330 (one rule), rules.py:213-222 and
    235-248 (change the tags of one match; append the matches again) *)
Inductive action :=
| AFind (tags : option nat) (m : mtch) | ALook (r : trule) (views : list mtch)
| AEdit (e : list pstr -> list pstr) (o : tobj) | AWrite (o : tobj) (tags : list pstr) | AAppend (os : list tobj).
Record thread := Thread { th_todo : list action; th_held : list tobj }.
(** one step of a call *)
Definition step (st : tags_heap * thread) : tags_heap * thread :=
  let '(h, t) := st in
  match th_todo t with
  | [] => (h, t)
  | AFind tags m :: k => let '(h', o) := new_match h tags m in (h', Thread k (th_held t ++ [o]))
  | ALook r views :: k =>
      match nth_error (th_held t) (length views) with
      | Some o => (h, Thread (ALook r (views ++ [tview h o]) :: k) (th_held t))
      | None =>
      let sel := picked (th_held t) (tr_when r views) in
      match tr_action r with
      | TKeep => (h, Thread k sel)
      | TRename n => let '(l1, removed) := fold_left t_remove_one sel (th_held t, []) in (h, Thread k (fold_left t_append_one (map (rename_obj n) removed) l1))
      | TTags e => let '(l1, removed) := fold_left t_remove_one sel (th_held t, []) in (h, Thread (map (AEdit e) removed ++ AAppend removed :: k) l1)
      end
      end
  | AEdit e o :: k => (h, Thread (AWrite o (e (th_cell h (t_tags o))) :: k) (th_held t))
  | AWrite o tags :: k => (th_set h (t_tags o) tags, Thread k (th_held t))
  | AAppend os :: k => (h, Thread k (fold_left t_append_one os (th_held t)))
  end.
(** a call: the patterns and the rules of its Rebulk, and its input; its beginning (rebulk.py:149-160) *)
Record call := Call { c_patterns : list tpattern; c_rules : list trule; c_input : pstr }.
Definition begin (c : call) : thread :=
  Thread (flat_map (fun p => map (AFind (tp_tags p)) (tp_find p (c_input c))) (c_patterns c) ++ map (fun r => ALook r []) (c_rules c)) [].
(** all the calls: the shared lists, and where each call is *)
Record world := World { w_heap : tags_heap; w_threads : nat -> thread }.
Definition start (calls : list call) (h : tags_heap) : world :=
  World h (fun i => match nth_error calls i with Some c => begin c | None => Thread [] [] end).
(** call number i makes a step *)
Definition turn (w : world) (i : nat) : world :=
  let '(h, t) := step (w_heap w, w_threads w i) in World h (fun j => if Nat.eqb j i then t else w_threads w j).
Definition run_schedule (w : world) (schedule : list nat) : world := fold_left turn schedule w.
(** what the matches a call holds look like *)
Definition seen (w : world) (i : nat) : list mtch := map (tview (w_heap w)) (th_held (w_threads w i)).
