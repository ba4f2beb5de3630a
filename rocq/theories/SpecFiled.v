(** * What each family of lookups is told: exact account of every history

    The collection answers [named]/[names], [tagged]/[tags], [starting], [ending] and
    [at_index] (and the lookups built on them) from five separate registers.  A register
    is first filled, with the contents of the collection, when it is first needed; from
    then on it is only told which matches are added and which leave.  Here is what it is
    told by each call, on a plain list [l] of contents. *)
From Verif Require Import Base Match Spec Coll SpecColl.
Set Implicit Arguments.
Open Scope Z_scope.

Inductive news := Added (m : mtch) | Gone (m : mtch).

(** the member [matches.remove(m)] takes out *)
Fixpoint member_equal (m : mtch) (l : list mtch) : option mtch :=
  match l with
  | [] => None
  | x :: r => if meq m x then Some x else member_equal m r
  end.

(** [reverse()] swaps the members pairwise: each swap assigns two items *)
Definition swaps (l : list mtch) : list news :=
  flat_map (fun i => match nth_error l (length l - 1 - i), nth_error l i with
                     | Some a, Some b => [Added a; Added b]
                     | _, _ => []
                     end) (seq 0 (Nat.div (length l) 2)).

(** Assigning an item is only an addition: nobody is told that the replaced match is gone. *)
Definition told (l : list mtch) (o : op) : list news :=
  match o with
  | OAppend m | OInsert _ m => [Added m]
  | OExtend ms => map Added ms
  | ORemove m => match member_equal m l with Some x => [Gone x] | None => [] end
  | ODelitem i | OPop i => match py_nth l i with Some x => [Gone x] | None => [] end
  | ODelslice i j => map Gone (py_slice l i j)
  | OClear => map Gone (rev l)
  | OSetitem i m => match py_nth l i with Some _ => [Added m] | None => [] end
  | OSetslice i j ms => map Added ms
  | OReverse => swaps l
  | _ => []
  end.

(** A register takes additions at its end and drops the first [==] match of one gone. *)
Definition note (g : list mtch) (e : news) : list mtch :=
  match e with
  | Added m => g ++ [m]
  | Gone m => match remove_first (meq m) g with Some g' => g' | None => g end
  end.
Definition notes (g : list mtch) (es : list news) : list mtch := fold_left note es g.

(** A register holding [g] while the contents are [l], after the calls [ops]. *)
Fixpoint register (g l : list mtch) (ops : list op) : list mtch :=
  match ops with
  | [] => g
  | o :: r => register (notes g (told l o)) (fst (list_step l o)) r
  end.

(** The five registers; the calls that read them directly; the calls that may need them. *)
Inductive family := ByName | ByTag | ByStart | ByEnd | ByIndex.

Definition asks (f : family) (o : op) : bool :=
  match f, o with
  | ByName, ONamed (_ :: _) | ByName, ONames => true
  | ByTag, OTagged _ | ByTag, OTags => true
  | ByStart, OStarting _ => true
  | ByEnd, OEnding _ => true
  | ByIndex, OAtIndex _ | ByIndex, OAtSpan _ => true
  | _, _ => false
  end.
Definition may_need (f : family) (o : op) : bool :=
  asks f o ||
  match f, o with
  | ByStart, ONext _ | ByStart, OHoles _ _ _ _ => true
  | ByEnd, OPrevious _ => true
  (* taking out the match that ends furthest reads the ends of the others *)
  | ByEnd, ORemove _ | ByEnd, ODelitem _ | ByEnd, ODelslice _ _ | ByEnd, OPop _ | ByEnd, OClear => true
  | ByIndex, OHoles _ _ _ _ | ByIndex, OConflicting _ | ByIndex, OChainBefore _ _ _ _ | ByIndex, OChainAfter _ _ _ _ => true
  | _, _ => false
  end.

(** In the history [ops] the register [f] is filled at the end of [before], by its last call,
    or never ([after] is then empty); it was not read earlier. *)
Definition filled (f : family) (ops before after : list op) : Prop :=
  ops = before ++ after
  /\ forallb (fun o => negb (asks f o)) (removelast before) = true
  /\ (after = [] \/ exists b o, before = b ++ [o] /\ may_need f o = true).
(** [g] is what it holds at the end. *)
Definition holds (f : family) (ops : list op) (g : list mtch) : Prop :=
  exists before after, filled f ops before after
    /\ g = register (list_run [] before) (list_run [] before) after.

(** The matches added by the calls [ops], made while the contents are [l]. *)
Definition added (es : list news) : list mtch := flat_map (fun e => match e with Added m => [m] | Gone _ => [] end) es.
Fixpoint added_since (l : list mtch) (ops : list op) : list mtch :=
  match ops with
  | [] => []
  | o :: r => added (told l o) ++ added_since (fst (list_step l o)) r
  end.
(** The names and tags asked for. *)
Definition asked_names (ops : list op) : list pstr := flat_map (fun o => match o with ONamed ns => ns | _ => [] end) ops.
Definition asked_tags (ops : list op) : list pstr := flat_map (fun o => match o with OTagged t => [t] | _ => [] end) ops.
(** The furthest end among some matches (at least 0). *)
Definition furthest (l : list mtch) : Z := fold_right Z.max 0 (map m_end l).
(** [ending(e)] was called, or [previous(m)] with [m] starting at or after [e] *)
Definition end_asked (ops : list op) (e : Z) : Prop :=
  exists o, In o ops /\ (o = OEnding e \/ exists m, o = OPrevious m /\ 0 <= e <= m_start m).

(** The matches [ms] can be taken out of [l] one by one, each as [list.remove] does. *)
Fixpoint removable (ms l : list mtch) : bool :=
  match ms with
  | [] => true
  | m :: r => match remove_first (meq m) l with Some l' => removable r l' | None => false end
  end.
(** Deleting the slice [seg] and keeping [rest], when no match added so far ends after [top]:
    the first match of the slice that ends at [top] or after is followed by matches which cannot
    all be taken out of [rest]. *)
Definition stuck (seg rest : list mtch) (top : Z) : Prop :=
  exists a x b, seg = a ++ x :: b /\ (forall y, In y a -> m_end y < top) /\ top <= m_end x /\ removable b rest = false.

(** The calls up to and including the first that asks [f]; the calls after it. *)
Fixpoint upto (f : family) (ops : list op) : list op :=
  match ops with
  | [] => []
  | o :: r => o :: (if asks f o then [] else upto f r)
  end.
Fixpoint since (f : family) (ops : list op) : list op :=
  match ops with
  | [] => []
  | o :: r => if asks f o then r else since f r
  end.
(** What the register [f] holds if it is filled by the first call that asks it. *)
Definition told_since_asked (f : family) (ops : list op) : list mtch :=
  register (list_run [] (upto f ops)) (list_run [] (upto f ops)) (since f ops).
