(** * The collection without any condition on the history: contents and five card indexes

    SpecFiled.v accounts for the histories in which every match is accepted and no deletion raises.
    Here is the whole story, refused matches, failed deletions and matches that are [==] with
    different tags included.  Beside its contents the collection keeps five card indexes, one per
    family of lookups, each missing until it is first needed.  A card says "this match is filed under
    this key". *)
From Verif Require Import Base Match Spec Coll SpecColl SpecFiled.
Set Implicit Arguments.
Open Scope Z_scope.

Inductive key := KText (t : pstr) | KPos (i : Z).
Definition key_eqb (a b : key) : bool :=
  match a, b with
  | KText s, KText t => pstr_eqb s t
  | KPos i, KPos j => i =? j
  | _, _ => false
  end.

(** The keys under which a match is filed: its name unless empty, its tags (as often as they are
    repeated), its start, its end, the positions it covers. *)
Definition keys (f : family) (m : mtch) : list key :=
  match f with
  | ByName => match m_name m with Some (ch :: r) => [KText (ch :: r)] | _ => [] end
  | ByTag => map KText (m_tags m)
  | ByStart => [KPos (m_start m)]
  | ByEnd => [KPos (m_end m)]
  | ByIndex => map KPos (zrange (m_start m) (m_end m))
  end.

Definition cards := list (key * mtch).
Definition cards_of (f : family) (m : mtch) : cards := map (fun k => (k, m)) (keys f m).
Definition all_cards (f : family) (l : list mtch) : cards := flat_map (cards_of f) l.
(** what is filed under [k], in the order of filing *)
Definition page (k : key) (cs : cards) : list mtch := map snd (filter (fun c => key_eqb k (fst c)) cs).

(** Taking out the cards of [m]: for each of its keys the first card of a match [==] to it; it
    stops, and fails, where there is none. *)
Fixpoint strike (ks : list key) (m : mtch) (cs : cards) : cards * bool :=
  match ks with
  | [] => (cs, true)
  | k :: r => match remove_first (fun c => key_eqb k (fst c) && meq m (snd c)) cs with
              | Some cs' => strike r m cs'
              | None => (cs, false)
              end
  end.

(** The contents and the indexes (None: missing). *)
Record world := World { members : list mtch; index : family -> option cards }.
Definition put (s : world) (l : list mtch) : world := World l (index s).
Definition same_indexes (s s' : world) : Prop := forall f, index s' f = index s f.

(** ** One match comes: the indexes that exist get its cards; a refused match changes no index *)
Definition comes (k : kind) (m : mtch) (s s' : world) (r : out) : Prop :=
  members s' = members s
  /\ if accepts k m
     then r = RUnit /\ forall f, index s' f = option_map (fun cs => cs ++ cards_of f m) (index s f)
     else r = RErr AssertionError /\ same_indexes s s'.

(** ** One match goes: its cards are struck in each index in turn *)
Definition set_index (ix : family -> option cards) (f : family) (cs : cards) : family -> option cards :=
  fun g => match f, g with
           | ByName, ByName | ByTag, ByTag | ByStart, ByStart | ByEnd, ByEnd | ByIndex, ByIndex => Some cs
           | _, _ => ix g
           end.
Fixpoint strike_all (m : mtch) (fs : list family) (ix : family -> option cards) : (family -> option cards) * bool :=
  match fs with
  | [] => (ix, true)
  | f :: r =>
      match ix f with
      | None => strike_all m r ix
      | Some cs => let '(cs', ok) := strike (keys f m) m cs in
                   if ok then strike_all m r (set_index ix f cs') else (set_index ix f cs', false)
      end
  end.
(** ... and then the index of the ends may be made, from the contents left *)
Definition goes (m : mtch) (s s' : world) (r : out) : Prop :=
  members s' = members s
  /\ let '(ix, ok) := strike_all m [ByName; ByTag; ByStart; ByEnd; ByIndex] (index s) in
     if ok then r = RUnit /\ ((forall f, index s' f = ix f)
                              \/ (ix ByEnd = None /\ forall f, index s' f = set_index ix ByEnd (all_cards ByEnd (members s)) f))
     else r = RErr ValueError /\ forall f, index s' f = ix f.

(** the same thing for several matches in turn, up to the first exception *)
Inductive each {A} (P : A -> world -> world -> out -> Prop) : list A -> world -> world -> out -> Prop :=
| each_nil s s' : members s' = members s -> same_indexes s s' -> each P [] s s' RUnit
| each_cons a r s s1 s' o : P a s s1 RUnit -> each P r s1 s' o -> each P (a :: r) s s' o
| each_stop a r s s' e : P a s s' (RErr e) -> each P (a :: r) s s' (RErr e).

(** ** Lookups: they change no contents and no existing index, and may make missing ones *)
Definition looked_up (o : op) (s s' : world) : Prop :=
  members s' = members s
  /\ forall f, match index s f with
               | Some cs => index s' f = Some cs
               | None => (index s' f = None /\ asks f o = false)
                         \/ (may_need f o = true /\ index s' f = Some (all_cards f (members s)))
               end.
Definition reads (s : world) (f : family) (k : key) : list mtch :=
  match index s f with Some cs => page k cs | None => [] end.
(** distinct items, in the order of their first occurrences *)
Fixpoint firsts_of (ns : list pstr) : list pstr :=
  match ns with
  | [] => []
  | n :: r => n :: filter (fun x => negb (pstr_eqb n x)) (firsts_of r)
  end.
Definition elementary (o : op) (s : world) : option (list mtch) :=
  match o with
  | ONamed ns => Some (flat_map (fun n => reads s ByName (KText n)) (firsts_of ns))
  | OTagged t => Some (reads s ByTag (KText t))
  | OStarting i => Some (reads s ByStart (KPos i))
  | OEnding i => Some (reads s ByEnd (KPos i))
  | OAtIndex i => Some (reads s ByIndex (KPos i))
  | _ => None
  end.

(** ** Every call.  [l] is the contents when it is made. *)
Definition swap_at (k : kind) (i : nat) (s s' : world) (r : out) : Prop :=
  let l := members s in
  exists a b s1 r1,
    nth_error l (length l - 1 - i) = Some a /\ nth_error l i = Some b
    /\ comes k a (put s (replace_nth i a l)) s1 r1
    /\ match r1 with
       | RUnit => comes k b (put s1 (replace_nth (length l - 1 - i) b (members s1))) s' r
       | _ => r = r1 /\ members s' = members s1 /\ same_indexes s1 s'
       end.
Definition unchanged (s s' : world) : Prop := members s' = members s /\ same_indexes s s'.

Definition does (k : kind) (o : op) (s s' : world) (r : out) : Prop :=
  let l := members s in
  match o with
  | OAppend m => comes k m (put s (l ++ [m])) s' r
  | OInsert i m => comes k m (put s (insert_nth (Z.to_nat (py_clip (zlen l) i)) m l)) s' r
  | OExtend ms => each (fun m s s' r => comes k m (put s (members s ++ [m])) s' r) ms s s' r
  | ORemove m => match member_equal m l, remove_first (meq m) l with
                 | Some x, Some l' => goes x (put s l') s' r
                 | _, _ => unchanged s s' /\ r = RErr ValueError
                 end
  | ODelitem i => match py_pos l i, py_nth l i with
                  | Some n, Some x => goes x (put s (remove_nth n l)) s' r
                  | _, _ => unchanged s s' /\ r = RErr IndexError
                  end
  | OPop i => match py_pos l i, py_nth l i with
              | Some n, Some x => exists r', goes x (put s (remove_nth n l)) s' r'
                                             /\ r = match r' with RUnit => RMatch x | _ => r' end
              | _, _ => unchanged s s' /\ r = RErr IndexError
              end
  | ODelslice i j => each goes (py_slice l i j) (put s (py_unslice l i j)) s' r
  | OClear => each (fun m s s' r => goes m (put s (removelast (members s))) s' r) (rev l) s s' r
  | OSetitem i m => match py_pos l i with
                    | Some n => comes k m (put s (replace_nth n m l)) s' r
                    | None => unchanged s s' /\ r = RErr IndexError
                    end
  | OSetslice i j ms => each (comes k) ms (put s (fst (list_step l (OSetslice i j ms)))) s' r
  | OReverse => each (swap_at k) (seq 0 (Nat.div (length l) 2)) s s' r
  | _ => looked_up o s s' /\ match elementary o s' with Some ans => r = RList ans | None => True end
  end.

(** A history and the outcome of each call. *)
Inductive history (k : kind) : list op -> list out -> world -> Prop :=
| no_call : history k [] [] (World [] (fun _ => None))
| one_more ops outs s o s' r : history k ops outs s -> does k o s s' r -> history k (ops ++ [o]) (outs ++ [r]) s'.
