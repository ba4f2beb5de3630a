(** * Specification vocabulary for chains (C43-C46) *)
From Verif Require Import Base Match Pattern Chain.
Set Implicit Arguments.
Unset Strict Implicit.
Open Scope Z_scope.

(** the text from position [b] on *)
Definition from (input : pstr) (b : Z) : pstr := py_slice input (Some b) None.

(** ** Termination *)
(** found in the text [t], not empty, starting at a position of [t], without an explicit raw end *)
Definition advances (t : pstr) (m : mtch) : Prop :=
  m_input m = Some t /\ m_rawend m = None /\ 0 <= m_start m < m_end m.
Definition proper (cp : cpart) : Prop := forall n t n' ms raws,
  cp_match cp n t = Ok (n', (ms, raws)) -> Forall (advances t) ms /\ Forall (advances t) raws.
(** the part itself terminates *)
Definition convergent (cp : cpart) : Prop := forall n t, cp_match cp n t <> Err Diverges.

(** ** Positions *)
(** [sub] is [l] with some elements left out *)
Inductive subseq {A} : list A -> list A -> Prop :=
| sub_nil : subseq [] []
| sub_take x l r : subseq l r -> subseq (x :: l) (x :: r)
| sub_skip x l r : subseq l r -> subseq l (x :: r).

(** one piece after the other, from position [a] to position [e], without hole or overlap *)
Fixpoint tile (a : Z) (pieces : list mtch) (e : Z) : Prop :=
  match pieces with
  | [] => a = e
  | m :: r => m_start m = a /\ tile (m_end m) r e
  end.

(** what an ordinary pattern (one string, regex or function, parents only) answers on the text [t]:
    numbered occurrences inside [t], from left to right, of which the valid ones are returned *)
Definition located (t : pstr) (m : mtch) : Prop :=
  m_input m = Some t /\ m_rawstart m = None /\ m_rawend m = None /\ m_parent m = None
  /\ 0 <= m_start m < m_end m /\ m_end m <= zlen t.
Definition agrees (m r : mtch) : Prop := m_span m = m_span r /\ m_index m = m_index r.
Record orderly (t : pstr) (ms raws : list mtch) : Prop := {
  or_located : Forall (located t) ms /\ Forall (located t) raws;
  or_order : StronglySorted (fun a b => m_end a <= m_start b) raws;
  or_index : map m_index raws = seq 0 (length raws);
  or_visible : exists sub, subseq sub raws /\ Forall2 agrees ms sub;
  or_family : Forall (fun m => Forall (fun c => m_parent c <> None) (m_children m)) ms
}.
Definition ordinary (cp : cpart) : Prop :=
  (forall n t n' ms raws, cp_match cp n t = Ok (n', (ms, raws)) -> orderly t ms raws)
  /\ forall n t, cp_match cp n t <> Err InvalidChain.      (* an exception private to chain.py *)

(** [m'] is [m], found in [input] from [b] on, at its place in [input] *)
Definition placed (input : pstr) (b : Z) (m m' : mtch) : Prop :=
  m_span m' = (m_start m + b, m_end m + b) /\ m_input m' = Some input /\ m_raw m' = m_raw m /\ m_index m' = m_index m.

(** [pieces] are the repetitions of [cp] from position [b], ending at [e]: as many adjacent occurrences as
    there are, up to the upper bound, and no less than the lower bound.  Only the first part may skip text. *)
Record repeats (input : pstr) (first : bool) (cp : cpart) (b : Z) (pieces : list mtch) (e : Z) : Prop := {
  rp_found : exists n n' ms raws, cp_match cp n (from input b) = Ok (n', (ms, raws))
             /\ Forall2 (placed input b) (firstn (length pieces) raws) pieces
             /\ (forall k, cp_end cp = Some k -> Z.of_nat (length pieces) < k ->
                 length pieces = length raws \/ exists m, nth_error raws (length pieces) = Some m
                     /\ (first = false \/ pieces <> [] ) /\ m_start m + b <> e)
             /\ (cp_end cp = None -> length pieces = length raws \/ exists m, nth_error raws (length pieces) = Some m
                     /\ (first = false \/ pieces <> [] ) /\ m_start m + b <> e);
  rp_tile : exists a, b <= a /\ (first = false \/ pieces = [] -> a = b) /\ tile a pieces e;
  rp_min : cp_start cp <= Z.of_nat (length pieces);
  rp_max : forall k, cp_end cp = Some k -> Z.of_nat (length pieces) <= Z.max 0 k
}.

(** the parts one after the other: the pieces of each part *)
Inductive laid (input : pstr) : bool -> list cpart -> Z -> list (list mtch) -> Z -> Prop :=
| laid_nil first e : laid input first [] e [] e
| laid_cons first cp parts b pieces e' rest e :
    repeats input first cp b pieces e' -> laid input false parts e' rest e ->
    laid input first (cp :: parts) b (pieces :: rest) e.

(** the pieces that may show: those of the parts that are not hidden *)
Fixpoint shown (parts : list cpart) (pieces : list (list mtch)) : list mtch :=
  match parts, pieces with
  | cp :: ps, l :: ls => (if cp_hidden cp then [] else l) ++ shown ps ls
  | _, _ => []
  end.

(** the returned match [v] is the piece [m]: same place, same text, same number *)
Definition shows (v m : mtch) : Prop :=
  m_span v = m_span m /\ m_raw v = m_raw m /\ m_input v = m_input m /\ m_index v = m_index m.
(** [vs] are some of the pieces, in order *)
Definition among (vs pieces : list mtch) : Prop := exists sub, subseq sub pieces /\ Forall2 shows vs sub.

(** [M] is a match of the chain: its parts laid one after the other from some position, at least one piece
    of which is visible; it extends from the first visible piece to the last, and its children are
    the visible pieces, each preceded by its own children *)
Definition composed (input : pstr) (parts : list cpart) (M : mtch) : Prop :=
  exists b pieces e vs f l, 0 <= b /\ laid input true parts b pieces e /\ among vs (shown parts pieces)
    /\ hd_error vs = Some f /\ hd_error (rev vs) = Some l /\ m_span M = (m_start f, m_end l) /\ m_input M = Some input
    /\ Forall2 (fun v c => set_parent c None = set_parent v None) (flat_map (fun v => m_children v ++ [v]) vs) (m_children M).

(** a chain of which an attempt cannot fail after several visible pieces were found: only the first two parts
    may be required, and the first one is not repeated (or hidden) when the second is required *)
Definition optional (cp : cpart) : Prop := cp_start cp <= 0.
Definition steady (parts : list cpart) : Prop :=
  match parts with
  | p :: q :: r => Forall optional r
                   /\ (optional q \/ cp_hidden p = true \/ exists k, cp_end p = Some k /\ k <= 1)
  | _ => True
  end.
