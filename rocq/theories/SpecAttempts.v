(** * Specification vocabulary for the attempts of a chain (C116)

    A chain tries its parts again and again.  Two positions are kept from one attempt to the next: [r], where the
    text is read from, and [w], the place that the beginning of what is read is taken to have.  They differ after an
    attempt that failed with more than one piece in hand. *)
From Verif Require Import Base Match Pattern Chain SpecChain.
Set Implicit Arguments.
Unset Strict Implicit.
Open Scope Z_scope.

(** [m'] is [m], put at its place relative to [w] in [input]: it is taken to be the text found there *)
Definition put (input : pstr) (w : Z) (m m' : mtch) : Prop :=
  m_span m' = (m_start m + w, m_end m + w) /\ m_input m' = Some input /\ m_index m' = m_index m
  /\ m_raw m' = VStr (py_slice input (Some (m_start m')) (Some (m_end m'))).

(** the valid ones among the repetitions [pieces]: from the first one on (the first part may begin with invalid
    ones), up to the first that is not valid.  [ms] are all the valid matches, [m_index] is their number *)
Fixpoint leading {A} (l : list (option A)) : list A := match l with Some x :: r => x :: leading r | _ => [] end.
Fixpoint skip_none {A} (l : list (option A)) : list (option A) := match l with None :: r => skip_none r | _ => l end.
Definition visible (first : bool) (ms pieces : list mtch) : list mtch :=
  let l := map (fun p => find (fun m => Nat.eqb (m_index m) (m_index p)) ms) pieces in
  leading (if first then skip_none l else l).

(** the repetitions of [cp] in the text read from [r]: as many adjacent occurrences as there are, up to the upper
    bound; only the first part may skip text.  [vs] are those that are valid. *)
Record found (input : pstr) (first : bool) (cp : cpart) (r w : Z) (pieces vs : list mtch) (e : Z) : Prop := {
  fd_match : exists n n' ms raws, cp_match cp n (from input r) = Ok (n', (ms, raws))
             /\ Forall2 (put input w) (firstn (length pieces) raws) pieces
             /\ Forall2 (put input w) (visible first ms (firstn (length pieces) raws)) vs
             /\ ((exists k, cp_end cp = Some k /\ k <= Z.of_nat (length pieces)) \/ length pieces = length raws
                 \/ exists m, nth_error raws (length pieces) = Some m /\ (first = false \/ pieces <> []) /\ m_start m + w <> e);
  fd_tile : exists a, w <= a /\ (first = false \/ pieces = [] -> a = w) /\ tile a pieces e;
  fd_max : forall k, cp_end cp = Some k -> Z.of_nat (length pieces) <= Z.max 0 k
}.

(** the pieces retained: a piece with which the chain breaker would hold is left out *)
Definition breaks (breaker : option (list mtch -> bool)) (ms : list mtch) : bool :=
  match breaker with Some b => b ms | None => false end.
Fixpoint retain (breaker : option (list mtch -> bool)) (cur vs : list mtch) : list mtch :=
  match vs with
  | [] => cur
  | v :: r => retain breaker (if breaks breaker (cur ++ [v]) then cur else cur ++ [v]) r
  end.

(** an attempt: the parts in order, from the positions [r] and [w], [cur] being retained so far.
    It gives the pieces of each part done, the positions for the next attempt, what is retained and whether no part
    was lacking. *)
Inductive attempt (breaker : option (list mtch -> bool)) (input : pstr) :
  bool -> list cpart -> Z -> Z -> list mtch -> list (list mtch) -> Z -> Z -> list mtch -> bool -> Prop :=
| at_done first r w cur : attempt breaker input first [] r w cur [] r w cur true
(** no repetition, none needed *)
| at_none first cp parts r w cur rest r' w' cur' ok :
    found input first cp r w [] [] w -> cp_start cp <= 0 ->
    attempt breaker input false parts r w cur rest r' w' cur' ok ->
    attempt breaker input first (cp :: parts) r w cur ([] :: rest) r' w' cur' ok
(** repetitions: reading goes on after the place the last one was put at *)
| at_some first cp parts r w cur pieces vs e rest r' w' cur' ok :
    found input first cp r w pieces vs e -> pieces <> [] -> cp_start cp <= Z.of_nat (length pieces) ->
    attempt breaker input false parts e e (if cp_hidden cp then cur else retain breaker cur vs) rest r' w' cur' ok ->
    attempt breaker input first (cp :: parts) r w cur (pieces :: rest) r' w' cur' ok
(** too few repetitions: the next attempt reads the same text, taken to be after the first piece retained *)
| at_lack first cp parts r w cur pieces vs e :
    found input first cp r w pieces vs e -> Z.of_nat (length pieces) < cp_start cp ->
    attempt breaker input first (cp :: parts) r w cur [] r (match cur with m :: _ => m_end m | [] => w end) cur false.

(** [M] extends from the first piece to the last, and its children are the pieces, each preceded by its own
    children *)
Definition joins (input : pstr) (cur : list mtch) (M : mtch) : Prop :=
  exists f l, hd_error cur = Some f /\ hd_error (rev cur) = Some l /\ m_span M = (m_start f, m_end l) /\ m_input M = Some input
    /\ Forall2 (fun v c => set_parent c None = set_parent v None) (flat_map (fun v => m_children v ++ [v]) cur) (m_children M).

(** the matches of the chain, from the positions [r] and [w] *)
Inductive history (breaker : option (list mtch -> bool)) (input : pstr) (parts : list cpart) : Z -> Z -> list mtch -> Prop :=
| hs_end r w : zlen input <= w -> history breaker input parts r w []
| hs_stop r w pieces r' w' cur ok : w < zlen input ->
    attempt breaker input true parts r w [] pieces r' w' cur ok -> concat pieces = [] -> history breaker input parts r w []
| hs_match r w pieces r' w' cur M rest : w < zlen input ->
    attempt breaker input true parts r w [] pieces r' w' cur true -> concat pieces <> [] -> joins input cur M ->
    history breaker input parts r' w' rest -> history breaker input parts r w (M :: rest)
| hs_again r w pieces r' w' cur ok rest : w < zlen input ->
    attempt breaker input true parts r w [] pieces r' w' cur ok -> concat pieces <> [] -> cur = [] \/ ok = false ->
    history breaker input parts r' w' rest -> history breaker input parts r w rest.
