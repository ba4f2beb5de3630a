(** * What becomes of a match found by a part of a chain: the words of C129 *)
From Verif Require Import Base Match Coll Loose Pattern Chain.
Set Implicit Arguments.
Open Scope Z_scope.

(** all but the place, the text, the parent and the children *)
Definition same_content (m m' : mtch) : Prop :=
  m_id m' = m_id m /\ m_lit m' = m_lit m /\ m_name m' = m_name m /\ m_tags m' = m_tags m /\ m_marker m' = m_marker m
  /\ m_private m' = m_private m /\ m_fmt m' = m_fmt m /\ m_solver m' = m_solver m /\ m_index m' = m_index m
  /\ m_pattern m' = m_pattern m /\ m_rawstart m' = m_rawstart m /\ m_rawend m' = m_rawend m.

(** [m'] is [m], found in another text than [input], put into [input] [w] positions further, and so are its
    parent and children; what was found in [input] itself stays where it is. *)
Inductive moved (input : pstr) (w : Z) : mtch -> mtch -> Prop :=
| Moved m m' d :
    (m_input m = Some input /\ d = 0) \/ (m_input m <> Some input /\ d = w) ->
    m_start m' = m_start m + d -> m_end m' = m_end m + d -> m_input m' = Some input -> same_content m m' ->
    moved_parent input w (m_parent m) (m_parent m') -> Forall2 (moved input w) (m_children m) (m_children m') ->
    moved input w m m'
with moved_parent (input : pstr) (w : Z) : option mtch -> option mtch -> Prop :=
| no_parent : moved_parent input w None None
| a_parent q q' : moved input w q q' -> moved_parent input w (Some q) (Some q').

(** A piece: a match returned by a part that is not hidden, searching some end of the input, moved. *)
Definition piece (input : pstr) (parts : list cpart) (x : mtch) : Prop :=
  exists cp n before text n' found raws m w,
    In cp parts /\ cp_hidden cp = false /\ input = before ++ text
    /\ cp_match cp n text = Ok (n', (found, raws)) /\ In m found /\ moved input w m x.
(** all but the parent *)
Definition same_but_parent (m m' : mtch) : Prop :=
  same_content m m' /\ m_start m' = m_start m /\ m_end m' = m_end m /\ m_input m' = m_input m /\ m_children m' = m_children m.
