(** * C98: previous and next with a predicate and an index, over every history *)
From Verif Require Import Base BaseFacts Match Spec MatchFacts Coll CollFacts CollQuery CollSem CollSem2 SpecColl
  CollHist CollUniv CollOrder CollMore SpecFiled CollFiled CollFiled2 PropsColl PropsFiled SpecDerived PropsDerived Loose Lookup PropsLookup.
From Coq Require Import ZifyBool.
Export Coq.Strings.String.StringSyntax.
Set Implicit Arguments.
Unset Strict Implicit.
Open Scope Z_scope.

Lemma ask_previous c m p i r : snd (step c (OPrevious m)) = RList r -> selects r p i (snd (ask c (QPrevious m) (arg_pred p) (arg_index i))).
Proof. unfold ask, collect. cbn [step]. destruct (q_previous c m) as [c1 l]. cbn. intro E. injection E as <-. apply pick_selects. Qed.
Lemma ask_next c m p i r : snd (step c (ONext m)) = RList r -> selects r p i (snd (ask c (QNext m) (arg_pred p) (arg_index i))).
Proof. unfold ask, collect. cbn [step]. destruct (q_next c m) as [c1 l]. cbn. intro E. injection E as <-. apply pick_selects. Qed.

(** The predicate and the index select among the matches ending (starting) at the one nearest
    position where some match ends (starts), whether or not one of them satisfies the predicate. *)
Theorem C98_previous : forall k input ops m p i,
  acceptable k false [] ops ->
  exists ge, holds ByEnd ops ge
    /\ let ends j := existsb (ends_at j) ge in
       exists r, ((nowhere ends 0 (m_start m + 1) /\ r = [])
                  \/ exists j, greatest ends 0 (m_start m + 1) j /\ r = filter (ends_at j) ge)
         /\ selects r p i (snd (ask (run (empty_coll k input) ops) (QPrevious m) (arg_pred p) (arg_index i))).
Proof.
  intros k input ops m p i Hacc. destruct (C85_previous input m Hacc) as (ge & Hg & r & E & H). exists ge. split; [exact Hg|].
  cbv zeta. exists r. split; [exact H|]. apply ask_previous, E.
Qed.
Theorem C98_next : forall k input ops m p i,
  acceptable k false [] ops ->
  exists gs top, holds ByStart ops gs /\ furthest (added_since [] ops) <= top <= max_end (run (empty_coll k input) ops)
    /\ let starts j := existsb (starts_at j) gs in
       exists r, ((nowhere starts (m_start m + 1) (top + 1) /\ r = [])
                  \/ exists j, least starts (m_start m + 1) (top + 1) j /\ r = filter (starts_at j) gs)
         /\ selects r p i (snd (ask (run (empty_coll k input) ops) (QNext m) (arg_pred p) (arg_index i))).
Proof.
  intros k input ops m p i Hacc. destruct (C85_next input m Hacc) as (gs & top & Hg & Ht & r & E & H). exists gs, top. split; [exact Hg|]. split; [exact Ht|].
  cbv zeta. exists r. split; [exact H|]. apply ask_next, E.
Qed.
(** after an assignment, the replaced match is still the nearest *)
Example C98_example :
  let ops := [OExtend [ex_a; ex_b; ex_c]; OEnding 5; OSetitem 1 ex_a] in
  let m := mk_match 9 7 8 in
  acceptable KMatches false [] ops
  /\ snd (ask (run (empty_coll KMatches ex_input) ops) (QPrevious m) ANone (AInt 0)) = Ok (PickOne (Some ex_b))
  /\ snd (ask (run (empty_coll KMatches ex_input) ops) (QPrevious m) (AFun (fun x => m_end x <=? 3)) ANone) = Ok (PickList [])
  /\ snd (ask (run (empty_coll KMatches ex_input) ops) (QNext ex_a) (AFun (fun x => true)) ANone) = Ok (PickList [ex_c]).
Proof. split; [simpl; repeat constructor|]. repeat split; vm_compute; reflexivity. Qed.
Print Assumptions C98_previous.
Print Assumptions C98_next.
