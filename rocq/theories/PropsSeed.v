(** * C119: the result does not depend on the iteration order of sets *)
From Coq Require Import Permutation ZifyBool.
From Verif Require Import Base BaseFacts Match MatchFacts Coll CollFacts Conseq Processors Topo Rules RulesFacts Typed Rebulk Pipeline Play Twin TwinSwap PropsRules PropsProc.
Set Implicit Arguments.
Unset Strict Implicit.
Open Scope Z_scope.

Lemma conflict_loop_twin solvers ms : forall c c' rm, twin c c' -> trel (conflict_loop solvers c rm ms) (conflict_loop solvers c' rm ms).
Proof.
  induction ms as [|m ms IH]; intros c c' rm H; cbn [conflict_loop]; [split; [exact H|reflexivity]|].
  destruct (q_conflicting_twin m H) as [A B]. destruct (q_conflicting c m) as [c1 r], (q_conflicting c' m) as [c1' r']. cbn [fst snd] in A, B. subst r'.
  destruct r as [l|e]; [|split; [exact A|reflexivity]]. destruct (mark_all solvers rm m (by_length l)); [apply IH, A | split; [exact A|reflexivity]].
Qed.
Lemma conflict_when_twin solvers c c' : twin c c' -> trel (conflict_when solvers c) (conflict_when solvers c').
Proof. intro H. unfold conflict_when. rewrite <- (twin_del H). apply conflict_loop_twin, H. Qed.

(** two outcomes that nobody tells apart *)
Definition same_end {A} (r r' : found * res A) : Prop :=
  match r, r' with (f, Ok x), (f', Ok x') => twins f f' /\ x = x' | (_, Err e), (_, Err e') => e = e' | _, _ => False end.
Lemma twins_with_matches f f' c c' : twins f f' -> twin c c' -> twins (with_matches f c) (with_matches f' c').
Proof. intros (N & A & B & K) H. repeat split; assumption. Qed.

Section Orders.
  Context {R : Type} (solvers : nat -> mtch -> mtch -> verdict) (o1 o2 : list mtch -> list mtch) (u : played R).
  Hypothesis H1 : an_order o1.
  Hypothesis H2 : an_order o2.
  Notation bh o := (with_defaults solvers o (as_behav u)).

  Lemma when_same r f f' : twins f f' -> same_end (b_when (bh o1) r f) (b_when (bh o2) r f').
  Proof.
    intro H. destruct r as [|[|r]]; cbn [with_defaults default_behav b_when].
    - pose proof (conflict_when_twin solvers (proj1 (proj2 H))) as [A B].
      destruct (conflict_when solvers (fd_matches f)) as [c x], (conflict_when solvers (fd_matches f')) as [c' x']. cbn [fst snd] in A, B. subst x'.
      destruct x as [l|e]; [|reflexivity]. split; [apply twins_with_matches; assumption|reflexivity].
    - split; [exact H|]. f_equal. rewrite (twin_del (proj1 (proj2 H))). reflexivity.
    - cbn [as_behav b_when]. destruct (perform_twin (pl_when u (S (S r))) H) as [A B].
      destruct (perform (pl_when u (S (S r))) f) as [g x], (perform (pl_when u (S (S r))) f') as [g' x']. cbn [fst snd] in A, B. subst x'.
      destruct x; [split; [exact B|reflexivity]|reflexivity].
  Qed.
  Lemma then_same r f f' resp : twins f f' -> same_end (b_then (bh o1) r f resp) (b_then (bh o2) r f' resp).
  Proof.
    intro H. destruct r as [|[|r]]; cbn [with_defaults default_behav b_then]; destruct resp as [l|x].
    - rewrite !rms_eq. pose proof (rms_perm (xs := o1 l) (ys := o2 l)) as P.
      assert (Permutation (o1 l) (o2 l)) as Hp by (etransitivity; [symmetry; apply H1|apply H2]).
      specialize (P Hp (fd_matches f)). destruct (rms_twin (o2 l) (proj1 (proj2 H))) as [A B].
      destruct (rms (fd_matches f) (o1 l)) as [c [v|e]], (rms (fd_matches f) (o2 l)) as [c2 [v2|e2]]; cbn [alike] in P; try contradiction;
        destruct (rms (fd_matches f') (o2 l)) as [c3 x3]; cbn [fst snd] in A, B; subst x3; [|exact P].
      split; [|destruct v, v2; reflexivity]. apply twins_with_matches; [exact H|]. eapply twin_trans; [exact P|exact A].
    - split; [exact H|reflexivity].
    - rewrite !rms_eq. destruct (rms_twin l (proj1 (proj2 H))) as [A B].
      destruct (rms (fd_matches f) l) as [c y], (rms (fd_matches f') l) as [c' y']. cbn [fst snd] in A, B. subst y'.
      destruct y; [split; [apply twins_with_matches; assumption|reflexivity]|reflexivity].
    - split; [exact H|reflexivity].
    - split; [exact H|reflexivity].
    - cbn [as_behav b_then]. destruct (perform_twin (pl_then u (S (S r)) x) H) as [A B].
      destruct (perform (pl_then u (S (S r)) x) f) as [g y], (perform (pl_then u (S (S r)) x) f') as [g' y']. cbn [fst snd] in A, B. subst y'.
      destruct y; [split; [exact B|reflexivity]|reflexivity].
  Qed.
  Lemma rule_same r f f' : twins f f' -> same_end (execute_rule (bh o1) r f) (execute_rule (bh o2) r f').
  Proof.
    intro H. unfold execute_rule. change (b_enabled (bh o2) r) with (b_enabled (bh o1) r).
    destruct (b_enabled (bh o1) r); [|split; [exact H|reflexivity]].
    pose proof (when_same r H) as W. destruct (b_when (bh o1) r f) as [g [x|e]], (b_when (bh o2) r f') as [g' [x'|e']]; cbn [same_end] in W; try contradiction; [|exact W].
    destruct W as [W ->]. change (b_truthy (bh o2) x') with (b_truthy (bh o1) x'). destruct (b_truthy (bh o1) x'); [|split; [exact W|reflexivity]].
    pose proof (then_same r x' W) as V. destruct (b_then (bh o1) r g x') as [h [y|e]], (b_then (bh o2) r g' x') as [h' [y'|e']]; cbn [same_end] in V; try contradiction; [|exact V].
    split; [apply V|reflexivity].
  Qed.
  Lemma exec_same l : forall f f', twins f f' -> same_end (exec (bh o1) l f) (exec (bh o2) l f').
  Proof.
    induction l as [|r l IH]; intros f f' H; cbn [exec]; [split; [exact H|reflexivity]|].
    pose proof (rule_same r H) as W. destruct (execute_rule (bh o1) r f) as [g [x|e]], (execute_rule (bh o2) r f') as [g' [x'|e']]; cbn [same_end] in W; try contradiction; [|exact W].
    destruct W as [W ->]. specialize (IH _ _ W). destruct (exec (bh o1) l g) as [h [y|e]], (exec (bh o2) l g') as [h' [y'|e']]; cbn [same_end] in IH; try contradiction; [|exact IH].
    destruct IH as [IH ->]. split; [exact IH|reflexivity].
  Qed.
End Orders.

(** ** C119 *)
Section C119.
  Context {Ctx R : Type} (env : renv) (solvers : nat -> mtch -> mtch -> verdict) (user : Ctx -> played R)
          (isinst : pyval -> nat -> bool) (check : bool) (r : rb Ctx).
  (** [r.matches(input, ctx)] when the sets of rules are iterated in the order [rules_order] and
      the set of matches to remove in the order [removal_order], followed by anything the caller
      does with what it got; the outcome of the whole *)
  Definition then_do {A} rules_order removal_order (ctx : Ctx) (input : pstr) (caller : play A) : res A :=
    match rb_matches env rules_order (fun c => with_defaults solvers removal_order (as_behav (user c))) isinst check r ctx input with
    | Ok f => snd (perform caller f)
    | Err e => Err e
    end.
  Theorem C119_seed_independent : forall A rules1 rules2 removal1 removal2 ctx input (caller : play A),
    iteration_order rules1 -> iteration_order rules2 -> an_order removal1 -> an_order removal2 ->
    then_do rules1 removal1 ctx input caller = then_do rules2 removal2 ctx input caller.
  Proof.
    intros A rules1 rules2 removal1 removal2 ctx input caller P1 P2 Q1 Q2. unfold then_do, rb_matches. cbv zeta.
    destruct (matches_patterns _ _ _ _) as [f1|e]; [|reflexivity].
    destruct (if check then check_declared_keys isinst (fd_keys f1) (fd_matches f1) else Ok tt); [|reflexivity].
    unfold execute_rules. destruct (rb_disabled r ctx); [reflexivity|].
    rewrite (C29_rule_order env (with_defaults solvers removal2 (as_behav (user ctx))) (effective_rules env ctx r) f1 P2 P1).
    unfold execute_all_rules. destruct (schedule env rules1 (effective_rules env ctx r)) as [l fin].
    pose proof (exec_same solvers (user ctx) Q1 Q2 l (twins_refl f1)) as W.
    destruct (exec _ l f1) as [g [x|e]], (exec _ l f1) as [g' [x'|e']]; cbn [same_end] in W; try contradiction; [|rewrite W; reflexivity].
    destruct fin as [v|e]; [|reflexivity]. apply perform_twin, W.
  Qed.
End C119.

(** in particular, the contents of the matches and of the markers, and what any sequence of
    calls on them returns afterwards, are the same *)
Fixpoint calls (ops : list (which * op)) (k : list out -> play (list out)) : play (list out) :=
  match ops with
  | [] => k []
  | (w, o) :: r => Call w o (fun x => calls r (fun xs => k (x :: xs)))
  end.
Section C119_contents.
  Context {Ctx R : Type} (env : renv) (solvers : nat -> mtch -> mtch -> verdict) (user : Ctx -> played R)
          (isinst : pyval -> nat -> bool) (check : bool) (r : rb Ctx).
  Definition answers rules_order removal_order ctx input ops := then_do env solvers user isinst check r rules_order removal_order ctx input (calls ops (@Return _)).
  Definition contents_after rules_order removal_order ctx input :=
    then_do env solvers user isinst check r rules_order removal_order ctx input
            (Contents OnMatches (fun l => Contents OnMarkers (fun l' => Return (l, l')))).
  Theorem C119_same_contents : forall rules1 rules2 removal1 removal2 ctx input ops,
    iteration_order rules1 -> iteration_order rules2 -> an_order removal1 -> an_order removal2 ->
    contents_after rules1 removal1 ctx input = contents_after rules2 removal2 ctx input
    /\ answers rules1 removal1 ctx input ops = answers rules2 removal2 ctx input ops.
  Proof. intros. split; apply C119_seed_independent; assumption. Qed.
End C119_contents.

(** ** A concrete case
    Two matches are removed by the conflict solver, one of them at the end of the string.  The
    order of the removals shows in the state of the collection (in one order the dictionary of
    ends is built while the other match is still there and keeps its key), not in any answer. *)
Definition sd_pat : pat unit :=
  Pat 0 (fun _ => false) (fun _ n _ => Ok (n, ([mk_match 1 0 4; mk_match 2 1 3; mk_match 3 6 10; mk_match 4 7 10], []))) (PInfo None [] [] false false [] false ShFunctional).
(** the user rule 2 looks at [matches.ending(3)] and appends a match if there is none *)
Definition sd_user : played bool :=
  Played (fun _ => true) (fun _ => Call OnMatches (OEnding 3) (fun x => Return (match x with RList [] => true | _ => false end)))
         (fun _ _ => NewObject (fun n => Call OnMatches (OAppend (mk_match n 2 3)) (fun _ => Return tt))) (fun b => b).
Definition sd_rb : rb unit := Rb (fun _ => false) [sd_pat] [0; 1; 2]%nat [] [].
Definition sd_matches order := rb_matches default_env (fun l => l) (fun _ => with_defaults (fun _ _ _ => VDefault) order (as_behav sd_user)) (fun _ _ => true) true sd_rb tt [].
Example C119_case : iteration_order (fun l : list nat => l) /\ an_order (fun l => l) /\ an_order (@rev mtch)
  /\ sd_matches (fun l => l) <> sd_matches (@rev mtch)
  /\ contents_after default_env (fun _ _ _ => VDefault) (fun _ => sd_user) (fun _ _ => true) true sd_rb (fun l => l) (@rev mtch) tt []
     = Ok ([mk_match 1 0 4; mk_match 3 6 10; mk_match 0 2 3], []).
Proof.
  split; [intro l; reflexivity|]. split; [intro l; reflexivity|]. split; [intro l; apply Permutation_rev|]. split.
  - intro E. apply (f_equal (fun r => match r with Ok f => match c_ending (fd_matches f) with Some d => dkeys d | None => [] end | Err _ => [] end)) in E.
    vm_compute in E. discriminate E.
  - vm_compute. reflexivity.
Qed.

(** ** C119 The objects a rule creates: the identities taken while a computation runs are new *)
Fixpoint made_by {A} (p : play A) (f : found) : list nat :=
  match p with
  | Return _ | Raise _ => []
  | Call w o k => let '(c, r) := step (part_of w f) o in made_by (k r) (with_part w f c)
  | Contents w k => made_by (k (c_del (part_of w f))) f
  | MaxEnd w k => made_by (k (max_end (part_of w f))) f
  | DeclaredKeys k => made_by (k (fd_keys f)) f
  | NewObject k => fd_next f :: made_by (k (fd_next f)) (with_next f (S (fd_next f)))
  | SetAttr id g k => made_by k (with_markers (with_matches f (assign id g (fd_matches f))) (assign id g (fd_markers f)))
  end.
Theorem C119_new_objects : forall A (p : play A) f,
  NoDup (made_by p f) /\ (forall i, In i (made_by p f) -> (fd_next f <= i < fd_next (fst (perform p f)))%nat)
  /\ (fd_next f <= fd_next (fst (perform p f)))%nat.
Proof.
  intros A p. induction p as [x|e|w o k IH|w k IH|w k IH|k IH|k IH|id g k IH]; intro f; cbn [made_by perform].
  1, 2: cbn; repeat split; [constructor | contradiction | contradiction | lia].
  - destruct (step (part_of w f) o) as [c r]. specialize (IH r (with_part w f c)). destruct w; exact IH.
  - apply IH.
  - apply IH.
  - apply IH.
  - destruct (IH (fd_next f) (with_next f (S (fd_next f)))) as (N & I & L).
    change (fd_next (with_next f (S (fd_next f)))) with (S (fd_next f)) in *.
    split; [|split].
    + constructor; [|exact N]. intro H. specialize (I _ H). lia.
    + intros i [<- | H]; [lia|]. specialize (I _ H). lia.
    + lia.
  - exact (IH (with_markers (with_matches f (assign id g (fd_matches f))) (assign id g (fd_markers f)))).
Qed.
Example C119_new_objects_case :
  made_by (NewObject (fun n => NewObject (fun m => Call OnMatches (OAppend (mk_match m 2 3)) (fun _ => NewObject (fun k => Return (n, m, k))))))
          (Found 5 (empty_coll KMatches (Some [])) (empty_coll KMarkers (Some [])) []) = [5; 6; 7]%nat.
Proof. vm_compute. reflexivity. Qed.
