(** * C141 for objects assembled by programs of builder calls *)
From Coq Require Import Permutation ZifyBool.
From Coq Require String. Export Coq.Strings.String.StringSyntax.
From Verif Require Import Typed Base BaseFacts Match Spec CollHist Coll Pattern PatternFacts PropsPattern Chain SpecChain PropsChain Rules Processors PropsProc PropsRules PropsEngine Rebulk RebulkFacts PropsRebulk Pipeline PropsPipeline
  SpecNest PropsNest SpecOnce PropsOnce PropsInside PropsAssemble PropsTotal PropsTotalChain Fluent PropsFluent Built PropsBuilt.
Set Implicit Arguments.
Unset Strict Implicit.
Open Scope string_scope.
Open Scope list_scope.
Open Scope nat_scope.

(** the call builds nothing that finds markers *)
Definition builds_no_marker (k : call made) : Prop :=
  match k with
  | KAdd (Ok (Leaf p src)) => not_markers (CPattern p src)
  | KChain (Ok (Opened p b)) => mo_marker (po_kw p) <> Some true
  | _ => True
  end.
Lemma written_peaceful ops : Forall (fun a => builds_no_marker (snd a)) ops -> forall k o x t, In x (added_to o (se_log (session_of ops))) ->
  match x with CChain n => w_count (se_world (session_of ops)) <= k + n | CLeaf _ => True end -> written (se_log (session_of ops)) x t -> peaceful t /\ not_markers t.
Proof.
  intro S. assert (forall e, In e (se_log (session_of ops)) -> builds_no_marker (ev_call e)) as L.
  { intros e He. destruct (log_calls He) as (o & Ho & ->). rewrite Forall_forall in S. apply S, Ho. }
  assert (forall p src, not_markers (CPattern p src) -> peaceful (CPattern p src)) as Q.
  { intros p src [N _]. constructor. destruct src; [exact Logic.I|intro M; congruence|exact Logic.I]. }
  induction k as [|k IH]; intros o x t Hx Hn W; destruct W as [p src|h n p b parts He Hl Hp].
  1,3: unfold added_to in Hx; apply in_flat_map in Hx as (e & He & Hx); destruct (same_owner _ o); [|destruct Hx]; pose proof (L e He) as T; unfold added in Hx;
      destruct (ev_call e) as [[a|y]|[a|y]|v|bb|]; destruct (ev_result e) as [[|c|c j]|e']; simpl in Hx; try contradiction; destruct Hx as [Hx|[]]; try discriminate; injection Hx as ->; cbn [builds_no_marker] in T; (split; [apply Q, T|exact T]).
  - destruct (nested_later Hx) as [B _]. lia.
  - pose proof (L _ He) as T. cbn [ev_call builds_no_marker] in T. split; [|exact T]. apply peaceful_chain. intros t a b' hidden Ht.
    apply In_nth_error in Ht as (i & Ht). assert (i < length parts) as Hi by (apply nth_error_Some; congruence).
    destruct (nth_error (added_to (Some n) (se_log (session_of ops))) i) as [x|] eqn:Ex; [|apply nth_error_None in Ex; lia].
    destruct (Hp i x _ Ex Ht) as [P1 _]. pose proof (nth_error_In _ _ Ex) as Hin. cbn [fst] in P1.
    destruct (IH (Some n) x t Hin) as [A1 A2]; [|exact P1|auto]. destruct x as [|q]; [exact Logic.I|]. destruct (nested_later Hin) as [_ Q1]. specialize (Q1 n eq_refl). lia.
Qed.

(** Whatever the program of builder calls (chains within chains, calls on earlier builders, calls that fail), with the default
    rules: [matches] returns, or raises AssertionError; and it returns when no call builds a marker. *)
Theorem C141_built : forall Ctx R (ctx : Ctx) info keys ops perm solvers order (user : Ctx -> behav found R) isinst input,
  iteration_order perm -> an_order order -> loyal solvers -> Forall (fun a => searchable (snd a)) ops ->
  let answer := rb_matches default_env perm (fun c => with_defaults solvers order (user c)) isinst false (assembled info default_rules keys (se_world (session_of ops))) ctx input in
  (forall e, answer = Err e -> e = AssertionError)
  /\ (Forall (fun a => builds_no_marker (snd a)) ops -> exists f, answer = Ok f).
Proof.
  intros Ctx R ctx info keys ops perm solvers order user isinst input Hp Ho Ly S answer.
  set (r := assembled info default_rules keys (se_world (session_of ops)) : rb Ctx) in *.
  assert (T : Forall (fun a => well_typed (snd a)) ops).
  { eapply Forall_impl; [|exact S]. intros [i k]. cbn [snd]. destruct k as [[[]|]|[[]|]|v|b|]; simpl; auto. }
  assert (forall pt, In pt (effective_patterns ctx r) -> exists c, (forall ctx n t, pt_match pt ctx n t = tree_matches c n t) /\ well_made c
    /\ (Forall (fun a => builds_no_marker (snd a)) ops -> peaceful c)) as P.
  { intros pt Hpt. cbn in Hpt. apply number_from_In in Hpt as (j & t & Ht & ->). exists t. split; [reflexivity|].
    apply in_map_iff in Ht as (x & <- & Hx). change (w_root (se_world (session_of ops))) with (contents (se_world (session_of ops)) None) in Hx. rewrite C76_added_in_order in Hx.
    assert (K : match x with CChain n => w_count (se_world (session_of ops)) <= w_count (se_world (session_of ops)) + n | CLeaf _ => True end) by (destruct x; [exact Logic.I|lia]).
    pose proof (tree_written T Hx K) as W. split; [exact (written_well_made S Hx K W)|]. intro N. apply (@written_peaceful ops N _ _ _ _ Hx K W). }
  destruct (default_frame Hp) as (D1 & D2 & D3).
  destruct (@C141_matches Ctx R ctx r default_env perm solvers order user isinst input [] [0; 1] Hp D1 D2 Ho Ly eq_refl eq_refl (Forall_nil _)) as [M1 M2].
  - change (effective_rules default_env ctx r) with default_rules. reflexivity.
  - change (effective_rules default_env ctx r) with default_rules. exact D3.
  - reflexivity.
  - intros u [].
  - intros pt Hpt. destruct (P pt Hpt) as (c & I & W & _). exists c. split; [exact W|exact I].
  - fold answer in M1, M2. split; [exact M1|]. intro N. apply M2. intros pt Hpt _. destruct (P pt Hpt) as (c & I & W & Q). exists c. split; [exact W|]. split; [auto|exact I].
Qed.
Example C141_built_case : Forall (fun a => searchable (snd a)) some_ops /\ Forall (fun a => builds_no_marker (snd a)) some_ops.
Proof. split; [apply C131_case|]. repeat (apply Forall_cons; [cbn; (split; [discriminate|exact Logic.I]) || discriminate || exact Logic.I|]). apply Forall_nil. Qed.
Print Assumptions C141_built.
