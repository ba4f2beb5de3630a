(** * C135 (continued): Rebulk objects with sub-Rebulks, each built by a program of its own *)
From Coq Require Import Permutation.
From Verif Require Import Typed PropsTyped Base BaseFacts Match MatchFacts Coll CollFacts Loose Conseq ConseqFacts Processors ProcFacts Pattern PatternFacts PropsLoose PropsPattern Topo Rules RulesFacts PropsRules Chain SpecChain PropsChain Builder BuilderFacts PropsBuilder PropsKeys Rebulk RebulkFacts PropsRebulk Pipeline SpecNest SpecOnce OnceFacts PropsOnce PropsInside Assemble PropsAssemble SpecMoved PropsMoved PropsParts Fluent PropsFluent Built PropsBuilt Site PropsSite.
From Coq Require String.
Export Coq.Strings.String.StringSyntax.
Open Scope string_scope.
Open Scope list_scope.
Set Implicit Arguments.
Unset Strict Implicit.
Open Scope Z_scope.

(** ** Specification *)
(** a program: what its callables do, the dictionaries it has at first and the calls it makes *)
Record program := Program {
  pg_callables : callables;
  pg_breakers : pyval -> list mtch -> bool;
  pg_lower : pstr -> pstr;
  pg_captures : bool;
  pg_heap : heap;
  pg_calls : list (nat * scall)
}.
Definition site_by (g : program) : site := site_of (pg_callables g) (pg_breakers g) (pg_lower g) (pg_captures g) (pg_heap g) (pg_calls g).
Definition plain (g : program) : Prop := Forall (fun a => plain_call (pg_heap g) (snd a)) (pg_calls g).
(** rebulk.py:80-118 and 128-136: the object the program builds; its patterns are the objects [first], [first]+1, ... *)
Definition object_by {Ctx} (g : program) (first : nat) (disabled : Ctx -> bool) (info : pinfo) (rules : list nat) (keys : dict pstr key) (subs : list (rb Ctx)) : rb Ctx :=
  let w := se_world (si_session (site_by g)) in
  Rb disabled (number_from (tree_pattern info) first (map (tree_of (w_count w) w) (w_root w))) rules keys subs.
(** the match shows what the program gave *)
Definition shown_by (g : program) (input : pstr) (m : mtch) : Prop := displays (pg_callables g) (si_log (site_by g)) None input m.
(** [r] is the object of some program among [gs], its own sub-Rebulks being whatever they are *)
Definition object_of {Ctx} (g : program) (r : rb Ctx) : Prop := exists first disabled info rules keys subs, r = object_by g first disabled info rules keys subs.

(** ** Proof *)
Lemma object_displays Ctx (ctx : Ctx) g (r : rb Ctx) p n input n' outs raws m : plain g -> object_of g r -> In p (rb_patterns r) ->
  pt_match p ctx n input = Ok (n', (outs, raws)) -> In m outs -> shown_by g input m.
Proof.
  intros P (first & dis & info & rules & keys & subs & ->) Hp Ep Ho. cbn [object_by rb_patterns] in Hp. apply number_from_In in Hp as (j & t & Ht & ->). cbn [tree_pattern pt_match] in Ep.
  pose proof (site_ok (pg_callables g) (pg_breakers g) (pg_lower g) (pg_captures g) P) as O. fold (site_by g) in O. destruct (ok_session O) as (fops & T & Ef).
  apply in_map_iff in Ht as (x & <- & Hx). change (w_root (se_world (si_session (site_by g)))) with (contents (se_world (si_session (site_by g))) None) in Hx.
  rewrite Ef, C76_added_in_order in Hx. rewrite <- Ef in Hx.
  assert (written (se_log (si_session (site_by g))) x (tree_of (w_count (se_world (si_session (site_by g)))) (se_world (si_session (site_by g))) x)) as Wr.
  { rewrite Ef in Hx |- *. apply (tree_written T Hx). destruct x; [exact I|lia]. }
  refine (tree_displays O (k := w_count (se_world (si_session (site_by g)))) Hx _ Wr Ep Ho). destruct x; [exact I|lia].
Qed.

(** Every match returned shows what the program of the object, or the program of one of its sub-Rebulks that is not disabled in
    this context, gave *)
Theorem C135_sub_rebulks : forall Ctx R (ctx : Ctx) (r : rb Ctx) g gs env perm solvers order (user : Ctx -> behav found R) isinst check input f m,
  plain g -> object_of g r -> Forall2 (fun h sub => plain h /\ object_of h sub) gs (rb_children r) ->
  (forall u, adds_nothing (user ctx) u) ->
  rb_matches env perm (fun c => with_defaults solvers order (user c)) isinst check r ctx input = Ok f ->
  In m (all_found f) ->
  shown_by g input m \/ exists i h sub, nth_error gs i = Some h /\ nth_error (rb_children r) i = Some sub /\ rb_disabled sub ctx = false /\ shown_by h input m.
Proof.
  intros Ctx R ctx r g gs env perm solvers order user isinst check input f m P Og F Hu E Hm.
  destruct (returned_found Hu E Hm) as (p & n & n' & outs & raws & Hp & Ep & Ho).
  destruct (C86_contributions ctx r env) as (EP & _). rewrite EP in Hp. apply in_app_or in Hp as [Hp|Hp]; [left; exact (object_displays P Og Hp Ep Ho)|right].
  assert (forall l seen, In p (firsts pat_eq seen l) -> In p l) as X.
  { clear. induction l as [|x l IH]; intros seen H; [exact H|]. cbn [firsts] in H. destruct (existsb _ _); [right; eauto|]. destruct H as [->|H]; [now left|right; eauto]. }
  apply X in Hp. apply in_flat_map in Hp as (sub & Hs & Hp). unfold enabled_children in Hs. apply filter_In in Hs as [Hs D]. apply negb_true_iff in D.
  apply In_nth_error in Hs as (i & Hi). assert (i < length gs)%nat as L. { assert (i < length (rb_children r))%nat by (apply nth_error_Some; congruence). clear - F H. assert (length gs = length (rb_children r)) by (clear - F; induction F; cbn [length]; congruence). lia. }
  destruct (nth_error gs i) as [h|] eqn:Eh; [|apply nth_error_None in Eh; lia].
  assert (plain h /\ object_of h sub) as [Ph Oh]. { clear - F Eh Hi. revert i Eh Hi. induction F as [|a b l l' H F IH]; intros [|i] Eh Hi; try discriminate; cbn [nth_error] in *; [injection Eh as <-; injection Hi as <-; exact H|eauto]. }
  exists i, h, sub. repeat (split; [assumption|]). exact (object_displays Ph Oh Hp Ep Ho).
Qed.
(** Case: the program of C135_case as a sub-Rebulk of an object with a pattern of its own; another sub-Rebulk is disabled *)
Definition site_program : program := Program some_callables (fun _ _ => false) (fun x => x) false (Heap 0 (fun _ => [])) some_site.
Definition own_program : program := Program some_callables (fun _ _ => false) (fun x => x) false (Heap 0 (fun _ => [])) [(0%nat, SPattern NoKey [(s "name", BVal (VStr (s "own")))] (GString [s " "]))].
Definition off_program : program := Program some_callables (fun _ _ => false) (fun x => x) false (Heap 0 (fun _ => [])) [(0%nat, SPattern NoKey [(s "name", BVal (VStr (s "off")))] (GString [s "a"]))].
Definition object_with_subs : rb unit :=
  object_by own_program 0 (fun _ => false) no_info default_rules []
    [object_by site_program 10 (fun _ => false) no_info [] [] []; object_by off_program 20 (fun _ => true) no_info [] [] []].
Example C135_sub_rebulks_case :
  plain own_program /\ plain off_program /\ plain site_program
  /\ object_of own_program object_with_subs /\ Forall2 (fun h sub => object_of h sub) [site_program; off_program] (rb_children object_with_subs)
  /\ match rb_matches default_env (fun l => l) (fun _ => with_defaults (fun _ _ _ => VDefault) (fun l => l) idle) (fun _ _ => true) true object_with_subs tt (s "aa1 z") with
     | Ok f => map (fun m => (m_span m, m_name m, m_tags m)) (all_found f)
     | Err _ => []
     end = [((3, 4), Some (s "own"), []); ((0, 3), Some (s "all"), [s "a"]); ((4, 5), None, [s "late"])].
Proof.
  assert (P : forall n b, plain (Program some_callables (fun _ _ => false) (fun x => x) false (Heap 0 (fun _ => [])) [(0%nat, SPattern NoKey [(s "name", BVal (VStr n))] (GString [b]))])).
  { intros n b. unfold plain. cbn [pg_calls pg_heap]. constructor; [|constructor]. cbn [snd plain_call]. 
    repeat split; [repeat constructor; intros []|intros a []|intros k _ x E; apply dfind_In in E; destruct E as [E|[]]; discriminate]. }
  split; [apply P|]. split; [apply P|]. split; [exact (proj1 C135_case)|]. split; [unfold object_of; repeat eexists|]. split; [|vm_compute; reflexivity].
  repeat constructor; unfold object_of; repeat eexists.
Qed.
Print Assumptions C135_sub_rebulks.
