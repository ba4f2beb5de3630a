(** * Property C131: what a fluently built Rebulk object searches *)
From Coq Require Import Permutation.
From Coq Require String. Export Coq.Strings.String.StringSyntax.
From Verif Require Import Typed Base BaseFacts Match Coll Pattern PatternFacts PropsPattern Chain SpecChain PropsChain Rules Processors Rebulk RebulkFacts PropsRebulk Pipeline PropsPipeline
  SpecNest PropsNest SpecOnce PropsOnce PropsInside PropsAssemble Fluent PropsFluent Built.
Set Implicit Arguments.
Unset Strict Implicit.
Open Scope string_scope.
Open Scope list_scope.
Open Scope nat_scope.

(** ** Specification: the tree the calls describe *)
(** the bounds and the visibility of the part number [i] of the chain [n]: once, unless repeater() was called on it; shown, unless the last hidden() says so *)
Definition asked_for (log : list (event made)) (n i : nat) : Z * option Z * bool :=
  let r := fold_left (fun r v => repeater v r) (repeaters_on n i log) (1%Z, Some 1%Z) in (fst r, snd r, last (hiddens_on n i log) false).
Inductive written (log : list (event made)) : content made -> ctree -> Prop :=
| written_leaf p src : written log (CLeaf (Leaf p src)) (CPattern p src)
| written_chain h n p b parts :
    In (Event h (KChain (Ok (Opened p b))) (Ok (HBuilder n))) log ->
    length parts = length (added_to (Some n) log) ->
    (forall i x t, nth_error (added_to (Some n) log) i = Some x -> nth_error parts i = Some t -> written log x (fst t) /\ snd t = asked_for log n i) ->
    written log (CChain n) (SpecNest.CChain p b parts).
(** regex(), string() and functional() build patterns, chain() opens a chain *)
Definition well_typed (k : call made) : Prop := match k with KAdd (Ok (Opened _ _)) | KChain (Ok (Leaf _ _)) => False | _ => True end.

(** ** Proofs *)
Lemma nth_error_ext {A} : forall l l' : list A, (forall i, nth_error l i = nth_error l' i) -> l = l'.
Proof.
  induction l as [|x l IH]; intros [|y l'] H; [reflexivity|specialize (H 0); discriminate|specialize (H 0); discriminate|].
  pose proof (H 0) as H0. injection H0 as ->. f_equal. apply IH. intro i. exact (H (S i)).
Qed.
Section Session.
  Variable ops : list (nat * call made).
  Hypothesis typed : Forall (fun o => well_typed (snd o)) ops.
  Let w := se_world (session_of ops).
  Let log := se_log (session_of ops).

  Lemma step_options (w0 : world made) h k w' r : step w0 h k = (w', r) ->
    match k, r with
    | KChain (Ok a), Ok (HBuilder n) => n = w_count w0 /\ w_count w' = S n /\ w_options w' = (fun x => if Nat.eqb x n then Some a else w_options w0 x)
    | KChain (Ok a), Ok _ => False
    | _, _ => w_count w' = w_count w0 /\ w_options w' = w_options w0
    end.
  Proof.
    intro E. assert (B : forall c, builder_call w0 c k = (w', r) ->
      match k, r with
      | KChain (Ok a), Ok (HBuilder n) => n = w_count w0 /\ w_count w' = S n /\ w_options w' = (fun x => if Nat.eqb x n then Some a else w_options w0 x)
      | KChain (Ok a), Ok _ => False
      | _, _ => w_count w' = w_count w0 /\ w_options w' = w_options w0
      end).
    { intros c. destruct k as [[a|e]|[a|e]|v|b|]; simpl; intros [= <- <-]; simpl; auto. }
    destruct h as [|c|c i]; simpl in E; [|apply (B c E)|].
    - destruct k as [[a|e]|[a|e]|v|b|]; simpl in E; injection E as <- <-; simpl; auto.
    - destruct k as [[a|e]|[a|e]|v|b|]; try (apply (B c E)); simpl in E; injection E as <- <-; simpl; auto.
  Qed.
  Lemma chains_opened :
    (forall h a n, In (Event h (KChain (Ok a)) (Ok (HBuilder n))) log -> n < w_count w /\ w_options w n = Some a)
    /\ (forall n, n < w_count w -> exists h a, In (Event h (KChain (Ok a)) (Ok (HBuilder n))) log).
  Proof.
    subst w log. clear typed. induction ops as [|op l IH] using rev_ind; [split; [intros h a n []|intros n H; inversion H]|].
    rewrite session_snoc. unfold act. destruct (step (se_world (session_of l)) (nth (fst op) (se_held (session_of l)) HRoot) (snd op)) as [w' r] eqn:E.
    cbn [se_world se_log]. apply step_options in E. destruct IH as [I1 I2]. split.
    - intros h a n H. apply in_app_or in H as [H|[H|[]]].
      + apply I1 in H as [H1 H2]. destruct (snd op) as [[a'|e]|[a'|e]|v|b|]; destruct r as [[|c|c j]|e']; try (destruct E as [-> ->]; auto); try contradiction.
        destruct E as (-> & -> & ->). split; [lia|]. destruct (Nat.eqb_spec n (w_count (se_world (session_of l)))); [lia|assumption].
      + injection H as _ Hk Hr. rewrite Hk, Hr in E. destruct E as (-> & -> & ->). split; [lia|]. rewrite Nat.eqb_refl. reflexivity.
    - intros n H. destruct (snd op) as [[a'|e]|[a'|e]|v|b|] eqn:Ek; destruct r as [[|c|c j]|e']; try contradiction;
        try (destruct E as [E _]; rewrite E in H; destruct (I2 n H) as (h & a & X); exists h, a; apply in_or_app; left; exact X).
      destruct E as (-> & E & _). rewrite E in H. destruct (Nat.eq_dec n (w_count (se_world (session_of l)))) as [->|N].
      + exists (nth (fst op) (se_held (session_of l)) HRoot), a'. apply in_or_app. right. left. reflexivity.
      + destruct (I2 n) as (h & a & X); [lia|]. exists h, a. apply in_or_app. left. exact X.
  Qed.
  Lemma log_calls e : In e log -> exists o, In o ops /\ ev_call e = snd o.
  Proof.
    subst log. clear typed. induction ops as [|op l IH] using rev_ind; [intros []|]. rewrite session_snoc. unfold act.
    destruct (step _ _ _) as [w' r]. cbn [se_log]. intro H. apply in_app_or in H as [H|[<-|[]]].
    - destruct (IH H) as (o & Ho & Eo). exists o. split; [apply in_or_app; left; exact Ho|exact Eo].
    - exists op. split; [apply in_or_app; right; left; reflexivity|reflexivity].
  Qed.
  Lemma log_typed e : In e log -> well_typed (ev_call e).
  Proof. intro H. destruct (log_calls H) as (o & Ho & ->). rewrite Forall_forall in typed. apply typed, Ho. Qed.
  Lemma leaf_typed o a : In (CLeaf a) (added_to o log) -> exists p src, a = Leaf p src.
  Proof.
    intro H. unfold added_to in H. apply in_flat_map in H as (e & He & H). destruct (same_owner _ o); [|destruct H].
    pose proof (log_typed He) as T. unfold added in H. destruct (ev_call e) as [[[p src|p b]|x]|[a'|x]|v|b|]; destruct (ev_result e) as [[|c|c j]|e']; simpl in H, T; try contradiction;
      destruct H as [H|[]]; try discriminate; injection H as <-; eauto.
  Qed.
  Lemma nested_later o n : In (CChain n) (added_to o log) -> n < w_count w /\ forall c, o = Some c -> c < n.
  Proof.
    intro H. subst w log. rewrite <- C76_added_in_order in H. pose proof (contents_bound H) as B. split; [exact B|].
    destruct (C76_tree B) as (o' & before & after & _ & _ & _ & U & L & _). apply U in H. subst o'. exact L.
  Qed.
  Lemma part_at n i q : nth_error (w_parts w n) i = Some q -> nth_error (added_to (Some n) log) i = Some (fp_content q).
  Proof. intro H. subst w log. rewrite <- C76_added_in_order. cbn [contents]. apply map_nth_error, H. Qed.

  Lemma tree_written : forall fuel o x, In x (added_to o log) -> match x with CChain n => w_count w <= fuel + n | CLeaf _ => True end -> written log x (tree_of fuel w x).
  Proof.
    induction fuel as [|fuel IH]; intros o [a|n] Hx Hn.
    - destruct (leaf_typed Hx) as (p & src & ->). constructor.
    - destruct (nested_later Hx) as [B _]. lia.
    - destruct (leaf_typed Hx) as (p & src & ->). constructor.
    - destruct (nested_later Hx) as [B _]. destruct chains_opened as [C1 C2]. destruct (C2 n B) as (h & a & He). destruct (C1 _ _ _ He) as [_ Eo].
      pose proof (log_typed He) as T. cbn [ev_call] in T. destruct a as [p src|p b]; [destruct T|]. cbn [tree_of]. rewrite Eo.
      apply written_chain with (h := h); [exact He| |].
      + rewrite map_length. subst w log. rewrite <- C76_added_in_order. cbn [contents]. now rewrite map_length.
      + intros i x t Ex Et. rewrite nth_error_map in Et. destruct (nth_error (w_parts w n) i) as [q|] eqn:Eq; [|discriminate]. injection Et as <-.
        rewrite (part_at Eq) in Ex. injection Ex as <-. cbn [fst snd]. split.
        * apply (IH (Some n)); [exact (nth_error_In _ _ (part_at Eq))|]. destruct (fp_content q) as [a|m] eqn:Ec; [exact I|].
          assert (In (CChain m) (added_to (Some n) log)) as Hm by (rewrite <- Ec; exact (nth_error_In _ _ (part_at Eq))).
          destruct (nested_later Hm) as [_ L]. specialize (L n eq_refl). lia.
        * destruct (C76_settings Eq) as [S1 S2]. unfold asked_for. cbv zeta. subst log. unfold default_repeater in S1. rewrite <- S1, <- S2. reflexivity.
  Qed.
  Lemma written_once : forall k o x t t', In x (added_to o log) -> match x with CChain n => w_count w <= k + n | CLeaf _ => True end -> written log x t -> written log x t' -> t = t'.
  Proof.
    induction k as [|k IH]; intros o x t t' Hx Hn W W'; destruct W as [p src|h n p b parts He Hl Hp]; inversion W' as [|h' n' p' b' parts' He' Hl' Hp']; subst; try reflexivity; destruct (nested_later Hx) as [B _]; [lia|].
    destruct chains_opened as [C1 _]. destruct (C1 _ _ _ He) as [_ E1]. destruct (C1 _ _ _ He') as [_ E2]. rewrite E1 in E2. injection E2 as <- <-. f_equal.
    apply nth_error_ext. intro i. destruct (nth_error (added_to (Some n) log) i) as [x|] eqn:Ex.
    - assert (i < length (added_to (Some n) log)) as Hi by (apply nth_error_Some; congruence).
      destruct (nth_error parts i) as [[t s]|] eqn:Et; [|apply nth_error_None in Et; lia].
      destruct (nth_error parts' i) as [[t' s']|] eqn:Et'; [|apply nth_error_None in Et'; lia].
      destruct (Hp i x _ Ex Et) as [P1 P2]. destruct (Hp' i x _ Ex Et') as [P1' P2']. cbn [fst snd] in *. f_equal. f_equal; [|congruence].
      pose proof (nth_error_In _ _ Ex) as Hin. apply (IH (Some n) x); try assumption. destruct x as [|m]; [exact I|]. destruct (nested_later Hin) as [_ L]. specialize (L n eq_refl). lia.
    - apply nth_error_None in Ex. assert (nth_error parts i = None) as -> by (apply nth_error_None; lia). symmetry. apply nth_error_None. lia.
  Qed.
End Session.

(** Everything the calls added describes exactly one tree *)
Theorem C131_described : forall ops o x, Forall (fun a => well_typed (snd a)) ops -> In x (added_to o (se_log (session_of ops))) ->
  exists t, written (se_log (session_of ops)) x t /\ forall t', written (se_log (session_of ops)) x t' -> t' = t.
Proof.
  intros ops o x T H. set (k := w_count (se_world (session_of ops))).
  assert (match x with CChain n => w_count (se_world (session_of ops)) <= k + n | CLeaf _ => True end) as K by (destruct x; [exact I|lia]).
  exists (tree_of k (se_world (session_of ops)) x). pose proof (tree_written T H K) as W. split; [exact W|]. intros t' W'. exact (written_once H K W' W).
Qed.
Lemma assembled_described ops ts : Forall (fun a => well_typed (snd a)) ops -> Forall2 (written (se_log (session_of ops))) (added_to None (se_log (session_of ops))) ts ->
  map (tree_of (w_count (se_world (session_of ops))) (se_world (session_of ops))) (w_root (se_world (session_of ops))) = ts.
Proof.
  intros T F. change (w_root (se_world (session_of ops))) with (contents (se_world (session_of ops)) None). rewrite C76_added_in_order.
  assert (forall l, incl l (added_to None (se_log (session_of ops))) -> forall ts, Forall2 (written (se_log (session_of ops))) l ts ->
    map (tree_of (w_count (se_world (session_of ops))) (se_world (session_of ops))) l = ts) as X.
  { induction l as [|x l IH]; intros I us Fu; inversion Fu as [|? t ? us' W Fu']; subst; [reflexivity|]. cbn [map]. f_equal; [|apply IH; [intros y Hy; apply I; right; exact Hy|exact Fu']].
    assert (K : match x with CChain n => w_count (se_world (session_of ops)) <= w_count (se_world (session_of ops)) + n | CLeaf _ => True end) by (destruct x; [exact Logic.I|lia]).
    assert (Hx : In x (added_to None (se_log (session_of ops)))) by (apply I; left; reflexivity).
    exact (written_once Hx K (tree_written T Hx K) W). }
  apply X; [apply incl_refl|exact F].
Qed.
(** [matches]: the Rebulk object assembled by any history of calls, on any of the objects they returned, does what one
    searching the trees described, in the order in which they were added to the root builder, does *)
Theorem C131_matches : forall Ctx R (ctx : Ctx) info rules keys ops ts env perm (bh : Ctx -> behav found R) isinst check input,
  Forall (fun a => well_typed (snd a)) ops ->
  Forall2 (written (se_log (session_of ops))) (added_to None (se_log (session_of ops))) ts ->
  rb_matches env perm bh isinst check (assembled info rules keys (se_world (session_of ops))) ctx input
  = rb_matches env perm bh isinst check (searching info rules keys ts) ctx input.
Proof. intros. unfold assembled. rewrite assembled_described with (ts := ts); auto. Qed.

Lemma number_from_In {A B} (f : nat -> A -> B) l : forall i y, In y (number_from f i l) -> exists j x, In x l /\ y = f j x.
Proof. induction l as [|x l IH]; intros i y H; [destruct H|]. destruct H as [<-|H]; [exists i, x; split; [left|]; reflexivity|]. destruct (IH _ _ H) as (j & z & Hz & E). exists j, z. split; [right; exact Hz|exact E]. Qed.
(** with rules adding nothing, each match returned was found by one of the trees described *)
Theorem C131_found : forall Ctx R (ctx : Ctx) info rules keys ops env perm solvers order (user : Ctx -> behav found R) isinst check input f m,
  Forall (fun a => well_typed (snd a)) ops -> (forall u, adds_nothing (user ctx) u) ->
  rb_matches env perm (fun c => with_defaults solvers order (user c)) isinst check (assembled info rules keys (se_world (session_of ops))) ctx input = Ok f -> In m (all_found f) ->
  exists x t n n' outs raws, In x (added_to None (se_log (session_of ops))) /\ written (se_log (session_of ops)) x t /\ tree_matches t n input = Ok (n', (outs, raws)) /\ In m outs.
Proof.
  intros Ctx R ctx info rules keys ops env perm solvers order user isinst check input f m T Hu E Hm.
  destruct (returned_found Hu E Hm) as (p & n & n' & outs & raws & Hp & Ep & Ho). cbn in Hp. apply number_from_In in Hp as (j & t & Ht & ->). cbn [tree_pattern pt_match] in Ep.
  apply in_map_iff in Ht as (x & <- & Hx). change (w_root (se_world (session_of ops))) with (contents (se_world (session_of ops)) None) in Hx. rewrite C76_added_in_order in Hx.
  exists x, (tree_of (w_count (se_world (session_of ops))) (se_world (session_of ops)) x), n, n', outs, raws. split; [exact Hx|]. split; [|split; assumption].
  apply (tree_written T Hx). destruct x; [exact I|lia].
Qed.
(** what the calls may build for the search to end: no processors; patterns of non-empty text whose groups capture nothing before the
    occurrence; chains which accept everything or refuse empty matches *)
Definition searchable (k : call made) : Prop :=
  match k with
  | KAdd (Ok (Leaf p src)) => no_processor p /\ sound_source src /\ captures_inside src
  | KChain (Ok (Opened p b)) => no_processor p /\ refuses_empty p
  | KAdd (Ok (Opened _ _)) | KChain (Ok (Leaf _ _)) => False
  | _ => True
  end.
Lemma written_well_made ops : Forall (fun a => searchable (snd a)) ops -> forall k o x t, In x (added_to o (se_log (session_of ops))) ->
  match x with CChain n => w_count (se_world (session_of ops)) <= k + n | CLeaf _ => True end -> written (se_log (session_of ops)) x t -> well_made t.
Proof.
  intro S. assert (forall e, In e (se_log (session_of ops)) -> searchable (ev_call e)) as L.
  { intros e He. destruct (log_calls He) as (o & Ho & ->). rewrite Forall_forall in S. apply S, Ho. }
  induction k as [|k IH]; intros o x t Hx Hn W; destruct W as [p src|h n p b parts He Hl Hp].
  1,3: unfold added_to in Hx; apply in_flat_map in Hx as (e & He & Hx); destruct (same_owner _ o); [|destruct Hx]; pose proof (L e He) as T; unfold added in Hx;
      destruct (ev_call e) as [[a|y]|[a|y]|v|bb|]; destruct (ev_result e) as [[|c|c j]|e']; simpl in Hx; try contradiction; destruct Hx as [Hx|[]]; try discriminate; injection Hx as ->; cbn [searchable] in T; destruct T as (T1 & T2 & T3); constructor; assumption.
  - destruct (nested_later Hx) as [B _]. lia.
  - pose proof (L _ He) as T. cbn [ev_call searchable] in T. destruct T as [T1 T2]. constructor; [exact T1|exact T2|]. intros [t s] Ht. cbn [fst].
    apply In_nth_error in Ht as (i & Ht). assert (i < length parts) as Hi by (apply nth_error_Some; congruence).
    destruct (nth_error (added_to (Some n) (se_log (session_of ops))) i) as [x|] eqn:Ex; [|apply nth_error_None in Ex; lia].
    destruct (Hp i x _ Ex Ht) as [P1 _]. pose proof (nth_error_In _ _ Ex) as Hin. apply (IH (Some n) x); try assumption. destruct x as [|q]; [exact I|]. destruct (nested_later Hin) as [_ Q]. specialize (Q n eq_refl). lia.
Qed.
Theorem C131_search_ends : forall Ctx (ctx : Ctx) info rules keys declared ops input, Forall (fun a => searchable (snd a)) ops ->
  matches_patterns ctx input (assembled info rules keys (se_world (session_of ops))) (fresh input declared) <> Err Diverges.
Proof.
  intros Ctx ctx info rules keys declared ops input S.
  assert (T : Forall (fun a => well_typed (snd a)) ops).
  { eapply Forall_impl; [|exact S]. intros [i k]. cbn [snd]. destruct k as [[[]|]|[[]|]|v|b|]; simpl; auto. }
  apply C118_rebulk_search_ends. intros p Hp. cbn in Hp. apply number_from_In in Hp as (j & t & Ht & ->). exists t. split; [|intros c n i; reflexivity].
  apply in_map_iff in Ht as (x & <- & Hx). change (w_root (se_world (session_of ops))) with (contents (se_world (session_of ops)) None) in Hx. rewrite C76_added_in_order in Hx.
  assert (K : match x with CChain n => w_count (se_world (session_of ops)) <= w_count (se_world (session_of ops)) + n | CLeaf _ => True end) by (destruct x; [exact I|lia]).
  apply (written_well_made S Hx K). exact (tree_written T Hx K).
Qed.

(** ** A case: [rb.chain().string("a").repeater("+")], then on its builder [.chain().string("b")], then again on the first builder [.string("c")], and
    [rb.string("d")]; searched in "aabcd" *)
Definition word (id : nat) (t : pstr) : call made := KAdd (Ok (Leaf (plain id) (SString (fun x => x) (StringOpts None None false) [t]))).
Definition some_ops : list (nat * call made) :=
  [(0, KChain (Ok (Opened (plain 1) None))); (1, word 2 (s "a")); (2, KRepeater (RStr (s "+"))); (1, KChain (Ok (Opened (plain 3) None))); (4, word 4 (s "b")); (1, word 5 (s "c")); (0, word 6 (s "d"))].
Example C131_case :
  Forall (fun a => searchable (snd a)) some_ops
  /\ (exists t, written (se_log (session_of some_ops)) (CChain 0) t /\
        match t with SpecNest.CChain _ _ parts => map snd parts | _ => [] end = [(1%Z, None, false); (1%Z, Some 1%Z, false); (1%Z, Some 1%Z, false)])
  /\ match rb_matches default_env (fun l => l) (fun _ => with_defaults (fun _ _ _ => VDefault) (fun l => l) idle) (fun _ _ => true) true
            (assembled no_info default_rules [] (se_world (session_of some_ops))) tt (s "aabcd") with
     | Ok f => map (fun m => (m_span m, map m_span (m_children m))) (all_found f)
     | Err _ => []
     end = [((0, 4), [(0, 1); (1, 2); (2, 3); (2, 3); (3, 4)]); ((4, 5), [])]%Z.
Proof.
  assert (AC : forall id child m, accepted (plain id) child m).
  { intros id child m. apply validator_accepted. destruct child; [reflexivity|]. unfold process_validator. cbn. unfold config_keys. destruct (m_name m) as [[|ch r]|]; reflexivity. }
  assert (L : forall id t, t <> [] -> searchable (word id t)).
  { intros id t N. split; [repeat split|]. split; [|exact I]. split; [reflexivity|]. repeat constructor. exact N. }
  assert (O : forall id, searchable (KChain (Ok (Opened (plain id) None)))) by (intro id; split; [repeat split|intro child; left; intro m; apply AC]).
  assert (S : Forall (fun a => searchable (snd a)) some_ops) by (unfold some_ops; repeat (apply Forall_cons; [cbn [snd]; first [apply O|apply L; discriminate|exact I]|]); apply Forall_nil).
  split; [exact S|]. split; [|vm_compute; reflexivity].
  exists (tree_of 2 (se_world (session_of some_ops)) (CChain 0)). split; [|reflexivity].
  apply (@tree_written some_ops) with (o := None); [|left; reflexivity|cbn; lia].
  eapply Forall_impl; [|exact S]. intros [i k]. cbn [snd]. destruct k as [[[]|]|[[]|]|v|b|]; simpl; auto.
Qed.
