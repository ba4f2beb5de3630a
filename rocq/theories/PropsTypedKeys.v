(** * Property C138: the values of a Rebulk object are the converted texts, and the check of declared keys raises no false alarm *)
From Verif Require Import Typed Base BaseFacts Match MatchFacts Coll CollFacts Loose Conseq ConseqFacts Processors ProcFacts Pattern PatternFacts PropsLoose PropsPattern Topo Rules RulesFacts PropsRules PropsTyped Chain SpecChain PropsChain Builder BuilderFacts PropsBuilder PropsKeys Rules Rebulk RebulkFacts PropsRebulk Pipeline OnceFacts PropsOnce PropsInside Assemble PropsAssemble.
From Coq Require String.
Export Coq.Strings.String.StringSyntax.
Open Scope string_scope.
Open Scope list_scope.
Set Implicit Arguments.
Unset Strict Implicit.
Open Scope Z_scope.

(** ** Specification *)
(** the formatter meant for matches called [x]: a single formatter option (the library's own counts as none); else
    the entry for [x] of a dictionary of formatters; else the converter of the key declared with that name *)
Definition formatter_meant (h : heap) (get : pstr -> option bval) (declared : pstr -> option pyval) (x : pstr) : option pyval :=
  match get (s "formatter") with
  | Some (BVal v) => if truthy v && negb (py_eqb v library_formatter) then Some v else declared x
  | Some (BDict a) => match dfind (h_cell h a) (Some x) with Some v => Some v | None => declared x end
  | None => declared x
  end.
(** what a formatter makes of a raw text; a falsy one (None) and the library's leave it as it is *)
Definition formatted (W : callables) (v t : pyval) : pyval :=
  if truthy v && negb (py_eqb v library_formatter) then call_formatter W v t else t.
(** the dictionaries given as options exist before the calls; no call is given several keys *)
Definition simple_calls (h : heap) (cs : list bcall) : Prop :=
  plain_calls cs /\ (forall a, In a (all_addrs (map call_op cs)) -> (a < h_next h)%nat)
  /\ forall key kw what, In (CPattern key kw what) cs -> match key with Keys _ => False | _ => True end.
(** the options in force at a call, and the heap of option dictionaries after it *)
Definition in_force (before : list bcall) (key : keyarg) (kw : opts) (what : searched) : pstr -> option bval :=
  wanted (map call_op before) (kind_searched what) key kw.
Definition heap_after (h : heap) (cs : list bcall) : heap := st_heap (bhistory h (map call_op cs)).
(** a pattern with these options can return matches called [x] *)
Definition may_be_called (h : heap) (get : pstr -> option bval) (x : pstr) : Prop :=
  flag h (get (s "every")) = true \/ flag h (get (s "children")) = true \/ get (s "name") = Some (BVal (VStr x)).

(** ** Proofs *)
Lemma as_formatted W v m : truthy (m_lit m) = false -> m_fmt m = as_formatter W v -> m_value m = formatted W v (m_raw m).
Proof.
  intros L F. unfold m_value. rewrite L, F. unfold as_formatter, formatted. destruct (truthy v); cbn [andb]; [|reflexivity].
  destruct (py_eqb v library_formatter); reflexivity.
Qed.
Lemma kept_treated W h get m : shows W h get m -> m_private m = false -> treated h get (s "format_all") m.
Proof.
  intros S P. unfold treated. pose proof (sh_private S) as Q. pose proof (sh_returned S) as R.
  destruct R as [R|[[R1 [R2|R2]]|[R1 [R2|R2]]]]; [right; left; exact R|..]; right; right.
  - rewrite R1. exact R2.
  - exfalso. rewrite (proj2 Q) in P; [discriminate|]. right. right. left. auto.
  - destruct (m_parent m); [exact R2|contradiction].
  - exfalso. rewrite (proj2 Q) in P; [discriminate|]. right. right. right. auto.
Qed.
Lemma prefix_proper h cs before c after : simple_calls h cs -> cs = before ++ c :: after -> Forall proper_op (map call_op before).
Proof.
  intros [Hc _] E. rewrite Forall_map. apply Forall_forall. intros d Hd. apply in_split in Hd as (a & b & ->).
  apply (Hc a d (b ++ c :: after)). rewrite E, <- app_assoc. reflexivity.
Qed.
Lemma prefix_addrs h cs before key kw what after : simple_calls h cs -> cs = before ++ CPattern key kw what :: after ->
  (forall a, In a (all_addrs (map call_op before)) -> (a < h_next h)%nat) /\ (forall a, In a (addrs kw) -> (a < h_next h)%nat).
Proof.
  intros (_ & A & _) E. split; intros a Ha; apply A; rewrite E, map_app; unfold all_addrs; rewrite flat_map_app; apply in_or_app; [left; exact Ha|right].
  cbn [map flat_map call_op]. apply in_or_app. left. exact Ha.
Qed.

(** what one pattern finds *)
Lemma pattern_formatted W lower captures h cs before key kw what after h' f' bp i n input n' outs raws m :
  simple_calls h cs -> cs = before ++ CPattern key kw what :: after ->
  add (st_heap (bhistory h (map call_op before))) (st_factory (bhistory h (map call_op before))) (kind_searched what) key kw = (h', f', Ok bp) ->
  pattern_matches (assemble W h' i bp) (source lower captures h' bp what) n input = Ok (n', (outs, raws)) -> In m outs ->
  shows W h' (in_force before key kw what) m
  /\ (m_private m = false -> truthy (m_lit m) = false -> forall x v, m_name m = Some x -> x <> [] ->
      formatter_meant h' (in_force before key kw what) (last_declared (map call_op before)) x = Some v -> m_value m = formatted W v (m_raw m)).
Proof.
  intros HS E1 E2 Eq Hm. pose proof (prefix_proper HS E1) as PP. destruct (prefix_addrs HS E1) as [A1 A2].
  destruct HS as (Hc & _ & Hk). destruct (Hc before _ after E1) as [P1 [P2 P3]].
  assert (HK : match key with Keys _ => False | _ => True end) by (apply (Hk key kw what); rewrite E1; apply in_elt).
  assert (S : shows W h' (in_force before key kw what) m).
  { apply (C130_options (ops := map call_op before) (h := h) (f' := f') (p := bp) (id := i) (src := source lower captures h' bp what) (n := n) (input := input) (n' := n') (outs := outs) (raws := raws)); try assumption.
    destruct what; [intro F; exact F|intro F; exact F|contradiction (P2 eq_refl)]. }
  split; [exact S|]. intros Pm Lm x v Nx Hx Fm. apply as_formatted; [exact Lm|].
  destruct (C130_formatters PP P1 HK A1 A2 E2 P3 Eq Hm (kept_treated S Pm)) as [F1 F2]. fold (in_force before key kw what) in F1, F2.
  unfold formatter_meant in Fm. destruct (in_force before key kw what (s "formatter")) as [[w|a]|] eqn:Ef.
  - destruct (truthy w && negb (py_eqb w library_formatter)) eqn:Eb.
    + injection Fm as <-. apply andb_prop in Eb as [Tw Nw]. apply negb_true_iff in Nw.
      rewrite (F1 w eq_refl Tw); [unfold as_formatter; rewrite Tw, Nw; reflexivity|]. intros ->. rewrite py_eqb_refl in Nw. discriminate.
    + refine (F2 _ x Nx Hx v Fm). intros w' Ew Tw. injection Ew as <-. rewrite Tw in Eb. cbn [andb] in Eb. apply negb_false_iff in Eb. apply library_eqb in Eb. exact Eb.
  - refine (F2 _ x Nx Hx v Fm). intros w' Ew. discriminate.
  - refine (F2 _ x Nx Hx v Fm). intros w' Ew. discriminate.
Qed.

(** what a pattern returns (not private) is called as the pattern may call it *)
Lemma called W h get m x : shows W h get m -> m_private m = false -> m_name m = Some x -> may_be_called h get x.
Proof.
  intros Sm Pm Nx. destruct (sh_returned Sm) as [R1|[[R1 _]|[R1 [R2|R2]]]]; [left; exact R1| |right; left; exact R2|].
  - right. right. pose proof (sh_name Sm R1) as N. rewrite Nx in N. destruct (get (s "name")) as [[[]|]|]; cbn [text_option] in N; try discriminate. now injection N as <-.
  - exfalso. rewrite (proj2 (sh_private Sm)) in Pm; [discriminate|]. auto.
Qed.

(** [Rebulk.matches]: a match or marker returned which is not private, has a name and no literal value has, as value,
    what the formatter meant for its name makes of its raw text; meant: by the call which built a pattern *)
Theorem C138_values : forall W lower captures Ctx R (ctx : Ctx) info h cs rules keys env perm solvers order (user : Ctx -> behav found R) isinst check input f m x,
  simple_calls h cs -> (forall u, adds_nothing (user ctx) u) ->
  rb_matches env perm (fun c => with_defaults solvers order (user c)) isinst check (rebulk_of W lower captures info h cs rules keys) ctx input = Ok f ->
  In m (all_found f) -> m_private m = false -> has_literal m = false -> m_name m = Some x -> x <> [] ->
  exists before key kw what after, cs = before ++ CPattern key kw what :: after
  /\ let h' := heap_after h (before ++ [CPattern key kw what]) in let get := in_force before key kw what in
     may_be_called h' get x
     /\ forall v, formatter_meant h' get (last_declared (map call_op before)) x = Some v -> m_value m = formatted W v (m_raw m).
Proof.
  intros W lower captures Ctx R ctx info h cs rules keys env perm solvers order user isinst check input f m x HS Hu E Hm Pm Lm Nx Hx.
  destruct (returned_found Hu E Hm) as (p & n & n' & outs & raws & Hp & Ep & Ho).
  assert (exists q, In q (patterns_of W lower captures h cs) /\ pattern_matches (fst q) (snd q) n input = Ok (n', (outs, raws))) as (q & Hq & Eq).
  { clear - Hp Ep. cbn in Hp. apply in_map_iff in Hp as (q & <- & Hq). exists q. split; [exact Hq|exact Ep]. }
  destruct (@patterns_from_call W lower captures h cs [] 0 q Hq) as (mid & key & kw & what & after & h' & f' & bp & i & E1 & E2 & E3 & ->).
  cbn [app] in E2, E3. cbn [fst snd] in Eq. exists mid, key, kw, what, after. split; [exact E1|]. unfold heap_after. rewrite <- E3.
  destruct (pattern_formatted HS E1 E2 Eq Ho) as [Sm Fm]. cbv zeta. split; [exact (called Sm Pm Nx)|]. intros v Fv. exact (Fm Pm Lm x v Nx Hx Fv).
Qed.

(** If the formatter meant, at each call which can return matches called like a declared key, makes values of the
    key's type (or None), then the check changes nothing *)
(** the raw text of a match: a text, or None without an input string *)
Definition raw_text (t : pyval) : Prop := t = VNone \/ exists x, t = VStr x.
Lemma raw_is_text m : raw_text (m_raw m).
Proof. unfold m_raw, raw_text. destruct (m_input m) as [[|c r]|]; [left; reflexivity|right; eexists; reflexivity|left; reflexivity]. Qed.
Definition keeps_types (W : callables) (isinst : pyval -> nat -> bool) (h : heap) (cs : list bcall) (keys : dict pstr Typed.key) : Prop :=
  forall before key kw what after, cs = before ++ CPattern key kw what :: after ->
  let h' := heap_after h (before ++ [CPattern key kw what]) in let get := in_force before key kw what in
  forall x k, dfind keys x = Some k -> may_be_called h' get x ->
  exists v, formatter_meant h' get (last_declared (map call_op before)) x = Some v
            /\ forall t, raw_text t -> formatted W v t = VNone \/ isinst (formatted W v t) (k_type k) = true.
Theorem C138_check : forall W lower captures Ctx R (ctx : Ctx) info h cs rules keys env perm (bh : Ctx -> behav found R) isinst input,
  simple_calls h cs -> keeps_types W isinst h cs keys ->
  rb_matches env perm bh isinst true (rebulk_of W lower captures info h cs rules keys) ctx input
  = rb_matches env perm bh isinst false (rebulk_of W lower captures info h cs rules keys) ctx input.
Proof.
  intros W lower captures Ctx R ctx info h cs rules keys env perm bh isinst input HS HT.
  unfold rb_matches, matches_patterns. set (r := rebulk_of W lower captures info h cs rules keys).
  change (rb_disabled r ctx) with false. cbv iota.
  change {| fd_next := 0; fd_matches := empty_coll KMatches (Some input); fd_markers := empty_coll KMarkers (Some input); fd_keys := effective_keys ctx r |}
    with (fresh input (effective_keys ctx r)).
  destruct (@run_patterns_spec Ctx ctx input (effective_patterns ctx r) (fresh input (effective_keys ctx r)) eq_refl eq_refl) as [A _].
  destruct (run_patterns ctx input (effective_patterns ctx r) (fresh input (effective_keys ctx r))) as [f1|e]; [|reflexivity].
  destruct (A f1 eq_refl) as (outs & n' & Y & Ef1). cbn [fd_next fresh] in Y. destruct (stage_del input (effective_keys ctx r) outs n') as (S1 & _ & _). rewrite <- Ef1 in S1.
  assert (check_declared_keys isinst (fd_keys f1) (fd_matches f1) = Ok tt) as ->; [|reflexivity].
  destruct (C55_contract_check isinst (fd_keys f1) (fd_matches f1)) as [C [X|X]]; [|exact X]. exfalso.
  apply C in X as (m & x & k & Hm & Nx & Hx & Dk & Pm & Lm & Vm & Im).
  assert (fd_keys f1 = keys) as Ek by (rewrite Ef1; reflexivity). rewrite Ek in Dk. clear C A Ek. rewrite S1 in Hm. apply filter_In in Hm as [Hm _].
  assert (exists p n n1 out raws, In p (effective_patterns ctx r) /\ pt_match p ctx n input = Ok (n1, (out, raws)) /\ In m out) as (p & n & n1 & out & raws & Hp & Ep & Ho).
  { clear - Y Hm. induction Y as [n|p ps n outs n' D Y IH|p ps n n1 out raws outs n' D E Y IH]; [destruct Hm|..].
    - destruct (IH Hm) as (q & a & b & c & d & H1 & H2). exists q, a, b, c, d. split; [right; exact H1|exact H2].
    - cbn [concat] in Hm. apply in_app_or in Hm as [H|H].
      + exists p, n, n1, out, raws. split; [left; reflexivity|]. split; assumption.
      + destruct (IH H) as (q & a & b & c & d & H1 & H2). exists q, a, b, c, d. split; [right; exact H1|exact H2]. }
  assert (exists q, In q (patterns_of W lower captures h cs) /\ pattern_matches (fst q) (snd q) n input = Ok (n1, (out, raws))) as (q & Hq & Eq).
  { clear - Hp Ep. cbn in Hp. apply in_map_iff in Hp as (q & <- & Hq). exists q. split; [exact Hq|exact Ep]. }
  destruct (@patterns_from_call W lower captures h cs [] 0 q Hq) as (mid & key & kw & what & after & h' & f' & bp & i & E1 & E2 & E3 & ->).
  cbn [app] in E2, E3. cbn [fst snd] in Eq. destruct (pattern_formatted HS E1 E2 Eq Ho) as [Sm Fm].
  pose proof (called Sm Pm Nx) as M.
  specialize (HT mid key kw what after E1). cbv zeta in HT. unfold heap_after in HT. rewrite <- E3 in HT.
  destruct (HT x k Dk M) as (v & Fv & Tv). pose proof (Fm Pm Lm x v Nx Hx Fv) as V. destruct (Tv (m_raw m) (raw_is_text m)) as [T|T]; rewrite <- V in T; congruence.
Qed.

(** ** Keys declared first *)
(** the keys of a Rebulk object after [declare_keys] (builder.py:101-114): the last one of each name; [obj k] is the
    converter of [k] as an object *)
Definition declared (ks : list Typed.key) : dict pstr Typed.key := fold_left (fun d k => dset d (Typed.k_name k) k) ks [].
Definition handed (obj : Typed.key -> positive) (k : Typed.key) : bkey := BKey (Typed.k_name k) (VObj (Npos (obj k))).
(** a call which leaves the formatters to the declared keys: no formatter is in force, or the call is given one of
    the declared keys (and nothing else about names and formatters), and its pattern returns no children *)
Definition leaves_to_keys (obj : Typed.key -> positive) (ks : list Typed.key) (h : heap) (key : keyarg) (get : pstr -> option bval) : Prop :=
  get (s "formatter") = None
  \/ exists k, key = OneKey (handed obj k) /\ dfind (declared ks) (Typed.k_name k) = Some k
     /\ get (s "formatter") = Some (BVal (VObj (Npos (obj k)))) /\ get (s "name") = Some (BVal (VStr (Typed.k_name k)))
     /\ flag h (get (s "children")) = false /\ flag h (get (s "every")) = false.
Definition declares_first (obj : Typed.key -> positive) (ks : list Typed.key) (h : heap) (rest : list bcall) : Prop :=
  (forall l, ~ In (CDeclare l) rest)
  /\ forall before key kw what after, rest = before ++ CPattern key kw what :: after ->
     let before' := CDeclare (map (handed obj) ks) :: before in
     leaves_to_keys obj ks (heap_after h (before' ++ [CPattern key kw what])) key (in_force before' key kw what).

Lemma last_handed (obj : Typed.key -> positive) ks x : dfind (declared ks) x = find (fun k => pstr_eqb x (Typed.k_name k)) (rev ks).
Proof.
  unfold declared. induction ks as [|k ks IH] using rev_ind; [reflexivity|]. rewrite fold_left_app, rev_app_distr. cbn [fold_left rev app find].
  rewrite dfind_dset. change (eqb x (Typed.k_name k)) with (pstr_eqb x (Typed.k_name k)). destruct (pstr_eqb x (Typed.k_name k)); [reflexivity|exact IH].
Qed.
Lemma declared_once obj ks before x k : (forall l, ~ In (CDeclare l) before) -> dfind (declared ks) x = Some k ->
  last_declared (map call_op (CDeclare (map (handed obj) ks) :: before)) x = Some (VObj (Npos (obj k))).
Proof.
  intros N D. rewrite (last_handed obj) in D. unfold last_declared. cbn [map call_op flat_map declared_by].
  assert (flat_map declared_by (map call_op before) = []) as ->.
  { induction before as [|c before IH]; [reflexivity|]. cbn [map flat_map]. rewrite IH by (intros l Hl; apply (N l); right; exact Hl).
    destruct c as [| l |]; try reflexivity. exfalso. apply (N l). left. reflexivity. }
  rewrite app_nil_r, <- map_rev. revert D. generalize (rev ks). intro l. induction l as [|a l IH]; [discriminate|]. cbn [map find handed bk_name].
  destruct (pstr_eqb x (Typed.k_name a)); [|exact IH]. intro E. injection E as ->. reflexivity.
Qed.
Lemma meant_first obj ks h rest before key kw what after x k : declares_first obj ks h rest ->
  CDeclare (map (handed obj) ks) :: rest = before ++ CPattern key kw what :: after ->
  let h' := heap_after h (before ++ [CPattern key kw what]) in let get := in_force before key kw what in
  dfind (declared ks) x = Some k -> may_be_called h' get x -> formatter_meant h' get (last_declared (map call_op before)) x = Some (VObj (Npos (obj k))).
Proof.
  intros [N L] E h' get D M. destruct before as [|c before]; [discriminate|]. cbn [app] in E. injection E as <- E. 
  specialize (L before key kw what after E). cbv zeta in L. fold h' get in L.
  assert (N' : forall l, ~ In (CDeclare l) before) by (intros l Hl; apply (N l); rewrite E; apply in_or_app; left; exact Hl).
  unfold formatter_meant. destruct L as [Lf|(k1 & _ & D1 & Lf & Ln & Lc & Le)]; rewrite Lf; [apply declared_once; assumption|].
  cbn [truthy andb]. assert (py_eqb (VObj (Npos (obj k1))) library_formatter = false) as -> by reflexivity. cbn [negb].
  destruct M as [M|[M|M]]; [congruence|congruence|]. rewrite Ln in M. injection M as <-. congruence.
Qed.

(** [Rebulk().declare_keys(k1, k2, ...)], then patterns which leave the formatters to the keys: with the check switched on
    nothing changes, if converters make values of their keys' types; and the value of every (not private) match called like
    a declared key is what the key's converter makes of the raw text *)
Theorem C138_declared_first : forall W cast obj lower captures Ctx R (ctx : Ctx) info h ks rest rules env perm isinst,
  let cs := CDeclare (map (handed obj) ks) :: rest in
  simple_calls h cs -> declares_first obj ks h rest -> (forall k t, In k ks -> call_formatter W (VObj (Npos (obj k))) t = converter cast k t) ->
  let r := rebulk_of W lower captures info h cs rules (declared ks) in
  ((forall k t, In k ks -> raw_text t -> converter cast k t = VNone \/ isinst (converter cast k t) (Typed.k_type k) = true) ->
   forall (bh : Ctx -> behav found R) input, rb_matches env perm bh isinst true r ctx input = rb_matches env perm bh isinst false r ctx input)
  /\ forall solvers order (user : Ctx -> behav found R) check input f m x k, (forall u, adds_nothing (user ctx) u) ->
     rb_matches env perm (fun c => with_defaults solvers order (user c)) isinst check r ctx input = Ok f ->
     In m (all_found f) -> m_private m = false -> has_literal m = false -> m_name m = Some x -> x <> [] -> dfind (declared ks) x = Some k ->
     m_value m = converter cast k (m_raw m).
Proof.
  intros W cast obj lower captures Ctx R ctx info h ks rest rules env perm isinst cs HS HF HW r.
  assert (HI : forall x k, dfind (declared ks) x = Some k -> In k ks).
  { intros x k D. rewrite (last_handed obj) in D. apply find_some in D as [D _]. apply in_rev in D. exact D. }
  assert (HC : forall x k t, dfind (declared ks) x = Some k -> formatted W (VObj (Npos (obj k))) t = converter cast k t).
  { intros x k t D. unfold formatted. assert (py_eqb (VObj (Npos (obj k))) library_formatter = false) as -> by reflexivity. cbn [truthy andb negb]. apply HW, (HI x k D). }
  split.
  - intros HT bh input. apply C138_check; [exact HS|]. intros before key kw what after E. cbv zeta. intros x k D M.
    exists (VObj (Npos (obj k))). split; [exact (meant_first HF E D M)|]. intros t Rt. rewrite (HC x k t D). exact (HT k t (HI x k D) Rt).
  - intros solvers order user check input f m x k Hu E Hm Pm Lm Nx Hx D.
    destruct (C138_values HS Hu E Hm Pm Lm Nx Hx) as (before & key & kw & what & after & E1 & M & F).
    rewrite (F _ (meant_first HF E1 D M)). exact (HC x k _ D).
Qed.

(** A key is refused exactly when its type is structured; its converter is the formatter given, else the type itself *)
Theorem C138_key : forall structured cast n t f,
  (new_key structured n t f = Err TypeError <-> structured t = true)
  /\ forall k, new_key structured n t f = Ok k <-> structured t = false /\ Typed.k_name k = n /\ Typed.k_type k = t /\ Typed.k_formatter k = f
     /\ converter cast k = match f with Some g => g | None => cast t end.
Proof.
  intros structured cast n t f. unfold new_key. destruct (structured t); split.
  - split; reflexivity.
  - intro k. split; [discriminate|intros (X & _); discriminate].
  - split; discriminate.
  - intro k. split.
    + intro E. injection E as <-. auto.
    + intros (_ & <- & <- & <- & _). destruct k. reflexivity.
Qed.

(** ** A case: [declare_keys(Key("year", int), Key("title", str))] (here the "int" of a text is its length), then
    [string("ab", key=title)] and [regex("[12]", name="year")]; and the same with [formatter=] another one for the years *)
Definition year : Typed.key := Typed.Key (s "year") 1 None.
Definition title : Typed.key := Typed.Key (s "title") 2 None.
Definition cast_case (t : nat) (v : pyval) : pyval := match t, v with 1%nat, VStr x => VInt (zlen x) | _, _ => v end.
Definition isinst_case (v : pyval) (t : nat) : bool := match v, t with VInt _, 1%nat => true | VStr _, 2%nat => true | _, _ => false end.
Definition obj_case (k : Typed.key) : positive := match Typed.k_type k with 1%nat => 1%positive | _ => 2%positive end.
Definition W_case : callables :=
  Callables (fun f v => match f with VObj 1 => cast_case 1 v | _ => v end) (fun _ _ => true) (fun _ m => (m, Keep)) (fun _ l => l) (fun _ => 0%nat).
Definition rest_case (o : opts) : list bcall :=
  [CPattern (OneKey (handed obj_case title)) [] (GString [s "ab"]); CPattern NoKey ((s "name", BVal (VStr (s "year"))) :: o) (GRegex [char_rx (s "12")])].
Definition calls_case (o : opts) : list bcall := CDeclare (map (handed obj_case) [year; title]) :: rest_case o.
Definition heap_case : heap := Heap 0 (fun _ => []).
Definition result_case (check : bool) (o : opts) :=
  match rb_matches default_env (fun l => l) (fun _ => with_defaults (fun _ _ _ => VDefault) (fun l => l) idle) isinst_case check
          (rebulk_of W_case (fun x => x) false no_info heap_case (calls_case o) default_rules (declared [year; title])) tt (s "1 ab 2") with
  | Ok f => Ok (map (fun m => (m_span m, m_name m, m_value m)) (all_found f))
  | Err e => Err e
  end.
Lemma cast_keeps k t : In k [year; title] -> raw_text t -> converter cast_case k t = VNone \/ isinst_case (converter cast_case k t) (Typed.k_type k) = true.
Proof. intros [<-|[<-|[]]] [->|[x ->]]; [left|right|left|right]; reflexivity. Qed.
Example C138_case : simple_calls heap_case (calls_case []) /\ declares_first obj_case [year; title] heap_case (rest_case [])
  /\ (forall k t, In k [year; title] -> raw_text t -> converter cast_case k t = VNone \/ isinst_case (converter cast_case k t) (Typed.k_type k) = true)
  /\ (forall k t, In k [year; title] -> call_formatter W_case (VObj (Npos (obj_case k))) t = converter cast_case k t)
  /\ result_case true [] = Ok [(2, 4, Some (s "title"), VStr (s "ab")); (0, 1, Some (s "year"), VInt 1); (5, 6, Some (s "year"), VInt 1)].
Proof.
  split; [|split; [|split; [exact cast_keeps|split]]].
  - split; [|split].
    + intros before c after E. destruct before as [|c1 [|c2 [|c3 before]]]; try discriminate; injection E; intros; subst.
      all: try (destruct before; discriminate).
      * split; exact I.
      * split; [constructor|]. split; [discriminate|]. intros k Hk x. destruct Hk as [<-|[<-|[<-|[]]]]; vm_compute; discriminate.
      * split; [repeat constructor; cbn; intuition discriminate|]. split; [discriminate|]. intros k Hk x. destruct Hk as [<-|[<-|[<-|[]]]]; vm_compute; discriminate.
    + intros a Ha. vm_compute in Ha. destruct Ha.
    + intros key kw what Hin. destruct Hin as [X|[X|[X|[]]]]; try discriminate; injection X as <- _ _; exact I.
  - split; [intros l [X|[X|[]]]; discriminate|]. intros before key kw what after E.
    destruct before as [|c1 [|c2 before]]; try discriminate; injection E; intros; subst; try (destruct before; discriminate).
    + right. exists title. vm_compute. repeat split; reflexivity.
    + left. vm_compute. reflexivity.
  - intros k t [<-|[<-|[]]]; reflexivity.
  - vm_compute. reflexivity.
Qed.
(** a formatter which does not keep the type: the check raises, without it nothing does *)
Example C138_override : result_case true [(s "formatter", BVal (VObj 9))] = Err TypeError
  /\ result_case false [(s "formatter", BVal (VObj 9))] = Ok [(2, 4, Some (s "title"), VStr (s "ab")); (0, 1, Some (s "year"), VStr (s "1")); (5, 6, Some (s "year"), VStr (s "2"))].
Proof. split; vm_compute; reflexivity. Qed.
