(** * Properties C130 and C135, functional patterns: what the matches made from the results of a function show *)
From Verif Require Import Base BaseFacts Match MatchFacts Pattern PatternFacts PropsPattern Builder BuilderFacts PropsBuilder PropsKeys Assemble PropsAssemble.
From Coq Require String.
Export Coq.Strings.String.StringSyntax.
Open Scope string_scope.
Open Scope list_scope.
Set Implicit Arguments.
Unset Strict Implicit.
Open Scope Z_scope.

(** ** Specification *)
(** what the match [m], made from the result [x] of a function, shows of the result and of the options [get] of its pattern: span; name, tags, marker, conflict solver: the result's,
    else the pattern's; private; value: the pattern's, else the result's; a formatter of the result counts unless the pattern formats its matches *)
Record result_shows (W : callables) (h : heap) (get : pstr -> option bval) (x : fitem) (m : mtch) : Prop := {
  rs_alone : m_parent m = None /\ m_children m = [];
  rs_span : m_span m = item_span x;
  rs_name : m_name m = match mo_name (item_opts x) with Some n => n | None => match get (s "name") with Some v => text_option v | None => None end end;
  rs_tags : m_tags m = match mo_tags (item_opts x) with Some t => t | None => tags_option (get (s "tags")) end;
  rs_marker : m_marker m = match mo_marker (item_opts x) with Some b => b | None => flag h (get (s "marker")) end;
  rs_solver : m_solver m = match mo_solver (item_opts x) with Some f => f | None => solver_option W (get (s "conflict_solver")) end;
  rs_private : m_private m = true <->
      match mo_private (item_opts x) with Some b => b | None => flag h (get (s "private")) end = true
      \/ (exists n, m_name m = Some n /\ n <> [] /\ In n (names_option (get (s "private_names"))))
      \/ flag h (get (s "private_parent")) = true;
  rs_ignored : forall n, m_name m = Some n -> ~ In n (names_option (get (s "ignore_names")));
  rs_returned : flag h (get (s "every")) = true \/ flag h (get (s "children")) = false \/ flag h (get (s "private_parent")) = true;
  rs_value : forall v, get (s "value") = Some (BVal v) -> truthy v = true -> m_value m = v;
  rs_values : forall a n v, get (s "value") = Some (BDict a) -> m_name m = Some n -> n <> [] -> dfind (h_cell h a) (Some n) = Some v -> truthy v = true -> m_value m = v;
  rs_own_value : flag h (get (s "value")) = false -> forall v, item_value x = Some v -> truthy v = true -> m_value m = v;
  rs_own_formatter : ~ treated h get (s "format_all") m -> m_fmt m = match mo_fmt (item_opts x) with Some f => f | None => None end;
  rs_validator : forall v, get (s "validator") = Some (BVal v) -> truthy v = true -> treated h get (s "validate_all") m -> call_validator W v m = true
}.

(** ** Proofs *)
Lemma functional_one_inv p input x m : functional_one p input x = Ok m -> describes p input x m.
Proof.
  intro E. assert (one_value x) as O.
  { destruct x as [st en [v|] [o|]|st en o]; cbn [one_value]; try exact Logic.I. cbn in E. destruct (mo_value o) as [w|] eqn:Ev; [|reflexivity]. destruct (or_else _ _) eqn:Eo in E; discriminate. }
  destruct (functional_one_describes p input O) as (m' & E' & D). congruence.
Qed.
Lemma sequence_in {A B} (f : A -> res B) l ms m : sequence f l = Ok ms -> In m ms -> exists x, In x l /\ f x = Ok m.
Proof.
  revert ms. induction l as [|a l IH]; intros ms E Hm; cbn [sequence] in E; [injection E as <-; destruct Hm|].
  destruct (f a) as [b|] eqn:Ea; [|discriminate]. destruct (sequence f l) as [bs|] eqn:Es; [|discriminate]. injection E as <-.
  destruct Hm as [<-|Hm]; [exists a; split; [left; reflexivity|exact Ea]|]. destruct (IH _ eq_refl Hm) as (x & Hx & Ex). exists x. split; [right; exact Hx|exact Ex].
Qed.
Lemma set_children_same m : m_children m = [] -> set_children m [] = m.
Proof. destruct m; cbn; intros ->; reflexivity. Qed.
(** the matches a functional pattern returns *)
Lemma function_returned p fs n input n' outs raws m : no_processor p -> pattern_matches p (SFunctional fs) n input = Ok (n', (outs, raws)) -> In m outs ->
  exists f x o i, In f fs /\ In x (results (f input)) /\ describes p input x o /\ settings p i false o m /\ m_parent m = None /\ m_children m = []
    /\ accepted p false m /\ ignored p m = false /\ (po_children p = false \/ po_every p = true \/ po_private_parent p = true).
Proof.
  intros N H Hm. destruct (C41_all_or_nothing N H) as (found & occs & outss & A & B & C & ->). cbn [finds] in A.
  apply in_concat in Hm as (os & Hos & Hm).
  assert (exists occ, In occ occs /\ exists oss, Forall2i (produces p) 0 occ oss /\ os = concat oss) as (occ & Hocc & oss & F & ->).
  { clear - C Hos. induction C as [|x y l l' R C IH]; [contradiction|]. destruct Hos as [->|Hos]; [exists x; split; [left; auto|auto]|]. destruct (IH Hos) as (occ & ? & ?). exists occ. split; [right; auto|auto]. }
  apply in_concat in Hm as (outs1 & Ho1 & Hm). destruct (Forall2i_in_r F Ho1) as (a & i & Ha & P).
  assert (exists fd, In fd found /\ exists o, In o fd /\ same_occurrence o a) as (fd & Hf & o & Ho & S).
  { clear - B Hocc Ha. induction B as [|x y l l' R B IH]; [contradiction|]. destruct Hocc as [->|Hocc].
    - exists x. split; [left; auto|]. clear - R Ha. induction R as [|x y l l' R0 R IH]; [contradiction|]. destruct Ha as [->|Ha].
      + exists x. split; [left; auto|auto].
      + destruct (IH Ha) as (o & ? & ?). exists o. split; [right; auto|auto].
    - destruct (IH Hocc) as (fd & ? & ?). exists fd. split; [right; auto|auto]. }
  assert (exists f, In f fs /\ functional_match p f input = Ok fd) as (f & Hfs & Ef).
  { clear - A Hf. induction A as [|x y l l' R A IH]; [contradiction|]. destruct Hf as [->|Hf]; [exists x; split; [left; auto|exact R]|]. destruct (IH Hf) as (f & ? & ?). exists f. split; [right; auto|auto]. }
  assert (exists x, In x (results (f input)) /\ describes p input x o) as (x & Hx & D).
  { unfold functional_match in Ef. fold (results (f input)) in Ef. destruct (sequence _ _) as [ms|] eqn:Es; [|discriminate]. apply keep_truthy_inv in Ef as [_ ->]. apply filter_In in Ho as [Ho _].
    destruct (sequence_in Es Ho) as (x & Hx & Ex). exists x. split; [exact Hx|exact (functional_one_inv Ex)]. }
  destruct D as [D1 D2 D3 D4 D5 D6 D7 D8 D9 D10 [D11 D12]].
  assert (m_children a = []) as Ca.
  { destruct S as (k & _ & S). rewrite D12 in S. inversion S. reflexivity. }
  destruct P as (P & P1 & P2 & P3 & P4). rewrite Ca in P3. assert (m_children P = []) as CP by (inversion P3; reflexivity).
  cbv zeta in P4. destruct P4 as [(V1 & _ & ->)|[_ ->]]; [|contradiction]. rewrite Ca, (set_children_same CP) in V1.
  unfold chosen in Hm. rewrite CP in Hm. cbn [filter] in Hm. apply in_app_iff in Hm as [Hm|Hm]; [|destruct (_ || _)%bool in Hm; destruct Hm].
  destruct (_ && _)%bool eqn:Eb in Hm; [|destruct Hm]. destruct Hm as [<-|[]]. apply andb_prop in Eb as [Er Ei]. apply negb_true_iff in Ei.
  pose proof (same_occurrence_len S) as (S0 & S1 & S2 & S3 & S4 & S5 & S6 & S7 & S8 & S9 & S10 & S11 & S12 & S13).
  exists f, x, o, i. split; [exact Hfs|]. split; [exact Hx|]. split; [constructor; auto|]. split; [apply settings_transfer with (m1 := a); auto|]. split; [exact P2|]. split; [exact CP|]. split; [exact V1|]. split; [exact Ei|].
  apply orb_prop in Er as [Er|Er]; [apply orb_prop in Er as [Er|Er]|]; [apply negb_true_iff in Er|..]; auto.
Qed.
Section Function.
  Variables (W : callables) (h : heap) (id : nat) (p : bpat).
  Let get k := dfind (bp_opts p) k.
  Let q := assemble W h id p.
  Lemma assembled_result fs n input n' outs raws m : unprocessed get ->
    pattern_matches q (SFunctional fs) n input = Ok (n', (outs, raws)) -> In m outs ->
    exists f x, In f fs /\ In x (results (f input)) /\ result_shows W h get x m.
  Proof.
    intros U H Hm. destruct (function_returned (@q_plain W h id p U) H Hm) as (f & x & o & i & Hf & Hx & D & S & Hp & Hc & Ac & Hi & Hr).
    exists f, x. split; [exact Hf|]. split; [exact Hx|].
    destruct D as [D1 D2 D3 D4 D5 D6 D7 D8 D9 D10 [D11 D12]]. destruct S as [(A1 & A2 & A3 & A4 & A5 & _) _ Sp (v & V1 & V2 & V3) [Ff Fn]].
    destruct (q_flags W h id p) as (E1 & E2 & E3 & E4 & E5 & E6 & E7 & E8). fold q in E1, E2, E3, E4, E5, E6, E7, E8. fold q in V1, Sp, Ff, Fn, Ac, Hi, Hr, D3, D4, D5, D6, D8.
    pose proof (q_values W h id p) as Q. fold get q in Q. pose proof (q_kw W h id p) as K. fold get q in K. rewrite K in D3, D4, D5, D6, D8. pose proof (q_validators W h id p) as QV. fold get q in QV.
    repeat match goal with X : context [dfind (bp_opts p) ?k] |- _ => change (dfind (bp_opts p) k) with (get k) in X end.
    assert (TR : forall all, subject q false (flag h (get all)) <-> treated h get all m) by (intro all; unfold subject, treated; rewrite E1, E2, Hp; tauto).
    constructor.
    - split; assumption.
    - rewrite A1. exact D1.
    - rewrite A2, D3. unfold match_options. cbn [mo_name]. unfold wins. destruct (mo_name (item_opts x)); [reflexivity|]. destruct (get (s "name")); reflexivity.
    - rewrite A3, D4. unfold match_options. cbn [mo_tags]. unfold wins. destruct (mo_tags (item_opts x)); [reflexivity|]. destruct (get (s "tags")); reflexivity.
    - rewrite A4, D5. unfold match_options. cbn [mo_marker]. unfold wins. destruct (mo_marker (item_opts x)); [reflexivity|]. destruct (get (s "marker")); reflexivity.
    - rewrite A5, D8. unfold match_options, solver_option. cbn [mo_solver]. unfold wins. destruct (mo_solver (item_opts x)); [reflexivity|]. destruct (get (s "conflict_solver")) as [[u|a]|]; reflexivity.
    - rewrite Sp, D6, E3, E4, E5, A2. unfold match_options. cbn [mo_private]. unfold wins.
      assert (match mo_private (item_opts x) with Some b => b | None => match (match get (s "private") with Some v0 => Some (btruthy h v0) | None => None end) with Some y => y | None => false end end
        = match mo_private (item_opts x) with Some b => b | None => flag h (get (s "private")) end) as -> by (destruct (mo_private (item_opts x)); [reflexivity|]; destruct (get (s "private")); reflexivity).
      split; [intros [X|[X|[[_ X]|[X _]]]]; auto; discriminate|intros [X|[X|X]]; auto].
    - intros nm Hn Hin. unfold ignored in Hi. rewrite Hn, E6 in Hi. apply (existsb_pstr nm) in Hin. congruence.
    - rewrite E1, E2, E3 in Hr. tauto.
    - intros w X T. rewrite X, dict_single in Q by exact T. apply pair_equal_spec in Q as [Qa Qb]. rewrite Qa, Qb in V1.
      pose proof (resolves_fun V1 (resolves_single _ _ _ _)) as Y. subst v. unfold m_value. rewrite V2 by exact T. now rewrite T.
    - intros a nm w X Hn Nn Dw Tw. rewrite X in Q. cbn [dict_option] in Q.
      destruct (h_cell h a) as [|e0 cc] eqn:Ec; [discriminate|]. rewrite <- Ec in *. cbn [ensure_dict] in Q. apply pair_equal_spec in Q as [Qa Qb]. rewrite Qa, Qb in V1.
      assert (R : resolves (map (fun e : option pstr * pyval => (fst e, snd e)) (h_cell h a)) VNone (m_name o) false w).
      { rewrite <- A2, Hn. apply by_name; [destruct nm as [|ch r]; [contradiction|exists ch, r; reflexivity]|]. pose proof (dfind_conv (fun v => v) (h_cell h a) (Some nm)) as X0. cbv beta in X0. rewrite X0, Dw. reflexivity. }
      pose proof (resolves_fun V1 R) as Y. subst v. unfold m_value. rewrite V2 by exact Tw. now rewrite Tw.
    - intros Fl w Hw Tw. assert (truthy v = false) as Tv.
      { assert (dict_option h (fun v => v) (get (s "value")) = DNone) as Dn.
        { unfold flag in Fl. destruct (get (s "value")) as [[u|a]|]; cbn [dict_option btruthy] in *; [rewrite Fl; reflexivity|destruct (h_cell h a); [reflexivity|discriminate]|reflexivity]. }
        rewrite Dn in Q. cbn [ensure_dict] in Q. apply pair_equal_spec in Q as [Qa Qb]. rewrite Qa, Qb in V1. rewrite (resolves_fun V1 (resolves_single _ _ _ _)). reflexivity. }
      unfold m_value. rewrite V3, D2, Hw by exact Tv. cbn [given]. now rewrite Tw.
    - intro Nt. rewrite Fn; [rewrite D7; destruct (mo_fmt (item_opts x)); reflexivity|]. rewrite E7. rewrite TR. exact Nt.
    - intros w X T Tr. rewrite X, dict_single in QV by exact T. apply pair_equal_spec in QV as [Qv Qd]. unfold accepted in Ac. rewrite E8, Qv, Qd in Ac.
      destruct (Ac (proj2 (TR _) Tr)) as (wv & Rw & Aw). rewrite <- (resolves_fun (resolves_single _ _ _ _) Rw) in Aw. unfold as_validator in Aw. rewrite T in Aw. exact Aw.
  Qed.
End Function.
Lemma result_shows_ext W h g g' x m : (forall k, k <> k_overrides -> k <> k_formatter -> g k = g' k) -> result_shows W h g x m -> result_shows W h g' x m.
Proof.
  intros E [S1 S2 S3 S4 S5 S6 S7 S8 S9 S10 S11 S12 S13 S14].
  assert (G : forall k : pstr, pstr_eqb k k_overrides = false -> pstr_eqb k k_formatter = false -> g k = g' k).
  { intros k A B. apply E; intros ->; rewrite pstr_eqb_refl in *; discriminate. }
  unfold treated in *. rewrite !G in * by (vm_compute; reflexivity). constructor; assumption.
Qed.

(** ** C130: theorems *)
(** Every match of a functional pattern is made from a result of one of its functions, and shows it and the options in force when the pattern was built *)
Theorem C130_functions : forall W h ops kd key kw h' f' p id fs n input n' outs raws m,
  Forall proper_op ops -> NoDup (dkeys kw) ->
  add (st_heap (bhistory h ops)) (st_factory (bhistory h ops)) kd key kw = (h', f', Ok p) ->
  unprocessed (wanted ops kd key kw) ->
  pattern_matches (assemble W h' id p) (SFunctional fs) n input = Ok (n', (outs, raws)) -> In m outs ->
  exists f x, In f fs /\ In x (results (f input)) /\ result_shows W h' (wanted ops kd key kw) x m.
Proof.
  intros W h ops kd key kw h' f' p id fs n input n' outs raws m P N E U H Hm.
  assert (G : forall k, k <> k_overrides -> k <> k_formatter -> dfind (bp_opts p) k = wanted ops kd key kw k).
  { intros k A B. apply (wanted_built P N E A). intro X. destruct (B X). }
  assert (UG : unprocessed (fun k => dfind (bp_opts p) k)) by (intros k0 Hk0 x0; rewrite G; [apply U, Hk0|..]; intros ->; simpl in Hk0; intuition discriminate).
  destruct (assembled_result UG H Hm) as (f & x & Hf & Hx & S). exists f, x. split; [exact Hf|]. split; [exact Hx|]. exact (result_shows_ext G S).
Qed.

(** A functional pattern with a name, tags and a value, whose function gives a result with its own tags, a result with its own name and private, and an empty one *)
Definition two_results (text : pstr) : fresult :=
  FMany [FTuple 0 2 (Some (VInt 7)) (Some (MOpts None None (Some [s "own"]) None None None None)); FDict 2 3 (MOpts (Some (VInt 8)) (Some (Some (s "other"))) None None (Some true) None None); FTuple 1 1 None None].
Definition functional_kw (value : list (pstr * bval)) : opts := [(s "name", BVal (VStr (s "n"))); (s "tags", BVal (VList [VStr (s "t")]))] ++ value.
Example C130_functions_case : forall value, In value [[]; [(s "value", BVal (VInt 9))]] ->
  let h := Heap 0 (fun _ => []) in
  let W := Callables (fun _ x => x) (fun _ _ => true) (fun _ m => (m, Keep)) (fun _ l => l) (fun _ => 0%nat) in
  NoDup (dkeys (functional_kw value)) /\ unprocessed (wanted [] KFunctional NoKey (functional_kw value))
  /\ exists h' f' p n' outs raws,
    add (st_heap (bhistory h [])) (st_factory (bhistory h [])) KFunctional NoKey (functional_kw value) = (h', f', Ok p)
    /\ pattern_matches (assemble W h' 5 p) (SFunctional [two_results]) 0%nat (s "text") = Ok (n', (outs, raws))
    /\ map (fun m => (m_span m, m_name m, m_tags m, m_private m, m_value m)) outs
       = [((0, 2), Some (s "n"), [s "own"], false, match value with [] => VInt 7 | _ => VInt 9 end);
          ((2, 3), Some (s "other"), [s "t"], true, match value with [] => VInt 8 | _ => VInt 9 end)].
Proof.
  intros value Hv h W. destruct Hv as [<-|[<-|[]]].
  all: split; [repeat constructor; cbn; intuition discriminate|]; split; [intros k Hk x; destruct Hk as [<-|[<-|[<-|[]]]]; vm_compute; discriminate|].
  all: eexists _, _, _, _, _, _; split; [vm_compute; reflexivity|]; split; [vm_compute; reflexivity|]; vm_compute; reflexivity.
Qed.
Print Assumptions C130_functions.
