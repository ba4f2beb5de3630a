(** * C77: the shortcuts for pattern options *)
From Verif Require Import Base BaseFacts Match Coll Loose Pattern Chain.
From Coq Require String.
Export Coq.Strings.String.StringSyntax.
Set Implicit Arguments.
Unset Strict Implicit.
Open Scope string_scope.
Open Scope list_scope.
Open Scope Z_scope.

(** two patterns which differ at most by how formatters, values and validators are given, and
    find the same one for every match *)
Definition same_but_dicts (p p' : popts) : Prop :=
  po_id p = po_id p' /\ po_kw p = po_kw p' /\ po_children p = po_children p' /\ po_every p = po_every p'
  /\ po_private_parent p = po_private_parent p' /\ po_private_children p = po_private_children p'
  /\ po_private_names p = po_private_names p' /\ po_ignore_names p = po_ignore_names p'
  /\ po_format_all p = po_format_all p' /\ po_validate_all p = po_validate_all p'
  /\ po_pre p = po_pre p' /\ po_post p = po_post p' /\ po_post_processor p = po_post_processor p'.
Definition resolve_alike (p p' : popts) : Prop := forall m child,
  get_first_defined (po_formatters p) (config_keys m child) (po_formatter p) = get_first_defined (po_formatters p') (config_keys m child) (po_formatter p')
  /\ (let v := get_first_defined (po_values p) (config_keys m child) (po_value p) in
      let v' := get_first_defined (po_values p') (config_keys m child) (po_value p') in v = v' \/ truthy v = false /\ truthy v' = false)
  /\ get_first_defined (po_validators p) (config_keys m child) (po_validator p) = get_first_defined (po_validators p') (config_keys m child) (po_validator p').

Section Congruence.
  Variables p p' : popts.
  Hypothesis S : same_but_dicts p p'.
  Hypothesis R : resolve_alike p p'.
  Lemma process_value_alike m child : process_value p m child = process_value p' m child.
  Proof.
    unfold process_value. destruct (R m child) as (_ & [E|[E E']] & _); [now rewrite E|now rewrite E, E'].
  Qed.
  Lemma included_alike child : included p child = included p' child.
  Proof. unfold included, include_children, include_parent. destruct S as (_ & _ & -> & -> & _). reflexivity. Qed.
  Lemma process_formatter_alike m child : process_formatter p m child = process_formatter p' m child.
  Proof. unfold process_formatter. rewrite included_alike. destruct S as (_ & _ & _ & _ & _ & _ & _ & _ & -> & _). now rewrite (proj1 (R m child)). Qed.
  Lemma process_validator_alike m child : process_validator p m child = process_validator p' m child.
  Proof. unfold process_validator. rewrite included_alike. destruct S as (_ & _ & _ & _ & _ & _ & _ & _ & _ & -> & _). now rewrite (proj2 (proj2 (R m child))). Qed.
  Lemma process_private_alike m child : process_private p m child = process_private p' m child.
  Proof. unfold process_private. destruct S as (_ & _ & _ & _ & -> & -> & -> & _). reflexivity. Qed.
  Lemma process_match_alike m i child : process_match p m i child = process_match p' m i child.
  Proof. unfold process_match. rewrite process_private_alike, process_value_alike, process_formatter_alike, process_validator_alike. reflexivity. Qed.
  Lemma dispatch_alike m : dispatch p m = dispatch p' m.
  Proof.
    unfold dispatch, not_ignored, include_parent, include_children. destruct S as (_ & _ & -> & -> & -> & -> & _ & -> & _). reflexivity.
  Qed.
  Variables pm pm' : mtch -> nat -> bool -> mtch * bool.
  Hypothesis P : forall m i child, pm m i child = pm' m i child.
  Lemma process_children_alike parent i done todo : process_children pm parent i done todo = process_children pm' parent i done todo.
  Proof. revert done. induction todo as [|c r IH]; intro done; simpl; [reflexivity|]. rewrite P. destruct (pm' _ i true) as [c' [|]]; [apply IH|reflexivity]. Qed.
  Lemma process_matches_alike m i : process_matches p pm m i = process_matches p' pm' m i.
  Proof.
    unfold process_matches. destruct S as (_ & _ & _ & _ & _ & _ & _ & _ & _ & _ & -> & -> & _).
    destruct (apply_processor (po_pre p') m) as [[raw m1] same]. unfold stop_if_falsy. destruct m1 as [m1|]; [|reflexivity].
    destruct (mbool m1) as [[|]|]; try reflexivity. rewrite P. destruct (pm' m1 i false) as [m2 ok]. destruct (negb ok); [reflexivity|].
    rewrite process_children_alike. destruct (process_children pm' m2 i [] (m_children m2)) as [cs ok']. destruct (negb ok'); [reflexivity|].
    destruct (apply_processor (po_post p') _) as [[m3 m4] same']. destruct m4 as [m4|]; [|reflexivity]. destruct (mbool m4) as [[|]|]; try reflexivity.
    now rewrite dispatch_alike.
  Qed.
  Lemma finish_matches_alike occ : finish_matches p pm occ = finish_matches p' pm' occ.
  Proof.
    unfold finish_matches. assert (A : forall l i, process_all p pm i l = process_all p' pm' i l).
    { induction l as [|m l IH]; intro i; simpl; [reflexivity|]. rewrite process_matches_alike. destruct (process_matches p' pm' m i) as [[raw out]|]; [|reflexivity]. now rewrite IH. }
    assert (B : process_patterns p pm occ = process_patterns p' pm' occ).
    { induction occ as [|o r IH]; simpl; [reflexivity|]. rewrite A. destruct (process_all p' pm' 0 o) as [[x y]|]; [|reflexivity]. now rewrite IH. }
    rewrite B. destruct S as (_ & _ & _ & _ & _ & _ & _ & _ & _ & _ & _ & _ & ->). reflexivity.
  Qed.
End Congruence.

Lemma run_pattern_alike p p' A (subs : list A) f f' n input : same_but_dicts p p' -> resolve_alike p p' -> (forall a, f a input = f' a input) ->
  run_pattern p subs f n input = run_pattern p' subs f' n input.
Proof.
  intros S R F. unfold run_pattern.
  assert (E : sequence (fun sub => f sub input) subs = sequence (fun sub => f' sub input) subs).
  { induction subs as [|x r IH]; simpl; [reflexivity|]. rewrite F. destruct (f' x input); [|reflexivity]. now rewrite IH. }
  rewrite E. destruct (sequence (fun sub => f' sub input) subs) as [occ|]; [|reflexivity]. destruct (number_lists n occ) as [n' occ'].
  rewrite (finish_matches_alike S (process_match_alike S R)). reflexivity.
Qed.
Lemma sequence_ext A B (f f' : A -> res B) l : (forall a, f a = f' a) -> sequence f l = sequence f' l.
Proof. intro E. induction l as [|x r IH]; simpl; [reflexivity|]. now rewrite E, IH. Qed.
Lemma pattern_matches_alike p p' src n input : same_but_dicts p p' -> resolve_alike p p' -> pattern_matches p src n input = pattern_matches p' src n input.
Proof.
  intros S R. pose proof S as (I & K & _). destruct src as [lower o subs|rep subs|fs]; simpl; apply run_pattern_alike; auto; intro a.
  - unfold string_match. now rewrite I, K.
  - unfold re_match. rewrite (@sequence_ext _ _ (re_one p rep (rx_groups a) input) (re_one p' rep (rx_groups a) input)); [reflexivity|].
    intro o. unfold re_one, re_child. now rewrite I, K.
  - unfold functional_match. rewrite (@sequence_ext _ _ (functional_one p input) (functional_one p' input)); [reflexivity|].
    intro x. unfold functional_one. now rewrite I, K.
Qed.
Lemma chain_matches_alike fuel p p' breaker parts n input : same_but_dicts p p' -> resolve_alike p p' ->
  chain_matches fuel p breaker parts n input = chain_matches fuel p' breaker parts n input.
Proof.
  intros S R. pose proof S as (I & K & _). unfold chain_matches, chain_match.
  assert (E : forall f n text offset acc, chain_loop f p breaker parts input n text offset acc = chain_loop f p' breaker parts input n text offset acc).
  { induction f as [|f IH]; intros k text offset acc; simpl; [reflexivity|]. destruct (offset <? zlen input); [|reflexivity].
    destruct (run_parts breaker input true parts _) as [[st valid]|]; [|reflexivity]. destruct (negb (cs_found st)); [reflexivity|].
    assert (B : build_chain_match p (cs_next st) (cs_current st) input = build_chain_match p' (cs_next st) (cs_current st) input)
      by (unfold build_chain_match; now rewrite I, K).
    destruct (cs_current st); [apply IH|]. destruct valid; [|apply IH]. rewrite B. destruct (build_chain_match p' _ _ input); [apply IH|reflexivity]. }
  rewrite E. destruct (chain_loop fuel p' breaker parts input n input 0 []) as [[n' ms]|]; [|reflexivity].
  assert (Sh : forall i child groups m, shrink p i child groups m = shrink p' i child groups m).
  { induction groups as [|g r IH]; intro m; cbn [shrink]; [reflexivity|]. rewrite (process_match_alike S R). destruct (process_match p' _ i child) as [m2 [|]]; [reflexivity|apply IH]. }
  rewrite (@finish_matches_alike p p' S (chain_process_match p) (chain_process_match p')); [reflexivity|].
  intros m i child. unfold chain_process_match. rewrite (process_match_alike S R). destruct (process_match p' m i child) as [m1 [|]]; [reflexivity|].
  destruct (rev (m_children m1)); [reflexivity|]. now rewrite Sh.
Qed.

(** ** A bare option is a shortcut for [{None: option}] *)
Definition spelled_out {V} (d : dparam V) : dparam V := match d with DSingle v => DDict [(None, v)] | _ => d end.
Lemma first_defined_none {V} (v d : V) m child : get_first_defined [(None, v)] (config_keys m child) d = v.
Proof. unfold config_keys. destruct (m_name m) as [[|c r]|], child; reflexivity. Qed.
Lemma spelled_out_alike {V} (d : dparam V) default m child :
  get_first_defined (fst (ensure_dict (spelled_out d) default)) (config_keys m child) (snd (ensure_dict (spelled_out d) default))
  = get_first_defined (fst (ensure_dict d default)) (config_keys m child) (snd (ensure_dict d default)).
Proof. destruct d as [|v|d]; try reflexivity. simpl. now rewrite !first_defined_none. Qed.

Section C77.
  Variables (id : nat) (kw : mopts) (children every private_parent private_children : bool) (private_names ignore_names : list pstr)
            (format_all validate_all : bool) (pre post : option processor) (post_processor : option (list mtch -> list mtch)).
  (** a pattern with these formatter, value and validator options, the others being the same *)
  Definition with_options (formatter : dparam fmtr) (value : dparam pyval) (validator : dparam vldr) : popts :=
    new_pattern id kw formatter value validator children every private_parent private_children private_names ignore_names
                format_all validate_all pre post post_processor.
  Lemma with_options_same f v c f' v' c' : same_but_dicts (with_options f v c) (with_options f' v' c').
  Proof.
    unfold with_options, new_pattern. destruct (ensure_dict f _), (ensure_dict v _), (ensure_dict c _), (ensure_dict f' _), (ensure_dict v' _), (ensure_dict c' _).
    repeat split; reflexivity.
  Qed.
  Lemma with_options_dicts f v c : let p := with_options f v c in
    (po_formatters p, po_formatter p) = ensure_dict f (Some default_formatter) /\ (po_values p, po_value p) = ensure_dict v VNone
    /\ (po_validators p, po_validator p) = ensure_dict c (Some allways_true).
  Proof. unfold with_options, new_pattern. destruct (ensure_dict f _), (ensure_dict v _), (ensure_dict c _). repeat split; reflexivity. Qed.

  (** *** C77 Giving a bare formatter, value or validator finds the same matches, with the same
      values, as giving [{None: it}], for every kind of pattern, chains included, on every input *)
  Theorem C101_shortcut f v c src n input :
    pattern_matches (with_options f v c) src n input = pattern_matches (with_options (spelled_out f) (spelled_out v) (spelled_out c)) src n input
    /\ forall fuel breaker parts, chain_matches fuel (with_options f v c) breaker parts n input
                                = chain_matches fuel (with_options (spelled_out f) (spelled_out v) (spelled_out c)) breaker parts n input.
  Proof.
    assert (R : resolve_alike (with_options f v c) (with_options (spelled_out f) (spelled_out v) (spelled_out c))).
    { intros m child. destruct (with_options_dicts f v c) as (A1 & A2 & A3). destruct (with_options_dicts (spelled_out f) (spelled_out v) (spelled_out c)) as (B1 & B2 & B3).
      pose proof (spelled_out_alike f (Some default_formatter) m child) as F. rewrite <- A1, <- B1 in F.
      pose proof (spelled_out_alike v VNone m child) as G. rewrite <- A2, <- B2 in G.
      pose proof (spelled_out_alike c (Some allways_true) m child) as H. rewrite <- A3, <- B3 in H.
      cbn [fst snd] in F, G, H. split; [now rewrite F|]. split; [left; now rewrite G|now rewrite H]. }
    split; [|intros]; [apply pattern_matches_alike|apply chain_matches_alike]; auto using with_options_same.
  Qed.

  (** what the user gives as a bare value: falsy objects count as no option (loose.py:131-132) *)
  Definition bare_value (v : pyval) : dparam pyval := if truthy v then DSingle v else DNone.
  (** *** C77 A falsy value (0, False, "", an empty list) is never set, however it is given *)
  Theorem C101_falsy_value f c v src n input : truthy v = false ->
    pattern_matches (with_options f (bare_value v) c) src n input = pattern_matches (with_options f DNone c) src n input
    /\ pattern_matches (with_options f (DDict [(None, v)]) c) src n input = pattern_matches (with_options f DNone c) src n input.
  Proof.
    intro T. unfold bare_value. rewrite T. split; [reflexivity|]. apply pattern_matches_alike; [apply with_options_same|].
    intros m child. destruct (with_options_dicts f (DDict [(None, v)]) c) as (A1 & A2 & A3). destruct (with_options_dicts f DNone c) as (B1 & B2 & B3).
    rewrite <- B1 in A1. rewrite <- B3 in A3. injection A1 as -> ->. injection A3 as -> ->. split; [reflexivity|]. split; [|reflexivity]. right.
    injection A2 as -> ->. injection B2 as -> ->. rewrite !first_defined_none. split; [exact T|reflexivity].
  Qed.
End C77.
(** "The value will be set in Match.value": refuted for 0, given bare or in a dictionary; 7 is set *)
Definition p77 (v : dparam pyval) : popts := with_options 1 no_opts false false false false [] [] false false None None None DNone v DNone.
Definition found77 (v : dparam pyval) : res (list pyval) :=
  match pattern_matches (p77 v) (SString (fun x => x) (StringOpts None None false) [s "none"]) 0%nat (s "no, none") with
  | Ok (_, (ms, _)) => Ok (map m_value ms)
  | Err e => Err e
  end.
Theorem C77_value_zero_refuted :
  found77 (bare_value (VInt 7)) = Ok [VInt 7]
  /\ found77 (bare_value (VInt 0)) = Ok [VStr (s "none")]
  /\ found77 (DDict [(None, VInt 0)]) = Ok [VStr (s "none")].
Proof. repeat split; vm_compute; reflexivity. Qed.
(** a bare validator, formatter and value together, on a regular pattern *)
Example C77_witness :
  let p := with_options 1 no_opts false false false false [] [] false false None None None
             (DSingle (Some (fun _ => VInt 1))) DNone (DSingle (Some (fun m => m_start m >? 0))) in
  match pattern_matches p (SString (fun x => x) (StringOpts None None false) [s "no"]) 0%nat (s "no, none") with
  | Ok (_, (ms, _)) => map (fun m => (m_span m, m_value m)) ms = [((4, 6), VInt 1)]
  | Err _ => False
  end.
Proof. vm_compute. reflexivity. Qed.
Print Assumptions C101_shortcut. Print Assumptions C101_falsy_value.
