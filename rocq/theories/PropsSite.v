(** * Property C135: what the matches of a whole program show of the options it gave *)
From Coq Require Import Permutation.
From Verif Require Import Typed Base BaseFacts Match MatchFacts Coll CollFacts Loose Conseq ConseqFacts Processors ProcFacts Pattern PatternFacts PropsLoose PropsPattern Topo Rules RulesFacts PropsRules Chain SpecChain PropsChain Builder BuilderFacts PropsBuilder PropsKeys Rebulk RebulkFacts PropsRebulk Pipeline SpecNest SpecOnce OnceFacts PropsOnce PropsInside Assemble PropsAssemble PropsFunction SpecMoved PropsMoved PropsParts Fluent PropsFluent Built PropsBuilt Site.
From Coq Require String.
Export Coq.Strings.String.StringSyntax.
Open Scope string_scope.
Open Scope list_scope.
Set Implicit Arguments.
Unset Strict Implicit.
Open Scope Z_scope.

(** ** Specification *)
(** the configuration of a builder: the default of each group for each option *)
Definition config := group -> pstr -> option bval.
(** the same option, a dictionary being copied *)
Definition copy_of (h h' : heap) (o o' : option bval) : Prop :=
  match o, o' with
  | None, None => True
  | Some (BVal v), Some (BVal w) => w = v
  | Some (BDict a), Some (BDict b) => (h_next h <= b)%nat /\ forall n, dfind (h_cell h' b) n = dfind (h_cell h a) n
  | _, _ => False
  end.
Definition configures (e : sevent) (b : option nat) : Prop :=
  builder_of (sv_on e) = b /\ (exists g kw, sv_call e = SDefaults g kw) /\ exists o, sv_result e = Ok o.
(** The configuration in force after the calls of a log: nothing at first; what defaults() gives; a chain starts with a copy
    of the configuration of the builder it was opened with *)
Inductive in_force : list sevent -> option nat -> config -> Prop :=
| force_start c : (forall g k, c g k = None) -> in_force [] None c
| force_defaults log b c e g kw c' :
    in_force log b c -> sv_call e = SDefaults g kw -> builder_of (sv_on e) = b -> (exists o, sv_result e = Ok o) ->
    (forall g' k, c' g' k = after_op g' (c g') (ODefaults g kw) k) -> in_force (log ++ [e]) b c'
| force_other log b c e : in_force log b c -> ~ configures e b -> in_force (log ++ [e]) b c
| force_chain log b c e kw n c' :
    in_force log b c -> sv_call e = SChain kw -> builder_of (sv_on e) = b -> sv_result e = Ok (HBuilder n) ->
    (forall g k, copy_of (sv_built e) (sv_after e) (c g k) (c' g k)) -> in_force (log ++ [e]) (Some n) c'.
(** the option in force for a pattern built with these defaults (see [wanted]) *)
Definition wanted_by (c : config) (kd : pkind) (key : keyarg) (kw : opts) (k : pstr) : option bval :=
  if overridden kw k then asked key kw k else pick (pick (asked key kw k) (c (GKind kd) k)) (c GAll k).
(** what several keys ask for a name: the formatter given for it, else the converter of the first key of that name *)
Definition key_entry (h : heap) (ks : list bkey) (kw : opts) (n : option pstr) : option pyval :=
  match (match dfind kw (s "formatter") with Some (BDict b) => dfind (h_cell h b) n | _ => None end) with
  | Some v => Some v
  | None => match n with Some m => first_converter ks m | None => None end
  end.
(** The option "formatter" in force for a pattern.  Several keys make a dictionary: it has what they ask for (list values,
    which no formatter is, apart), and nothing else unless the defaults give a dictionary.  ([before], [built]: the
    dictionaries before the call and when the pattern was built; no dictionary uses the name "clear") *)
Definition given_by (before built : heap) (c : config) (kd : pkind) (key : keyarg) (kw : opts) (g : option bval) : Prop :=
  match key with
  | Keys (k :: r) => exists a, g = Some (BDict a) /\ (proper_heap before -> clear_free before -> key_names_ok key ->
      (forall n v, key_entry before (k :: r) kw n = Some v -> (forall l, v <> VList l) -> dfind (h_cell built a) n = Some v)
      /\ ((forall b, c (GKind kd) (s "formatter") <> Some (BDict b) /\ c GAll (s "formatter") <> Some (BDict b)) -> forall n, dfind (h_cell built a) n = key_entry before (k :: r) kw n))
  | _ => g = wanted_by c kd key kw (s "formatter")
  end.
(** what a child of a match (a group of a regular expression) shows of the options of its pattern, returned or not *)
Record group_shows (W : callables) (h : heap) (get : pstr -> option bval) (m : mtch) : Prop := {
  gs_tags : m_tags m = tags_option (get (s "tags"));
  gs_marker : m_marker m = flag h (get (s "marker"));
  gs_solver : m_solver m = solver_option W (get (s "conflict_solver"));
  gs_private : m_private m = true <->
      flag h (get (s "private")) = true
      \/ (exists n, m_name m = Some n /\ n <> [] /\ In n (names_option (get (s "private_names")))) \/ flag h (get (s "private_children")) = true;
  gs_value : forall v, get (s "value") = Some (BVal v) -> truthy v = true -> m_value m = v;
  gs_values : forall a n v, get (s "value") = Some (BDict a) -> m_name m = Some n -> n <> [] -> dfind (h_cell h a) (Some n) = Some v -> truthy v = true -> m_value m = v
}.
(** The keys declared to a builder, by name: nothing at first; declare_keys() replaces the key of the same name; a chain
    starts with the keys of the builder it was opened with *)
Inductive declared : list sevent -> option nat -> (pstr -> option pyval) -> Prop :=
| decl_start d : (forall x, d x = None) -> declared [] None d
| decl_keys log b d e ks d' :
    declared log b d -> sv_call e = SDeclare ks -> builder_of (sv_on e) = b -> (exists o, sv_result e = Ok o) ->
    (forall x, d' x = match find (fun k => pstr_eqb x (bk_name k)) (rev ks) with Some k => Some (bk_converter k) | None => d x end) -> declared (log ++ [e]) b d'
| decl_other log b d e :
    declared log b d -> ~ (builder_of (sv_on e) = b /\ (exists ks, sv_call e = SDeclare ks) /\ exists o, sv_result e = Ok o) -> declared (log ++ [e]) b d
| decl_chain log b d e kw n d' :
    declared log b d -> sv_call e = SChain kw -> builder_of (sv_on e) = b -> sv_result e = Ok (HBuilder n) -> (forall x, d' x = d x) -> declared (log ++ [e]) (Some n) d'.
(** the formatter for a match of that name; [child]: it is a child; [given]: the option "formatter" in force.  A single formatter formats everything; otherwise
    the formatter given for the name, else the converter of the key of that name, else the same for "__children__" or "__parent__", else the formatter given for None *)
Definition formatter_for (h : heap) (given : option bval) (keys : pstr -> option pyval) (child : bool) (name : option pstr) : option pyval :=
  match given with
  | Some (BVal v) => if truthy v && negb (py_eqb v library_formatter) then Some v else
      match name with
      | Some (c :: r) => match keys (c :: r) with Some w => Some w | None => keys (if child then s "__children__" else s "__parent__") end
      | _ => keys (if child then s "__children__" else s "__parent__")
      end
  | _ =>
      let entry n := match given with Some (BDict a) => dfind (h_cell h a) n | _ => None end in
      let keyed n := match entry (Some n) with Some v => Some v | None => keys n end in
      let by_role := match keyed (if child then s "__children__" else s "__parent__") with Some v => Some v | None => entry None end in
      match name with Some (c :: r) => match keyed (c :: r) with Some v => Some v | None => by_role end | _ => by_role end
  end.
(** a falsy formatter formats nothing; without any, the default formatter leaves the text as it is *)
Definition formats (W : callables) (f : option pyval) : fmtr := match f with Some v => as_formatter W v | None => Some (fun x => x) end.
Definition formatted (W : callables) (h : heap) (given : option bval) (keys : pstr -> option pyval) (child : bool) (m : mtch) : Prop :=
  m_fmt m = formats W (formatter_for h given keys child (m_name m)).

(** which matches are formatted: see [treated]; a child (a group, or what a part of a chain found) is one *)
Definition formats_children (h : heap) (get : pstr -> option bval) : Prop :=
  flag h (get (s "format_all")) = true \/ flag h (get (s "every")) = true \/ flag h (get (s "children")) = true.
Definition is_child (m : mtch) : bool := match m_parent m with Some _ => true | None => false end.
(** a piece [y] of a chain becomes [z] *)
Definition becomes (W : callables) (h : heap) (get : pstr -> option bval) (keys : pstr -> option pyval) (y z : mtch) : Prop :=
  piece_shows W h get y z /\ (formats_children h get -> formatted W h (get (s "formatter")) keys true z).
(** [displays log b text m]: [m], found in [text] by what the calls on the builder [b] built, shows the options given.
    A match of a string or regex pattern, and its children, show the options in force for the pattern when it was built, and are formatted by the formatter in force; a match of a
    functional pattern shows, moreover, the result it was made from.  A match of a
    chain shows the options in force for the chain; its children, and the matches a chain returns instead of itself, are what
    the parts found in an end of the text -- displaying the options of their own builder --, moved, with the options
    of the chain applied (C134). *)
Inductive displays (W : callables) (log : list sevent) : option nat -> pstr -> mtch -> Prop :=
| by_pattern text m before e after key kw what c keys get o g :
    log = before ++ e :: after -> sv_call e = SPattern key kw what -> kind_searched what <> KFunctional -> sv_result e = Ok o -> in_force before (builder_of (sv_on e)) c ->
    declared before (builder_of (sv_on e)) keys -> get = wanted_by c (kind_searched what) key kw ->
    given_by (sv_before e) (sv_built e) c (kind_searched what) key kw g ->
    shows W (sv_built e) get m -> Forall (group_shows W (sv_built e) get) (m_children m) ->
    (treated (sv_built e) get (s "format_all") m -> formatted W (sv_built e) g keys (is_child m) m) ->
    (formats_children (sv_built e) get -> Forall (formatted W (sv_built e) g keys true) (m_children m)) ->
    displays W log (builder_of (sv_on e)) text m
| by_function text m before e after key kw fs c keys get o f x g :
    log = before ++ e :: after -> sv_call e = SPattern key kw (GFunctional fs) -> sv_result e = Ok o -> in_force before (builder_of (sv_on e)) c ->
    declared before (builder_of (sv_on e)) keys -> get = wanted_by c KFunctional key kw -> given_by (sv_before e) (sv_built e) c KFunctional key kw g ->
    In f fs -> In x (results (f text)) -> result_shows W (sv_built e) get x m ->
    (treated (sv_built e) get (s "format_all") m -> formatted W (sv_built e) g keys false m) ->
    displays W log (builder_of (sv_on e)) text m
| by_chain text m before e after kw c keys get n :
    log = before ++ e :: after -> sv_call e = SChain kw -> sv_result e = Ok (HBuilder n) -> in_force before (builder_of (sv_on e)) c ->
    declared before (builder_of (sv_on e)) keys -> get = wanted_by c Builder.KChain NoKey kw ->
    m_parent m = None -> shows W (sv_built e) get m -> (treated (sv_built e) get (s "format_all") m -> formatted W (sv_built e) (get (s "formatter")) keys false m) ->
    (forall z, In z (m_children m) -> exists front text' x0 w x y, text = front ++ text' /\ displays W log (Some n) text' x0
       /\ moved text w x0 x /\ In y (x :: m_children x) /\ becomes W (sv_built e) get keys y z) ->
    displays W log (builder_of (sv_on e)) text m
| by_piece text m before e after kw c keys get n front text' x0 w x y :
    log = before ++ e :: after -> sv_call e = SChain kw -> sv_result e = Ok (HBuilder n) -> in_force before (builder_of (sv_on e)) c ->
    declared before (builder_of (sv_on e)) keys -> get = wanted_by c Builder.KChain NoKey kw ->
    flag (sv_built e) (get (s "children")) = true \/ flag (sv_built e) (get (s "every")) = true \/ flag (sv_built e) (get (s "private_children")) = true ->
    (forall nm, m_name m = Some nm -> ~ In nm (names_option (get (s "ignore_names")))) ->
    text = front ++ text' -> displays W log (Some n) text' x0 -> moved text w x0 x -> In y (x :: m_children x) -> becomes W (sv_built e) get keys y m ->
    (forall v, get (s "validator") = Some (BVal v) -> truthy v = true ->
       flag (sv_built e) (get (s "validate_all")) = true \/ flag (sv_built e) (get (s "every")) = true \/ flag (sv_built e) (get (s "children")) = true ->
       exists q, call_validator W v (set_parent m q) = true) ->
    displays W log (builder_of (sv_on e)) text m.
(** what is asked of the calls: keyword arguments are dictionaries, "clear" is not a dictionary, dictionaries of options
    exist ([h]); no processor is given *)
Definition no_processors (kw : opts) : Prop :=
  forall k, In k [s "pre_match_processor"; s "post_match_processor"; s "post_processor"] -> forall n, dfind kw k <> Some (BVal (VObj n)).
Definition plain_kw (h : heap) (kw : opts) : Prop := NoDup (dkeys kw) /\ (forall a, In a (addrs kw) -> (a < h_next h)%nat) /\ no_processors kw.
Definition plain_call (h : heap) (k : scall) : Prop :=
  match k with
  | SDefaults _ kw => plain_kw h kw /\ forall a, dfind kw k_clear <> Some (BDict a)
  | SPattern _ kw _ => plain_kw h kw
  | SChain kw => plain_kw h kw
  | _ => True
  end.
(** no key is named "clear" *)
Definition names_ok (k : scall) : Prop :=
  match k with SDeclare ks => Forall (fun k => bk_name k <> k_clear) ks | SPattern key _ _ => key_names_ok key | _ => True end.

(** ** Proofs *)
(** *** Copies of a configuration *)
Lemma deepcopy_shape : forall (d acc : opts) h h' d', fold_left copy_value d (h, acc) = (h', d') ->
  dkeys d' = dkeys acc ++ dkeys d /\ (h_next h <= h_next h')%nat
  /\ ((forall a, In a (addrs acc) -> (a < h_next h)%nat) -> forall a, In a (addrs d') -> (a < h_next h')%nat).
Proof.
  induction d as [|[k v] d IH]; intros acc h h' d' E; cbn [fold_left] in E.
  - injection E as <- <-. unfold dkeys. cbn [map]. rewrite app_nil_r. auto.
  - destruct v as [v|a].
    + change (copy_value (h, acc) (k, BVal v)) with (h, acc ++ [(k, BVal v)]) in E. destruct (IH _ _ _ _ E) as (I1 & I2 & I3).
      split; [rewrite I1; unfold dkeys; rewrite map_app, <- app_assoc; reflexivity|]. split; [exact I2|]. intro A. apply I3. intros x Hx. unfold addrs in Hx. rewrite flat_map_app in Hx.
      apply in_app_or in Hx as [Hx|[]]. apply A, Hx.
    + change (copy_value (h, acc) (k, BDict a)) with (fst (halloc h (h_cell h a)), acc ++ [(k, BDict (h_next h))]) in E. destruct (IH _ _ _ _ E) as (I1 & I2 & I3). cbn in I2.
      split; [rewrite I1; unfold dkeys; rewrite map_app, <- app_assoc; reflexivity|]. split; [lia|]. intro A. apply I3. intros x Hx. unfold addrs in Hx. rewrite flat_map_app in Hx. cbn.
      apply in_app_or in Hx as [Hx|[<-|[]]]; [|lia]. apply A in Hx. lia.
Qed.
Lemma chain_factory_shape h f h' f' : chain_factory h f = (h', f') ->
  (forall g, dkeys (f_defaults f' g) = dkeys (f_defaults f g)) /\ (h_next h <= h_next h')%nat /\ (forall g a, In a (addrs (f_defaults f' g)) -> (a < h_next h')%nat).
Proof.
  unfold chain_factory, deepcopy. intro E.
  destruct (fold_left copy_value (f_defaults f GAll) (h, [])) as [h1 d1] eqn:E1. destruct (fold_left copy_value (f_defaults f (GKind KRegex)) (h1, [])) as [h2 d2] eqn:E2.
  destruct (fold_left copy_value (f_defaults f (GKind KFunctional)) (h2, [])) as [h3 d3] eqn:E3. destruct (fold_left copy_value (f_defaults f (GKind KString)) (h3, [])) as [h4 d4] eqn:E4.
  destruct (fold_left copy_value (f_defaults f (GKind Builder.KChain)) (h4, [])) as [h5 d5] eqn:E5.
  apply pair_equal_spec in E as [<- <-].
  destruct (deepcopy_shape E1) as (A1 & B1 & C1). destruct (deepcopy_shape E2) as (A2 & B2 & C2). destruct (deepcopy_shape E3) as (A3 & B3 & C3).
  destruct (deepcopy_shape E4) as (A4 & B4 & C4). destruct (deepcopy_shape E5) as (A5 & B5 & C5).
  split; [intros [|[]]; cbn; assumption|]. split; [lia|].
  assert (Z : forall (n : nat) a, In a (addrs []) -> (a < n)%nat) by (intros n a []).
  intros [|[]] a Ha; cbn in Ha; [specialize (C1 (Z _) a Ha)|specialize (C2 (Z _) a Ha)|specialize (C4 (Z _) a Ha)|specialize (C3 (Z _) a Ha)|specialize (C5 (Z _) a Ha)]; lia.
Qed.
Lemma chain_factory_keys h f h' f' : chain_factory h f = (h', f') -> f_keys f' = f_keys f.
Proof. unfold chain_factory. intro E. repeat destruct (deepcopy _ _) as [? ?]. apply pair_equal_spec in E as [_ <-]. reflexivity. Qed.
Lemma chain_factory_copies h f h' f' : (forall g a, In a (addrs (f_defaults f g)) -> (a < h_next h)%nat) -> chain_factory h f = (h', f') ->
  forall g k, copy_of h h' (dfind (f_defaults f g) k) (dfind (f_defaults f' g) k).
Proof.
  intros AL E g k. destruct (C63_chain_inherits_a_copy AL E) as (A & _ & B & _). specialize (A g k). unfold copy_of.
  destruct (dfind (f_defaults f g) k) as [[v|a]|] eqn:E1; destruct (dfind (f_defaults f' g) k) as [[w|b]|] eqn:E2; cbn in A; auto.
  split; [|exact A]. apply (B g). eapply addrs_In. exact E2.
Qed.

(** *** Options of a pattern *)
Lemma wanted_by_built h f kd key kw h' f' p : no_clear_stored f -> (forall g, NoDup (dkeys (f_defaults f g))) -> NoDup (dkeys kw) ->
  add h f kd key kw = (h', f', Ok p) ->
  forall k, k <> k_overrides -> (k = k_formatter -> match key with Keys (_ :: _) => False | _ => True end) ->
  dfind (bp_opts p) k = wanted_by (fun g => dfind (f_defaults f g)) kd key kw k.
Proof.
  intros C Nf N E k Ko Kf. unfold add in E. destruct (apply_key _ key kw) as [h1 [kw1|e]] eqn:Ek; [|discriminate].
  destruct (build_objects C Nf (key_nodup Ek N) E Ko) as [B1 B2].
  rewrite (key_asked Ek Kf) in B1, B2.
  assert (O : dfind kw1 k_overrides = dfind kw k_overrides).
  { rewrite (key_asked Ek) by discriminate. unfold asked. destruct (dfind kw k_overrides); [reflexivity|]. destruct key; reflexivity. }
  assert (NI : named_in kw1 k <-> named_in kw k) by (unfold named_in; rewrite O; tauto).
  unfold wanted_by. destruct (overridden kw k) eqn:Eo.
  - apply B1, NI, overridden_named, Eo.
  - apply B2. intro X. apply NI, overridden_named in X. congruence.
Qed.
Lemma wanted_by_unprocessed (c : config) kd key kw : no_processors kw ->
  (forall g k, In k [s "pre_match_processor"; s "post_match_processor"; s "post_processor"] -> forall n, c g k <> Some (BVal (VObj n))) -> unprocessed (wanted_by c kd key kw).
Proof.
  intros N C k Hk n. assert (A : forall n, asked key kw k <> Some (BVal (VObj n))).
  { intro n0. unfold asked. pose proof (N k Hk n0) as X. destruct (dfind kw k); [exact X|]. destruct key as [|t|]; try discriminate.
    destruct Hk as [<-|[<-|[<-|[]]]]; cbn; discriminate. }
  assert (P : forall a b, (forall n, a <> Some (BVal (VObj n))) -> (forall n, b <> Some (BVal (VObj n))) -> forall n, pick a b <> Some (BVal (VObj n))).
  { intros a b Ha Hb n0. destruct a as [[v|x]|]; cbn [pick]; [|discriminate|apply Hb]. destruct b as [[w|y]|]; [|discriminate || apply Ha..].
    unfold win_value. destruct v, w; try discriminate; try (intro X; injection X as X; subst); try (apply (Ha n0); congruence). }
  unfold wanted_by. destruct (overridden kw k); [apply A|]. apply P; [apply P|]; auto.
Qed.
(** *** Children of the matches of a pattern *)
Lemma Forall2_in_r {A B} (R : A -> B -> Prop) l l' y : Forall2 R l l' -> In y l' -> exists x, In x l /\ R x y.
Proof. induction 1 as [|x z l l' H F IH]; intros Hy; [destruct Hy|]. destruct Hy as [<-|Hy]; [exists x; split; [left; reflexivity|exact H]|]. destruct (IH Hy) as (w & Hw & Rw). exists w. split; [right; exact Hw|exact Rw]. Qed.
Lemma returned_children p src n input n' outs raws m : no_processor p -> ~ functional src -> pattern_matches p src n input = Ok (n', (outs, raws)) -> In m outs ->
  forall z, In z (m_children m) -> exists i c, PropsPattern.made p true input c /\ PropsPattern.settings p i true c z.
Proof.
  intros (N1 & N2 & N3) NF H Hm z Hz.
  assert (exists found occs, finds p input src found /\ Forall2 (Forall2 same_occurrence) found occs
    /\ exists outss, Forall2 (outcomes p) occs outss /\ outs = concat outss) as (found & occs & A & B & outss & D & ->).
  { destruct src as [lw so subs|rep subs|subs]; [..|destruct (NF I)].
    - apply run_pattern_spec in H as (found & occs & A & B & _ & D & _); auto.
      + exists found, occs. auto.
      + intros sub ms _ E. apply string_match_raw in E. eapply Forall_impl; [|exact E]. simpl; tauto.
    - apply run_pattern_spec in H as (found & occs & A & B & _ & D & _); auto.
      + exists found, occs. auto.
      + intros sub ms _ E. apply re_match_raw in E. eapply Forall_impl; [|exact E]. simpl; tauto. }
  apply in_concat in Hm as (os & Hos & Hm). destruct (Forall2_in_r D Hos) as (occ & Hocc & oss & F & ->).
  apply in_concat in Hm as (o1 & Ho1 & Hm). destruct (Forall2i_in_r F Ho1) as (a & i & Ha & O).
  destruct (Forall2_in_r B Hocc) as (f & Hf & Ff). destruct (Forall2_in_r Ff Ha) as (o & Ho & k & Ek & S).
  assert (In o (concat found)) as Hoc by (apply in_concat; eauto).
  destruct (found_made NF A Hoc) as [_ MC]. destruct (found_shallow A) as [SH _]. rewrite Forall_forall in SH. specialize (SH o Hoc). rewrite Forall_forall in SH.
  assert (CA : forall c, In c (m_children a) -> PropsPattern.made p true input c /\ m_children c = []).
  { intros c Hc. destruct (Forall2_in_r S Hc) as (c0 & Hc0 & (k' & q & ->)). split; [|exact (SH c0 Hc0)]. exact (MC c0 Hc0). }
  unfold outcome in O. destruct (_ && _)%bool in O; [|subst o1; destruct Hm]. subst o1. rewrite dispatch_chosen in Hm. unfold chosen in Hm.
  assert (K : forall c, In c (m_children (configured p i a)) -> exists c0 q, In c0 (m_children a) /\ c = set_parent (configure p i true c0) q).
  { intros c Hc. cbn in Hc. apply in_map_iff in Hc as (c0 & <- & Hc0). eauto. }
  apply in_app_iff in Hm as [Hm|Hm].
  - destruct (_ && _)%bool in Hm; [|destruct Hm]. destruct Hm as [<-|[]]. destruct (K z Hz) as (c0 & q & Hc0 & ->). exists i, c0. split; [apply CA, Hc0|apply configure_settings].
  - destruct (_ || _)%bool in Hm; [|destruct Hm]. apply filter_In in Hm as [Hm _]. destruct (K m Hm) as (c0 & q & Hc0 & ->).
    cbn [m_children set_parent] in Hz. rewrite configure_children in Hz. rewrite (proj2 (CA c0 Hc0)) in Hz. destruct Hz.
Qed.
Section Groups.
  Variables (W : callables) (h : heap) (id : nat) (p : bpat).
  Let get k := dfind (bp_opts p) k.
  Let q := assemble W h id p.
  Lemma assembled_children src n input n' outs raws m : unprocessed get -> ~ functional src ->
    pattern_matches q src n input = Ok (n', (outs, raws)) -> In m outs -> Forall (group_shows W h get) (m_children m).
  Proof.
    intros U NF H Hm. apply Forall_forall. intros z Hz. destruct (returned_children (@q_plain W h id p U) NF H Hm Hz) as (i & c & (_ & M2 & M3 & M4 & _ & M6 & _) & [(_ & A2 & A3 & A4 & A5 & _) _ C (v & D1 & D2 & D3) _]).
    fold q in M2, M3, M4, M6, C, D1.
    destruct (q_flags W h id p) as (_ & _ & E3 & E4 & E5 & _). fold q in E3, E4, E5.
    pose proof (q_values W h id p) as Q. fold get q in Q. pose proof (q_kw W h id p) as K. fold get q in K. rewrite K in M2, M3, M4, M6.
    repeat match goal with X : context [dfind (bp_opts p) ?k] |- _ => change (dfind (bp_opts p) k) with (get k) in X end.
    constructor.
    - rewrite A3, M2. unfold match_options. cbn [mo_tags]. destruct (get (s "tags")); reflexivity.
    - rewrite A4, M3. unfold match_options. cbn [mo_marker]. destruct (get (s "marker")); reflexivity.
    - rewrite A5, M6. unfold match_options, solver_option. cbn [mo_solver]. destruct (get (s "conflict_solver")) as [[u|a]|]; reflexivity.
    - rewrite C, M4, E4, E5, A2. unfold match_options. cbn [mo_private].
      assert (given (match get (s "private") with Some v0 => Some (btruthy h v0) | None => None end) false = flag h (get (s "private"))) as -> by (destruct (get (s "private")); reflexivity).
      split.
      + intros [X|[X|[(X & _)|(_ & X)]]]; auto. discriminate.
      + intros [X|[X|X]]; auto.
    - intros w X T. rewrite X, dict_single in Q by exact T. apply pair_equal_spec in Q as [Qa Qb]. rewrite Qa, Qb in D1.
      pose proof (resolves_fun D1 (resolves_single _ _ _ _)) as Y. subst v. unfold m_value. rewrite D2 by exact T. now rewrite T.
    - intros a nm w X Hn Nn Dw Tw. rewrite X in Q. cbn [dict_option] in Q.
      destruct (h_cell h a) as [|e0 cc] eqn:Ec; [discriminate|]. rewrite <- Ec in *. cbn [ensure_dict] in Q. apply pair_equal_spec in Q as [Qa Qb]. rewrite Qa, Qb in D1.
      assert (R : resolves (map (fun e : option pstr * pyval => (fst e, snd e)) (h_cell h a)) VNone (m_name c) true w).
      { rewrite <- A2, Hn. apply by_name; [destruct nm as [|ch r]; [contradiction|exists ch, r; reflexivity]|]. pose proof (dfind_conv (fun v => v) (h_cell h a) (Some nm)) as X0. cbv beta in X0. rewrite X0, Dw. reflexivity. }
      pose proof (resolves_fun D1 R) as Y. subst v. unfold m_value. rewrite D2 by exact Tw. now rewrite Tw.
  Qed.
End Groups.
Lemma group_shows_ext W h g g' m : (forall k, k <> k_overrides -> k <> k_formatter -> g k = g' k) -> group_shows W h g m -> group_shows W h g' m.
Proof.
  intros E [S1 S2 S3 S4 S5 S6].
  assert (G : forall k : pstr, pstr_eqb k k_overrides = false -> pstr_eqb k k_formatter = false -> g k = g' k).
  { intros k A B. apply E; intros ->; rewrite pstr_eqb_refl in *; discriminate. }
  rewrite !G in * by (vm_compute; reflexivity). constructor; assumption.
Qed.

(** *** Every reachable state of a program *)
Lemma in_force_ext : forall log b c, in_force log b c -> forall c' : config, (forall g k, c g k = c' g k) -> in_force log b c'.
Proof.
  induction 1 as [c H|log b c e g kw c1 F IH E1 E2 E3 H|log b c e F IH N|log b c e kw n c1 F IH E1 E2 E3 H]; intros c' X.
  - apply force_start. intros g k. rewrite <- X. apply H.
  - apply (@force_defaults log b c e g kw c'); auto. intros g' k. rewrite <- X. apply H.
  - apply force_other; auto.
  - apply (@force_chain log b c e kw n c'); auto. intros g k. rewrite <- X. apply H.
Qed.
Definition good_factory (h : heap) (f : factory) : Prop :=
  no_clear_stored f /\ (forall g, NoDup (dkeys (f_defaults f g))) /\ (forall x, (h_next h <= x)%nat -> unused f x)
  /\ forall g k, In k [s "pre_match_processor"; s "post_match_processor"; s "post_processor"] -> forall n, dfind (f_defaults f g) k <> Some (BVal (VObj n)).
Lemma good_mono h h' f : (h_next h <= h_next h')%nat -> good_factory h f -> good_factory h' f.
Proof. intros L (A & B & C & D). split; [exact A|]. split; [exact B|]. split; [|exact D]. intros x Hx. apply C. lia. Qed.
Lemma good_same h f f' : (forall g, f_defaults f' g = f_defaults f g) -> good_factory h f -> good_factory h f'.
Proof.
  intros E (A & B & C & D). repeat split.
  - intro g. rewrite E. apply A.
  - intro g. rewrite E. apply B.
  - intros x Hx g. rewrite E. apply C, Hx.
  - intros g k. rewrite E. apply D.
Qed.
Lemma good_copy h f h' f' : good_factory h f -> chain_factory h f = (h', f') -> good_factory h' f'.
Proof.
  intros (A & B & C & D) E. destruct (chain_factory_shape E) as (S1 & S2 & S3).
  assert (AL : forall g a, In a (addrs (f_defaults f g)) -> (a < h_next h)%nat).
  { intros g a Ha. destruct (le_lt_dec (h_next h) a) as [L|L]; [destruct (C a L g Ha)|exact L]. }
  pose proof (chain_factory_copies AL E) as K. repeat split.
  - intro g. specialize (K g k_clear). rewrite A in K. unfold copy_of in K. destruct (dfind (f_defaults f' g) k_clear); [destruct K|reflexivity].
  - intro g. rewrite S1. apply B.
  - intros x Hx g Hg. apply S3 in Hg. lia.
  - intros g k Hk n. specialize (K g k). intro X. rewrite X in K. unfold copy_of in K. destruct (dfind (f_defaults f g) k) as [[v|a]|] eqn:Ev; try contradiction. subst v. exact (D g k Hk n Ev).
Qed.
Lemma good_defaults h f g kw h' f' : (forall a, In a (addrs kw) -> (a < h_next h)%nat) -> NoDup (dkeys kw) -> (forall a, dfind kw k_clear <> Some (BDict a)) -> no_processors kw ->
  good_factory h f -> defaults h f g kw = (h', f') ->
  good_factory h' f' /\ (h_next h <= h_next h')%nat /\ forall g' k, dfind (f_defaults f' g') k = after_op g' (dfind (f_defaults f g')) (ODefaults g kw) k.
Proof.
  intros AL N Cl NP (A & B & C & D) E. set (st := BState h f []).
  destruct (@step_factory st (ODefaults g kw) A) as [S1 S2]; [split; assumption|]. destruct (step_frame st (ODefaults g kw)) as (_ & F2 & F3 & _).
  unfold bstep in S1, S2, F2, F3. cbn [st_heap st_factory st] in S1, S2, F2, F3. rewrite E in S1, S2, F2, F3. cbn [st_heap st_factory] in S1, S2, F2, F3.
  split; [|split; [exact F2|exact S1]]. repeat split.
  - intro g'. rewrite S1. cbn [after_op]. destruct (group_eqb g g'); [reflexivity|apply A].
  - apply S2, B.
  - intros x Hx. apply F3; [apply C; lia|]. unfold default_addrs. cbn [flat_map]. rewrite app_nil_r. intro X. apply AL in X. lia.
  - intros g' k Hk n. rewrite S1. cbn [after_op]. destruct (group_eqb g g'); [|apply D, Hk]. destruct (pstr_eqb k k_clear); [discriminate|].
    pose proof (NP k Hk n) as X. destruct (dfind kw k); [exact X|]. destruct (clears kw); [discriminate|apply D, Hk].
Qed.
Lemma add_next h f kd key kw h' f' r : add h f kd key kw = (h', f', r) -> (h_next h <= h_next h')%nat.
Proof.
  intro E. destruct (step_frame (BState h f []) (OAdd kd key kw)) as (_ & F2 & _). unfold bstep in F2. cbn [st_heap st_factory] in F2. rewrite E in F2. destruct r; exact F2.
Qed.
Lemma same_builder_eq a b : same_builder a b = true <-> a = b.
Proof. exact (option_eqb_nat a b). Qed.
Lemma same_builder_refl b : same_builder b b = true. Proof. apply same_builder_eq. reflexivity. Qed.
Lemma put_same fs b f : put_factory fs b f b = f. Proof. unfold put_factory. now rewrite same_builder_refl. Qed.
Lemma put_other fs b f x : x <> b -> put_factory fs b f x = fs x.
Proof. intro N. unfold put_factory. destruct (same_builder x b) eqn:E; [apply same_builder_eq in E; contradiction|reflexivity]. Qed.
Lemma put_all (P : factory -> Prop) fs b f : (forall x, P (fs x)) -> P f -> forall x, P (put_factory fs b f x).
Proof. intros A B x. unfold put_factory. destruct (same_builder x b); auto. Qed.

(** *** Several keys *)
Lemma apply_key_addrs h key kw h1 kw1 : apply_key h key kw = (h1, Ok kw1) -> (forall a, In a (addrs kw) -> (a < h_next h)%nat) ->
  (h_next h <= h_next h1)%nat /\ forall a, In a (addrs kw1) -> (a < h_next h1)%nat.
Proof.
  intros E AL. destruct (apply_key_frame E) as (_ & L & X). split; [exact L|]. intros a Ha. destruct (X kw1 a eq_refl Ha) as [Y|Y]; [apply AL in Y|]; lia.
Qed.
Definition keeps (h h' : heap) : Prop := forall x n v, (x < h_next h)%nat -> dfind (h_cell h x) n = Some v -> (forall l, v <> VList l) -> dfind (h_cell h' x) n = Some v.
Lemma set_default_keeps ov h kw k0 v0 h1 kw1 : proper_heap h -> clear_free h -> set_default ov (h, kw) (k0, v0) = (h1, kw1) -> keeps h h1.
Proof.
  intros PH CF E. unfold set_default in E. cbn [fst snd] in E.
  assert (X : exists kw2, (match dfind kw k0 with
    | None => (h, kw)
    | Some own => match v0, own with
        | BVal (VList l), BVal (VList l') => (h, dset kw k0 (BVal (VList (l ++ l'))))
        | BDict a, BDict b => (set_defaults_cell h a b, kw) | _, _ => (h, kw) end end) = (h1, kw2)).
  { destruct (match dfind kw k0 with None => _ | _ => _ end) as [h2 kw2]. destruct (negb (dmem kw2 k0) || ov); injection E as <- <-; eauto. }
  destruct X as [kw2 X]. clear E. assert (Same : h1 = h -> keeps h h1) by (intros -> x n v _ H _; exact H).
  destruct (dfind kw k0) as [own|]; [|injection X as <- _; auto].
  destruct v0 as [v|a]; [apply Same; destruct v; destruct own as [[]|]; injection X as <- _; reflexivity|].
  destruct own as [w|b]; [injection X as <- _; auto|]. rewrite set_defaults_cell_plain in X by apply CF. injection X as <- _.
  intros x n v _ H NL. simpl. destruct (Nat.eqb x b) eqn:Exb; [|exact H]. apply Nat.eqb_eq in Exb. subst x. rewrite merge_cell_find by apply PH. rewrite H.
  destruct (dfind (h_cell h a) n) as [w|]; [|reflexivity]. f_equal. unfold win_value. destruct v; try reflexivity. destruct (NL l eq_refl).
Qed.
Lemma loop_keeps ov : forall (D : opts) h kw h' kw', proper_heap h -> clear_free h -> fold_left (set_default ov) D (h, kw) = (h', kw') -> keeps h h'.
Proof.
  induction D as [|[k0 v0] D IH]; intros h kw h' kw' PH CF E; cbn [fold_left] in E; [injection E as <- _; intros x n v _ H _; exact H|].
  destruct (set_default ov (h, kw) (k0, v0)) as [h1 kw1] eqn:E1. destruct (set_default_cells PH CF E1) as (_ & S2 & S3 & S4). pose proof (set_default_keeps PH CF E1) as K1.
  intros x n v Hx H NL. apply (IH h1 kw1 h' kw' S3 S4 E); [rewrite S2; exact Hx|apply K1; assumption|exact NL].
Qed.
Lemma build_keeps h f kd kw h' f' p a : no_clear_stored f -> (forall g, NoDup (dkeys (f_defaults f g))) -> NoDup (dkeys kw) -> proper_heap h -> clear_free h ->
  build h f kd kw = (h', f', Ok p) -> (a < h_next h)%nat -> (forall k, dfind kw k = Some (BDict a) -> k = k_formatter) -> (forall g k, dfind (f_defaults f g) k <> Some (BDict a)) ->
  (forall n v, dfind (h_cell h a) n = Some v -> (forall l, v <> VList l) -> dfind (h_cell h' a) n = Some v)
  /\ ((forall b, dfind (f_defaults f (GKind kd)) k_formatter <> Some (BDict b) /\ dfind (f_defaults f GAll) k_formatter <> Some (BDict b)) -> h_cell h' a = h_cell h a).
Proof.
  intros C Nf N PH CF E Ha Only Fresh. unfold build in E. destruct (take_overrides h kw) as [[kw0 bk]|e] eqn:Eo; [|discriminate].
  destruct (take_overrides_spec N Eo) as (-> & Nb & T1 & T2).
  rewrite set_defaults_plain in E by apply C. destruct (fold_left _ _ _) as [h1 kw1] eqn:E1.
  rewrite set_defaults_plain in E by (simpl; destruct (group_eqb GAll (GKind kd)); apply C). destruct (fold_left _ _ (h1, kw1)) as [h2 kw2] eqn:E2.
  destruct (pattern_formatters h2 (update kw2 bk)) as [[h3 a3] lib] eqn:E3. destruct (inherit_keys h3 _ _) as [h4 p'] eqn:E4. injection E as <- _ _.
  change (f_defaults (set_group f (GKind kd) (f_defaults f (GKind kd))) GAll) with (f_defaults f GAll) in E2. simpl in E4.
  destruct (loop_cells (Nf _) PH CF E1) as (A1 & A2 & A3 & A4). destruct (loop_cells (Nf _) A3 A4 E2) as (B1 & B2 & B3 & B4).
  destruct (formatters_frame E3) as [F1 F2]. destruct (inherit_frame E4) as (I1 & I2 & _).
  assert (Last : h_cell h4 a = h_cell h2 a) by (rewrite I1 by lia; apply F1; lia). rewrite Last. split.
  - intros n v H NL. apply (loop_keeps A3 A4 E2); [lia| |exact NL]. apply (loop_keeps PH CF E1); [lia|exact H|exact NL].
  - intro ND.
    assert (K0 : forall k, dfind (dpop kw k_overrides) k = Some (BDict a) -> k = k_formatter).
    { intros k H. rewrite dfind_dpop in H by exact N. destruct (eqb k k_overrides); [discriminate|]. apply Only, H. }
    rewrite B1; [apply A1|].
    + intros k H b. rewrite (K0 k H). apply (ND b).
    + intros k H b. assert (k = k_formatter) as ->; [|apply (ND b)]. rewrite (loop_keep (Nf _) E1) in H.
      destruct (dfind (dpop kw k_overrides) k) as [[w|x]|] eqn:Ek; cbn [pick] in H.
      * destruct (dfind (f_defaults f (GKind kd)) k) as [[|]|]; discriminate.
      * injection H as ->. exact (K0 k Ek).
      * destruct (Fresh _ _ H).
Qed.
Lemma several_given h f kd key kw h' f' p : no_clear_stored f -> (forall g, NoDup (dkeys (f_defaults f g))) -> NoDup (dkeys kw) ->
  (forall g k a, dfind (f_defaults f g) k = Some (BDict a) -> (a < h_next h)%nat) -> (forall a, In a (addrs kw) -> (a < h_next h)%nat) ->
  add h f kd key kw = (h', f', Ok p) -> given_by h h' (fun g => dfind (f_defaults f g)) kd key kw (dfind (bp_opts p) k_formatter).
Proof.
  intros C Nf N AL ALk E.
  assert (Plain : match key with Keys (_ :: _) => False | _ => True end -> dfind (bp_opts p) k_formatter = wanted_by (fun g => dfind (f_defaults f g)) kd key kw (s "formatter")).
  { intro Hk. apply (wanted_by_built C Nf N E); [discriminate|intros _; exact Hk]. }
  unfold given_by. destruct key as [|k|[|k r]]; try (apply Plain; exact I). clear Plain.
  unfold add in E. destruct (apply_key h (Keys (k :: r)) kw) as [h1 [kw1|x]] eqn:Ek; [|discriminate].
  assert (Lk : forall a, dfind kw k_formatter = Some (BDict a) -> (a < h_next h)%nat) by (intros a Ha; apply ALk; eapply addrs_In; exact Ha).
  assert (Ne : k :: r <> []) by discriminate.
  destruct (C52_several_keys Ne Lk Ek) as (K1 & (a & Ka & La & Kc) & Kf). destruct (apply_key_addrs Ek ALk) as [L A1].
  pose proof (key_nodup Ek N) as N1. assert (Hov : k_formatter <> k_overrides) by discriminate. destruct (build_objects C Nf N1 E Hov) as [B1 B2].
  exists a. split.
  - assert (named_in kw1 k_formatter \/ ~ named_in kw1 k_formatter) as [Hn|Hn].
    { destruct (overridden kw1 k_formatter) eqn:Eo; [left; apply overridden_named, Eo|right; intro X; apply overridden_named in X; congruence]. }
    + rewrite B1 by exact Hn. exact Ka.
    + rewrite B2 by exact Hn. rewrite Ka. reflexivity.
  - intros PH CF KN. destruct (apply_key_cells Ek PH CF KN N) as (_ & _ & PH1 & CF1 & X1). destruct (X1 kw1 eq_refl) as [_ X2].
    assert (a < h_next h1)%nat as Ha1 by (apply A1; eapply addrs_In; exact Ka).
    assert (Only : forall k0, dfind kw1 k0 = Some (BDict a) -> k0 = k_formatter).
    { intros k0 H. destruct (X2 _ _ H) as [Y|(Y & _)]; [|exact Y]. apply addrs_In, ALk in Y. lia. }
    assert (Fresh : forall g k0, dfind (f_defaults f g) k0 <> Some (BDict a)) by (intros g k0 H; apply AL in H; lia).
    destruct (build_keeps C Nf N1 PH1 CF1 E Ha1 Only Fresh) as [Q1 Q2]. split.
    + intros n v H NL. apply Q1; [|exact NL]. rewrite Kc. exact H.
    + intros ND n. rewrite (Q2 ND), Kc. reflexivity.
Qed.

Lemma formatters_built : forall W h0 f kd kw1 h' f' p id child m (gf : option bval) (decl : pstr -> option pyval),
  no_clear_stored f -> (forall g, NoDup (dkeys (f_defaults f g))) -> NoDup (dkeys kw1) ->
  well_keyed (f_keys f) -> (forall n, (match dfind (f_keys f) n with Some k => Some (bk_converter k) | None => None end) = decl n) ->
  (forall g k a, dfind (f_defaults f g) k = Some (BDict a) -> (a < h_next h0)%nat) -> (forall a, In a (addrs kw1) -> (a < h_next h0)%nat) ->
  build h0 f kd kw1 = (h', f', Ok p) -> dfind (bp_opts p) k_formatter = gf ->
  resolves (po_formatters (assemble W h' id p)) (po_formatter (assemble W h' id p)) (m_name m) child (m_fmt m) -> formatted W h' gf decl child m.
Proof.
  intros W h0 f kd kw1 h' f' p id child m gf decl C Nf N1 WK LD AL A1 B Gf Cf. rewrite q_formatters in Cf.
  destruct (@keys_fill h0 f kd kw1 h' f' p decl C Nf N1 WK LD AL (fun k a H => A1 a (addrs_In H)) B) as [D1 D2]. unfold bare in D1, D2. rewrite Gf in D1, D2.
  assert (Fd : forall k, dfind (map (fun e => (fst e, as_formatter W (snd e))) (h_cell h' (bp_formatters p))) k = option_map (as_formatter W) (dfind (h_cell h' (bp_formatters p)) k)) by (intro k; apply dfind_conv).
  assert (Lib : as_formatter W library_formatter = Some default_formatter) by reflexivity.
  assert (Res : forall x, (match m_name m with Some (ch :: r) => dfind (h_cell h' (bp_formatters p)) (Some (ch :: r)) | _ => None end) = x ->
    match (match x with Some v => Some v | None => match dfind (h_cell h' (bp_formatters p)) (role child) with Some v => Some v | None => dfind (h_cell h' (bp_formatters p)) None end end) with
    | Some v => m_fmt m = as_formatter W v
    | None => m_fmt m = po_formatter (assemble W h' id p)
    end).
  { intros x Hx. destruct x as [v|].
    - eapply resolves_fun; [exact Cf|]. destruct (m_name m) as [[|ch r]|] eqn:En; try discriminate. apply by_name; [exists ch, r; reflexivity|]. rewrite Fd. exact (f_equal (option_map (as_formatter W)) Hx).
    - assert (NN : named_with (m_name m) -> dfind (map (fun e => (fst e, as_formatter W (snd e))) (h_cell h' (bp_formatters p))) (m_name m) = None).
      { intros (ch & r & En). rewrite En in Hx |- *. rewrite Fd. exact (f_equal (option_map (as_formatter W)) Hx). }
      destruct (dfind (h_cell h' (bp_formatters p)) (role child)) as [v|] eqn:Er.
      + eapply resolves_fun; [exact Cf|]. apply by_role; [exact NN|]. rewrite Fd, Er. reflexivity.
      + destruct (dfind (h_cell h' (bp_formatters p)) None) as [v|] eqn:E0.
        * eapply resolves_fun; [exact Cf|]. apply by_none; [exact NN| |]; rewrite Fd, ?Er, ?E0; reflexivity.
        * eapply resolves_fun; [exact Cf|]. apply by_default; [exact NN| |]; rewrite Fd, ?Er, ?E0; reflexivity. }
  specialize (Res _ eq_refl). unfold formatted.
  destruct gf as [[v|a]|].
  - cbn [formatter_for]. destruct (truthy v && negb (py_eqb v library_formatter)) eqn:Ev.
    + apply andb_prop in Ev as [Tv Lv]. assert (v <> library_formatter) as Nv by (intros ->; rewrite (proj2 (library_eqb library_formatter) eq_refl) in Lv; discriminate).
      pose proof (D1 v (conj eq_refl (conj Tv Nv))) as D. rewrite !D in Res. unfold role in Res. destruct (m_name m) as [[|ch r]|]; rewrite ?D in Res; exact Res.
    + assert (NB : forall w, ~ (Some (BVal v) = Some (BVal w) /\ truthy w = true /\ w <> library_formatter)).
      { intros w (X & Tw & Nw). injection X as <-. rewrite Tw in Ev. cbn in Ev. destruct (py_eqb v library_formatter) eqn:El; [apply library_eqb in El; contradiction|discriminate]. }
      pose proof (D2 NB) as D. unfold own_formatter in D. rewrite Gf in D. rewrite !D in Res. unfold role in Res. cbn [library_only] in Res.
      destruct (m_name m) as [[|ch r]|]; rewrite ?D in Res; cbn [library_only] in Res; destruct child;
      repeat match goal with |- context [decl ?x] => destruct (decl x) end; exact Res.
  - assert (NB : forall w, ~ (Some (BDict a) = Some (BVal w) /\ truthy w = true /\ w <> library_formatter)) by (intros w (X & _); discriminate).
    pose proof (D2 NB) as D. unfold own_formatter in D. rewrite Gf in D. cbn [formatter_for].
    assert (Dn : forall n, n <> None -> dfind (h_cell h' (bp_formatters p)) n = match dfind (h_cell h' a) n with Some v => Some v | None => match n with Some x => decl x | None => None end end).
    { intros n Nn. rewrite D. destruct (h_cell h' a) as [|kv c]; [|reflexivity]. destruct n; [reflexivity|contradiction]. }
    assert (Dz : match dfind (h_cell h' (bp_formatters p)) None with Some v => as_formatter W v | None => po_formatter (assemble W h' id p) end = formats W (dfind (h_cell h' a) None)).
    { rewrite D. pose proof (q_default W h' id p) as Qd. cbv beta in Qd. unfold k_formatter in *. rewrite Gf in Qd. unfold dict_option in Qd. destruct (h_cell h' a) as [|kv c]; [reflexivity|].
      destruct (dfind (kv :: c) None) eqn:Ez; cbn [formats]; [reflexivity|]. rewrite Qd. reflexivity. }
    assert (Case : forall y1 y2, match (match y1 with Some v => Some v | None => match y2 with Some v => Some v | None => dfind (h_cell h' (bp_formatters p)) None end end) with
                                 | Some v => m_fmt m = as_formatter W v | None => m_fmt m = po_formatter (assemble W h' id p) end ->
                                 m_fmt m = formats W (match y1 with Some v => Some v | None => match y2 with Some v => Some v | None => dfind (h_cell h' a) None end end)).
    { intros [y|] y2 R; [exact R|]. destruct y2 as [y|]; [exact R|]. rewrite <- Dz. destruct (dfind (h_cell h' (bp_formatters p)) None); exact R. }
    unfold role in Res. rewrite Dn in Res by discriminate. destruct (m_name m) as [[|ch r]|]; rewrite ?Dn in Res by discriminate; [exact (Case None _ Res)|exact (Case _ _ Res)|exact (Case None _ Res)].
  - assert (NB : forall w, ~ (None = Some (BVal w) /\ truthy w = true /\ w <> library_formatter)) by (intros w (X & _); discriminate).
    pose proof (D2 NB) as D. unfold own_formatter in D. rewrite Gf in D. rewrite !D in Res. unfold role in Res. cbn [library_only formatter_for] in *.
    destruct (m_name m) as [[|ch r]|]; rewrite ?D in Res; cbn [library_only] in Res; destruct child;
      repeat match goal with |- context [decl ?x] => destruct (decl x) end; exact Res.
Qed.
Lemma formatters_full : forall W h0 f kd key kw h' f' p id child m (gf : option bval) (decl : pstr -> option pyval),
  no_clear_stored f -> (forall g, NoDup (dkeys (f_defaults f g))) -> NoDup (dkeys kw) ->
  well_keyed (f_keys f) -> (forall n, (match dfind (f_keys f) n with Some k => Some (bk_converter k) | None => None end) = decl n) ->
  (forall g k a, dfind (f_defaults f g) k = Some (BDict a) -> (a < h_next h0)%nat) -> (forall a, In a (addrs kw) -> (a < h_next h0)%nat) ->
  add h0 f kd key kw = (h', f', Ok p) -> dfind (bp_opts p) k_formatter = gf ->
  resolves (po_formatters (assemble W h' id p)) (po_formatter (assemble W h' id p)) (m_name m) child (m_fmt m) -> formatted W h' gf decl child m.
Proof.
  intros W h0 f kd key kw h' f' p id child m gf decl C Nf N WK LD AL ALk E Gf Cf. unfold add in E. destruct (apply_key h0 key kw) as [h1 [kw1|x]] eqn:Ek; [|discriminate].
  destruct (apply_key_addrs Ek ALk) as [L A1].
  apply (@formatters_built W h1 f kd kw1 h' f' p id child m gf decl C Nf (key_nodup Ek N) WK LD); try assumption.
  intros g k a Ha. specialize (AL g k a Ha). lia.
Qed.
(** *** Orderly dictionaries *)
Lemma add_orderly h f kd key kw h' f' r : no_clear_stored f -> (forall g, NoDup (dkeys (f_defaults f g))) -> NoDup (dkeys kw) -> keys_ok f -> key_names_ok key ->
  proper_heap h -> clear_free h -> add h f kd key kw = (h', f', r) -> proper_heap h' /\ clear_free h'.
Proof.
  intros C Nf N KO KN PH CF E. unfold add in E. destruct (apply_key h key kw) as [h1 r1] eqn:Ek. destruct (apply_key_cells Ek PH CF KN N) as (_ & _ & PH1 & CF1 & X).
  destruct r1 as [kw1|x]; [|injection E as <- _ _; auto]. destruct (build_cells C Nf (proj1 (X kw1 eq_refl)) KO PH1 CF1 E) as (_ & _ & Q). exact Q.
Qed.
Lemma defaults_orderly h f g kw h' f' : NoDup (dkeys kw) -> proper_heap h -> clear_free h -> defaults h f g kw = (h', f') -> proper_heap h' /\ clear_free h'.
Proof.
  intros N PH CF E. unfold defaults, set_defaults in E. destruct (fold_left _ _ _) as [h1 d1] eqn:E1. injection E as <- _.
  destruct (loop_cells (NoDup_dkeys_dpop kw k_clear N) PH CF E1) as (_ & _ & Q). exact Q.
Qed.
Lemma deepcopy_orderly : forall (d acc : opts) h h' d', proper_heap h -> clear_free h -> fold_left copy_value d (h, acc) = (h', d') -> proper_heap h' /\ clear_free h'.
Proof.
  induction d as [|[k v] d IH]; intros acc h h' d' PH CF E; cbn [fold_left] in E; [injection E as <- _; auto|]. destruct v as [v|a].
  - exact (IH _ h h' d' PH CF E).
  - change (copy_value (h, acc) (k, BDict a)) with (fst (halloc h (h_cell h a)), acc ++ [(k, BDict (h_next h))]) in E.
    destruct (halloc_ok PH CF (PH a) (CF a)) as [P1 C1]. exact (IH _ _ h' d' P1 C1 E).
Qed.
Lemma chain_factory_orderly h f h' f' : proper_heap h -> clear_free h -> chain_factory h f = (h', f') -> proper_heap h' /\ clear_free h'.
Proof.
  unfold chain_factory, deepcopy. intros P0 C0 E.
  destruct (fold_left copy_value (f_defaults f GAll) (h, [])) as [h1 d1] eqn:E1. destruct (fold_left copy_value (f_defaults f (GKind KRegex)) (h1, [])) as [h2 d2] eqn:E2.
  destruct (fold_left copy_value (f_defaults f (GKind KFunctional)) (h2, [])) as [h3 d3] eqn:E3. destruct (fold_left copy_value (f_defaults f (GKind KString)) (h3, [])) as [h4 d4] eqn:E4.
  destruct (fold_left copy_value (f_defaults f (GKind Builder.KChain)) (h4, [])) as [h5 d5] eqn:E5.
  apply pair_equal_spec in E as [<- _].
  destruct (deepcopy_orderly P0 C0 E1) as [P1 C1]. destruct (deepcopy_orderly P1 C1 E2) as [P2 C2]. destruct (deepcopy_orderly P2 C2 E3) as [P3 C3]. destruct (deepcopy_orderly P3 C3 E4) as [P4 C4].
  exact (deepcopy_orderly P4 C4 E5).
Qed.
Section Run.
  Variables (W : callables) (call_breaker : pyval -> list mtch -> bool) (lower : pstr -> pstr) (captures : bool) (h0 : heap).
  (** the call a pattern or a chain comes from *)
  Definition from_call (log : list sevent) (e : event made) : Prop :=
    match ev_call e, ev_result e with
    | KAdd (Ok a), Ok _ => exists before ev after key kw what c keys p id o,
        log = before ++ ev :: after /\ sv_on ev = ev_on e /\ sv_call ev = SPattern key kw what /\ sv_result ev = Ok o
        /\ in_force before (builder_of (ev_on e)) c /\ declared before (builder_of (ev_on e)) keys /\ a = Leaf (assemble W (sv_built ev) id p) (source lower captures (sv_built ev) p what)
        /\ (forall k, k <> k_overrides -> k <> k_formatter -> dfind (bp_opts p) k = wanted_by c (kind_searched what) key kw k)
        /\ unprocessed (wanted_by c (kind_searched what) key kw)
        /\ (exists g, given_by (sv_before ev) (sv_built ev) c (kind_searched what) key kw g
             /\ forall child m, resolves (po_formatters (assemble W (sv_built ev) id p)) (po_formatter (assemble W (sv_built ev) id p)) (m_name m) child (m_fmt m) ->
             formatted W (sv_built ev) g keys child m)
    | KChain (Ok a), Ok (HBuilder n) => exists before ev after kw c keys p id,
        log = before ++ ev :: after /\ sv_on ev = ev_on e /\ sv_call ev = SChain kw /\ sv_result ev = Ok (HBuilder n)
        /\ in_force before (builder_of (ev_on e)) c /\ declared before (builder_of (ev_on e)) keys /\ a = opened W call_breaker (sv_built ev) id p
        /\ (forall k, k <> k_overrides -> k <> k_formatter -> dfind (bp_opts p) k = wanted_by c Builder.KChain NoKey kw k)
        /\ unprocessed (wanted_by c Builder.KChain NoKey kw)
        /\ (forall child m, resolves (po_formatters (assemble W (sv_built ev) id p)) (po_formatter (assemble W (sv_built ev) id p)) (m_name m) child (m_fmt m) ->
             formatted W (sv_built ev) (wanted_by c Builder.KChain NoKey kw (s "formatter")) keys child m)
    | _, _ => True
    end.
  Definition converters (f : factory) (x : pstr) : option pyval := match dfind (f_keys f) x with Some k => Some (bk_converter k) | None => None end.
  Definition known (w : world made) (b : option nat) : Prop := match b with None => True | Some c => (c < w_count w)%nat end.
  Record ok (t : site) : Prop := {
    ok_session : exists fops, Forall (fun o => well_typed (snd o)) fops /\ si_session t = session_of fops;
    ok_next : (h_next h0 <= h_next (si_heap t))%nat;
    ok_good : forall b, good_factory (si_heap t) (si_factory t b);
    ok_force : forall b, known (se_world (si_session t)) b -> in_force (si_log t) b (fun g => dfind (f_defaults (si_factory t b) g));
    ok_keyed : forall b, well_keyed (f_keys (si_factory t b));
    ok_declared : forall b, known (se_world (si_session t)) b -> declared (si_log t) b (converters (si_factory t b));
    ok_log : forall e, In e (se_log (si_session t)) -> from_call (si_log t) e
  }.
  Lemma from_call_later log ev e : from_call log e -> from_call (log ++ [ev]) e.
  Proof.
    unfold from_call. destruct (ev_call e) as [[a|x]|[a|x]|v|v|], (ev_result e) as [[|n|n j]|y]; auto.
    1,2,3: intros (before & ev0 & after & key & kw & what & c & ks & p & id & o & E & R); exists before, ev0, (after ++ [ev]), key, kw, what, c, ks, p, id, o; split; [rewrite E, <- app_assoc; reflexivity|exact R].
    intros (before & ev0 & after & kw & c & ks & p & id & E & R); exists before, ev0, (after ++ [ev]), kw, c, ks, p, id; split; [rewrite E, <- app_assoc; reflexivity|exact R].
  Qed.
  Lemma not_configures e b : (forall g kw, sv_call e <> SDefaults g kw) -> ~ configures e b.
  Proof. intros N (_ & (g & kw & E) & _). exact (N g kw E). Qed.
  Lemma not_declares e b : (forall ks, sv_call e <> SDeclare ks) -> ~ (builder_of (sv_on e) = b /\ (exists ks, sv_call e = SDeclare ks) /\ exists o, sv_result e = Ok o).
  Proof. intros N (_ & (ks & E) & _). exact (N ks E). Qed.
  Lemma known_target t i : ok t -> known (se_world (si_session t)) (builder_of (nth i (se_held (si_session t)) HRoot)).
  Proof.
    intros [(fops & _ & E) _ _ _ _ _ _]. rewrite E. pose proof (valid_target fops i) as V. destruct (nth i _ HRoot) as [|c|c j]; cbn in *; [exact I|exact V|]. destruct V as [V _]. exact V.
  Qed.
  Lemma act_eq (u : session made) i k w r : step (se_world u) (nth i (se_held u) HRoot) k = (w, r) ->
    se_world (act u (i, k)) = w /\ se_log (act u (i, k)) = se_log u ++ [Event (nth i (se_held u) HRoot) k r].
  Proof. intro E. unfold act. cbn [fst snd]. rewrite E. split; reflexivity. Qed.
  Lemma act_session t i k : ok t -> well_typed k -> exists fops, Forall (fun o => well_typed (snd o)) fops /\ act (si_session t) (i, k) = session_of fops.
  Proof.
    intros [(fops & T & E) _ _ _ _ _ _] Tk. exists (fops ++ [(i, k)]). split; [apply Forall_app; split; [exact T|repeat constructor; exact Tk]|]. rewrite session_snoc, E. reflexivity.
  Qed.
  (** calls on parts, and close *)
  Lemma plain_ok t i sc k : ok t -> (forall g kw, sc <> SDefaults g kw) -> (forall ks, sc <> SDeclare ks) -> (match k with KRepeater _ | KHidden _ | KClose => True | _ => False end) -> ok (plain_act t i sc k).
  Proof.
    intros O N Nd Hk. unfold plain_act. destruct (step _ _ _) as [w r] eqn:E. destruct (act_eq E) as [A1 A2]. pose proof (step_options E) as P.
    assert (w_count w = w_count (se_world (si_session t))) as Cn by (destruct k; try contradiction; destruct r; apply P).
    constructor; cbn [si_session si_heap si_factory si_log].
    - apply act_session; [exact O|]. destruct k; try contradiction; exact I.
    - apply O.
    - apply O.
    - intros b Hb. apply force_other; [|apply not_configures; exact N]. apply O. rewrite A1 in Hb. destruct b; cbn in *; [rewrite <- Cn|]; exact Hb.
    - apply O.
    - intros b Hb. apply decl_other; [|apply not_declares; exact Nd]. apply (ok_declared O). rewrite A1 in Hb. destruct b; cbn in *; [rewrite <- Cn|]; exact Hb.
    - intros e He. rewrite A2 in He. apply in_app_or in He as [He|[<-|[]]]; [apply from_call_later, O, He|]. unfold from_call. cbn [ev_call]. destruct k; try contradiction; exact I.
  Qed.
  Lemma refuse_ok t o sc e : ok t -> ok (refuse t o sc e).
  Proof.
    intros O. constructor; cbn [refuse si_session si_heap si_factory si_log]; try apply O.
    - intros b Hb. apply force_other; [apply O, Hb|]. intros (_ & _ & (x & X)). discriminate.
    - intros b Hb. apply decl_other; [apply (ok_declared O), Hb|]. intros (_ & _ & (x & X)). discriminate.
    - intros e' He. apply from_call_later, O, He.
  Qed.
  Lemma defaults_ok t o g kw h f : ok t -> plain_call h0 (SDefaults g kw) -> defaults (si_heap t) (si_factory t (builder_of o)) g kw = (h, f) ->
    ok (Site h (put_factory (si_factory t) (builder_of o) f) (si_session t) (si_log t ++ [SEvent o (SDefaults g kw) (Ok o) (si_heap t) h h])).
  Proof.
    intros O ((N & AL & NP) & Cl) E. set (b := builder_of o) in *.
    destruct (@good_defaults (si_heap t) (si_factory t b) g kw h f) as (G & L & D); try assumption; [|apply O|].
    { intros a Ha. apply AL in Ha. pose proof (ok_next O). lia. }
    constructor; cbn [si_session si_heap si_factory si_log]; try apply O.
    - pose proof (ok_next O). lia.
    - apply put_all; [|exact G]. intro x. eapply good_mono; [exact L|apply O].
    - intros b' Hb. destruct (option_eqb Nat.eqb b' b) eqn:Eb.
      + apply same_builder_eq in Eb. subst b'. rewrite put_same. apply (@force_defaults (si_log t) b (fun g => dfind (f_defaults (si_factory t b) g)) _ g kw); try reflexivity; [apply O, Hb|exists o; reflexivity|exact D].
      + assert (b' <> b) as Nb by (intros ->; unfold b in Eb; pose proof (same_builder_refl (builder_of o)) as X; unfold same_builder in X; congruence).
        rewrite put_other by exact Nb. apply force_other; [apply O, Hb|]. intros (X & _). apply Nb. symmetry. exact X.
    - destruct (defaults_factory E N Cl) as (_ & _ & Ks & _). intro b'. unfold put_factory. destruct (same_builder b' b); [rewrite Ks|]; apply O.
    - destruct (defaults_factory E N Cl) as (_ & _ & Ks & _). intros b' Hb. apply decl_other; [|apply not_declares; discriminate]. pose proof (ok_declared O Hb) as D'. unfold put_factory.
      destruct (same_builder b' b) eqn:Eb; [|exact D']. apply same_builder_eq in Eb. subst b'. unfold converters. rewrite Ks. exact D'.
    - intros e He. apply from_call_later, O, He.
  Qed.
  Lemma declare_ok t o ks : ok t ->
    ok (Site (si_heap t) (put_factory (si_factory t) (builder_of o) (declare_keys (si_factory t (builder_of o)) ks)) (si_session t) (si_log t ++ [SEvent o (SDeclare ks) (Ok o) (si_heap t) (si_heap t) (si_heap t)])).
  Proof.
    intros O. constructor; cbn [si_session si_heap si_factory si_log]; try apply O.
    - apply put_all; [apply O|]. apply (good_same (f := si_factory t (builder_of o))); [reflexivity|apply O].
    - intros b Hb. apply force_other; [|apply not_configures; discriminate]. eapply in_force_ext; [apply O, Hb|]. intros g k. unfold put_factory. destruct (same_builder b (builder_of o)) eqn:E; [|reflexivity]. apply same_builder_eq in E. subst b. reflexivity.
    - intro b. unfold put_factory. destruct (same_builder b (builder_of o)); [|apply O]. unfold declare_keys. cbn [f_keys]. apply declare_well_keyed, O.
    - intros b Hb. destruct (option_eqb Nat.eqb b (builder_of o)) eqn:Eb.
      + apply same_builder_eq in Eb. subst b. rewrite put_same. apply (@decl_keys (si_log t) (builder_of o) (converters (si_factory t (builder_of o))) _ ks); try reflexivity; [apply (ok_declared O), Hb|exists o; reflexivity|].
        intro x. unfold converters, declare_keys. cbn [f_keys]. rewrite declare_find. destruct (find _ (rev ks)); reflexivity.
      + assert (b <> builder_of o) as Nb by (intros ->; pose proof (same_builder_refl (builder_of o)) as X; unfold same_builder in X; congruence).
        rewrite put_other by exact Nb. apply decl_other; [apply (ok_declared O), Hb|]. intros (X & _). apply Nb. symmetry. exact X.
    - intros e He. apply from_call_later, O, He.
  Qed.
  Lemma pattern_ok t i key kw what h f r w res : ok t -> plain_call h0 (SPattern key kw what) ->
    let o := nth i (se_held (si_session t)) HRoot in
    add (si_heap t) (si_factory t (builder_of o)) (kind_searched what) key kw = (h, f, r) ->
    let k := KAdd match r with Ok p => Ok (Leaf (assemble W h (length (si_log t)) p) (source lower captures h p what)) | Err e => Err e end in
    step (se_world (si_session t)) o k = (w, res) ->
    ok (Site h (put_factory (si_factory t) (builder_of o) f) (act (si_session t) (i, k)) (si_log t ++ [SEvent o (SPattern key kw what) res (si_heap t) h h])).
  Proof.
    intros O (N & AL & NP) o E k Es. set (b := builder_of o) in *. destruct (ok_good O b) as (G1 & G2 & G3 & G4).
    destruct (add_factory G1 E) as [Fd Fk]. pose proof (add_next E) as L. destruct (act_eq Es) as [A1 A2]. pose proof (step_options Es) as P.
    assert (w_count w = w_count (se_world (si_session t))) as Cn by (unfold k in P; destruct r; destruct res; apply P).
    constructor; cbn [si_session si_heap si_factory si_log].
    - apply act_session; [exact O|]. unfold k. destruct r; exact I.
    - pose proof (ok_next O). lia.
    - apply put_all; [intro x; eapply good_mono; [exact L|apply O]|]. apply (good_same (f := si_factory t b)); [exact Fd|]. eapply good_mono; [exact L|apply O].
    - intros b' Hb. apply force_other; [|apply not_configures; discriminate]. rewrite A1 in Hb.
      assert (known (se_world (si_session t)) b') as Kb by (destruct b'; cbn in *; [rewrite <- Cn|]; exact Hb).
      eapply in_force_ext; [apply O, Kb|]. intros g k0. unfold put_factory. destruct (same_builder b' b) eqn:Eb; [|reflexivity]. apply same_builder_eq in Eb. subst b'. rewrite Fd. reflexivity.
    - intro b'. unfold put_factory. destruct (same_builder b' b); [rewrite Fk|]; apply O.
    - intros b' Hb. apply decl_other; [|apply not_declares; discriminate]. rewrite A1 in Hb.
      assert (known (se_world (si_session t)) b') as Kb by (destruct b'; cbn in *; [rewrite <- Cn|]; exact Hb). pose proof (ok_declared O Kb) as D'. unfold put_factory.
      destruct (same_builder b' b) eqn:Eb; [|exact D']. apply same_builder_eq in Eb. subst b'. unfold converters. rewrite Fk. exact D'.
    - intros e He. rewrite A2 in He. apply in_app_or in He as [He|[<-|[]]]; [apply from_call_later, O, He|].
      unfold from_call, k. cbn [ev_call ev_result ev_on]. destruct r as [p|x]; [|exact I]. destruct res as [hd|y]; [|exact I].
      exists (si_log t), (SEvent o (SPattern key kw what) (Ok hd) (si_heap t) h h), [], key, kw, what, (fun g => dfind (f_defaults (si_factory t b) g)), (converters (si_factory t b)), p, (length (si_log t)), hd.
      split; [reflexivity|]. split; [reflexivity|]. split; [reflexivity|]. split; [reflexivity|].
      split; [apply O, known_target, O|]. split; [apply (ok_declared O), known_target, O|]. split; [reflexivity|].
      split; [|split].
      + intros k0 K1 K2. apply (wanted_by_built G1 G2 N E K1). intro X. destruct (K2 X).
      + apply wanted_by_unprocessed; [exact NP|exact G4].
      + assert (Q1 : forall g k0 a, dfind (f_defaults (si_factory t b) g) k0 = Some (BDict a) -> (a < h_next (si_heap t))%nat).
        { intros g k0 a Ha. destruct (le_lt_dec (h_next (si_heap t)) a) as [Q|Q]; [destruct (G3 a Q g (addrs_In Ha))|exact Q]. }
        assert (Q2 : forall a, In a (addrs kw) -> (a < h_next (si_heap t))%nat) by (intros a Ha; apply AL in Ha; pose proof (ok_next O); lia).
        exists (dfind (bp_opts p) k_formatter). cbn [sv_built sv_before]. split; [exact (several_given G1 G2 N Q1 Q2 E)|]. intros child m R.
        exact (@formatters_full W (si_heap t) (si_factory t b) (kind_searched what) key kw h f p (length (si_log t)) child m _ (converters (si_factory t b)) G1 G2 N (ok_keyed O b) (fun n => eq_refl) Q1 Q2 E eq_refl R).
  Qed.
  Lemma chain_ok t i kw h f r w res : ok t -> plain_call h0 (SChain kw) ->
    let o := nth i (se_held (si_session t)) HRoot in
    add (si_heap t) (si_factory t (builder_of o)) Builder.KChain NoKey kw = (h, f, r) ->
    let k := KChain match r with Ok p => Ok (opened W call_breaker h (length (si_log t)) p) | Err e => Err e end in
    step (se_world (si_session t)) o k = (w, res) ->
    let fs := put_factory (si_factory t) (builder_of o) f in
    ok match r with
       | Ok _ => let '(h', f') := chain_factory h f in
                 Site h' (put_factory fs (Some (w_count (se_world (si_session t)))) f') (act (si_session t) (i, k)) (si_log t ++ [SEvent o (SChain kw) res (si_heap t) h h'])
       | Err _ => Site h fs (act (si_session t) (i, k)) (si_log t ++ [SEvent o (SChain kw) res (si_heap t) h h])
       end.
  Proof.
    intros O (N & AL & NP) o E k Es fs. set (b := builder_of o) in *. destruct (ok_good O b) as (G1 & G2 & G3 & G4).
    destruct (add_factory G1 E) as [Fd Fk]. pose proof (add_next E) as L. destruct (act_eq Es) as [A1 A2]. pose proof (step_options Es) as P.
    assert (GF : forall x, good_factory h (fs x)).
    { apply put_all; [intro x; eapply good_mono; [exact L|apply O]|]. apply (good_same (f := si_factory t b)); [exact Fd|]. eapply good_mono; [exact L|apply O]. }
    assert (Fo : forall b' ev, known (se_world (si_session t)) b' -> (forall g kw, sv_call ev <> SDefaults g kw) -> in_force (si_log t ++ [ev]) b' (fun g => dfind (f_defaults (fs b') g))).
    { intros b' ev Kb Hev. apply force_other; [|apply not_configures, Hev]. eapply in_force_ext; [apply O, Kb|]. intros g k0. unfold fs, put_factory. destruct (same_builder b' b) eqn:Eb; [|reflexivity]. apply same_builder_eq in Eb. subst b'. rewrite Fd. reflexivity. }
    assert (Fw : forall x, well_keyed (f_keys (fs x))) by (intro x; unfold fs, put_factory; destruct (same_builder x b); [rewrite Fk|]; apply O).
    assert (Fo' : forall b' ev, known (se_world (si_session t)) b' -> (forall ks, sv_call ev <> SDeclare ks) -> declared (si_log t ++ [ev]) b' (converters (fs b'))).
    { intros b' ev Kb Hev. apply decl_other; [|apply not_declares, Hev]. pose proof (ok_declared O Kb) as D'. unfold fs, put_factory. destruct (same_builder b' b) eqn:Eb; [|exact D']. apply same_builder_eq in Eb. subst b'. unfold converters. rewrite Fk. exact D'. }
    destruct r as [p|x].
    - destruct (chain_factory h f) as [h' f'] eqn:Ec. assert (Kf : f_keys f' = f_keys f) by (exact (chain_factory_keys Ec)). set (n := w_count (se_world (si_session t))) in *.
      assert (res = Ok (HBuilder n) /\ w_count w = S n) as [Hres Cn].
      { unfold k in P. destruct res as [[|c|c j]|y]; try contradiction.
        - destruct P as (-> & -> & _). auto.
        - exfalso. unfold k in Es. destruct o as [|c|c j]; cbn in Es; discriminate. }
      subst res. assert (Nb : b <> Some n).
      { pose proof (known_target i O) as K. fold o b in K. intro X. rewrite X in K. cbn in K. unfold n in K. lia. }
      pose proof (GF b) as Gb. unfold fs in Gb. rewrite put_same in Gb. destruct (chain_factory_shape Ec) as (_ & L' & _).
      assert (ALf : forall g a, In a (addrs (f_defaults f g)) -> (a < h_next h)%nat).
      { intros g a Ha. destruct Gb as (_ & _ & U & _). destruct (le_lt_dec (h_next h) a) as [Q|Q]; [destruct (U a Q g Ha)|exact Q]. }
      constructor; cbn [si_session si_heap si_factory si_log].
      + apply act_session; [exact O|exact I].
      + pose proof (ok_next O). lia.
      + apply put_all; [intro x; eapply good_mono; [exact L'|apply GF]|]. eapply good_copy; [exact Gb|exact Ec].
      + intros b' Hb. rewrite A1 in Hb. destruct (option_eqb Nat.eqb b' (Some n)) eqn:Eb.
        * apply same_builder_eq in Eb. subst b'. rewrite put_same.
          apply (@force_chain (si_log t) b (fun g => dfind (f_defaults (si_factory t b) g)) _ kw n); try reflexivity; [apply O, known_target, O|].
          cbn [sv_built sv_after]. intros g k0. rewrite <- Fd. apply (chain_factory_copies ALf Ec).
        * assert (b' <> Some n) as Nn by (intros ->; pose proof (same_builder_refl (Some n)) as X; unfold same_builder in X; congruence).
          rewrite put_other by exact Nn. apply Fo; [|discriminate]. destruct b' as [c|]; [|exact I]. cbn in Hb |- *. rewrite Cn in Hb. assert (c <> n) by congruence. unfold n in *. lia.
      + apply (put_all (P := fun f => well_keyed (f_keys f))); [exact Fw|]. rewrite Kf, Fk. apply O.
      + intros b' Hb. rewrite A1 in Hb. destruct (option_eqb Nat.eqb b' (Some n)) eqn:Eb.
        * apply same_builder_eq in Eb. subst b'. rewrite put_same.
          apply (@decl_chain (si_log t) b (converters (si_factory t b)) _ kw n); try reflexivity; [apply (ok_declared O), known_target, O|]. intro x. unfold converters. rewrite Kf, Fk. reflexivity.
        * assert (b' <> Some n) as Nn by (intros ->; pose proof (same_builder_refl (Some n)) as X; unfold same_builder in X; congruence).
          rewrite put_other by exact Nn. apply Fo'; [|discriminate]. destruct b' as [c|]; [|exact I]. cbn in Hb |- *. rewrite Cn in Hb. assert (c <> n) by congruence. unfold n in *. lia.
      + intros e He. rewrite A2 in He. apply in_app_or in He as [He|[<-|[]]]; [apply from_call_later, O, He|].
        unfold from_call, k. cbn [ev_call ev_result ev_on].
        exists (si_log t), (SEvent o (SChain kw) (Ok (HBuilder n)) (si_heap t) h h'), [], kw, (fun g => dfind (f_defaults (si_factory t b) g)), (converters (si_factory t b)), p, (length (si_log t)).
        split; [reflexivity|]. split; [reflexivity|]. split; [reflexivity|]. split; [reflexivity|].
        split; [apply O, known_target, O|]. split; [apply (ok_declared O), known_target, O|]. split; [reflexivity|].
        split; [|split].
        * intros k0 K1 K2. apply (wanted_by_built G1 G2 N E K1). intro X. destruct (K2 X).
        * apply wanted_by_unprocessed; [exact NP|exact G4].
        * intros child m R. cbn [sv_built] in *.
          refine (@formatters_full W (si_heap t) (si_factory t b) Builder.KChain NoKey kw h f p (length (si_log t)) child m _ (converters (si_factory t b)) G1 G2 N (ok_keyed O b) (fun n => eq_refl) _ _ E _ R).
          -- intros g k0 a Ha. destruct (le_lt_dec (h_next (si_heap t)) a) as [Q|Q]; [destruct (G3 a Q g (addrs_In Ha))|exact Q].
          -- intros a Ha. apply AL in Ha. pose proof (ok_next O). lia.
          -- apply (wanted_by_built G1 G2 N E); [discriminate|]. intro X. exact I.
    - assert (w_count w = w_count (se_world (si_session t))) as Cn by (unfold k in P; destruct res; apply P).
      constructor; cbn [si_session si_heap si_factory si_log].
      + apply act_session; [exact O|exact I].
      + pose proof (ok_next O). lia.
      + exact GF.
      + intros b' Hb. rewrite A1 in Hb. apply Fo; [|discriminate]. destruct b'; cbn in *; [rewrite <- Cn|]; exact Hb.
      + exact Fw.
      + intros b' Hb. rewrite A1 in Hb. apply Fo'; [|discriminate]. destruct b'; cbn in *; [rewrite <- Cn|]; exact Hb.
      + intros e He. rewrite A2 in He. apply in_app_or in He as [He|[<-|[]]]; [apply from_call_later, O, He|exact I].
  Qed.
  Lemma step_ok t a : ok t -> plain_call h0 (snd a) -> ok (site_step W call_breaker lower captures t a).
  Proof.
    intros O H. destruct a as [i sc]. cbn [snd] in H. unfold site_step. cbn [fst snd]. destruct sc as [g kw|ks|key kw what|kw|v|v|].
    - destruct (nth i (se_held (si_session t)) HRoot) as [|c|c j] eqn:Eo; [| |apply refuse_ok, O].
      all: destruct (defaults _ _ _ _) as [h f] eqn:E; apply (@defaults_ok t _ g kw h f O H E).
    - destruct (nth i (se_held (si_session t)) HRoot) as [|c|c j] eqn:Eo; [| |apply refuse_ok, O]; apply (@declare_ok t _ ks O).
    - destruct (add _ _ _ _ _) as [[h f] r] eqn:E. destruct (step _ _ _) as [w res] eqn:Es. exact (@pattern_ok t i key kw what h f r w res O H E Es).
    - assert (ok (let '(h, f, r) := add (si_heap t) (si_factory t (builder_of (nth i (se_held (si_session t)) HRoot))) Builder.KChain NoKey kw in
            let k := KChain match r with Ok p => Ok (opened W call_breaker h (length (si_log t)) p) | Err e => Err e end in
            let '(_, res) := step (se_world (si_session t)) (nth i (se_held (si_session t)) HRoot) k in
            let fs := put_factory (si_factory t) (builder_of (nth i (se_held (si_session t)) HRoot)) f in
            match r with
            | Ok _ => let '(h', f') := chain_factory h f in
                      Site h' (put_factory fs (Some (w_count (se_world (si_session t)))) f') (act (si_session t) (i, k)) (si_log t ++ [SEvent (nth i (se_held (si_session t)) HRoot) (SChain kw) res (si_heap t) h h'])
            | Err _ => Site h fs (act (si_session t) (i, k)) (si_log t ++ [SEvent (nth i (se_held (si_session t)) HRoot) (SChain kw) res (si_heap t) h h])
            end)) as X.
      { destruct (add _ _ _ _ _) as [[h f] r] eqn:E. cbv zeta. destruct (step _ _ _) as [w res] eqn:Es. exact (@chain_ok t i kw h f r w res O H E Es). }
      destruct (nth i (se_held (si_session t)) HRoot) as [|c|c j]; [exact X|exact X|]. destruct kw; [exact X|apply refuse_ok, O].
    - apply plain_ok; [exact O|discriminate|discriminate|exact I].
    - apply plain_ok; [exact O|discriminate|discriminate|exact I].
    - apply plain_ok; [exact O|discriminate|discriminate|exact I].
  Qed.
  Lemma new_ok : ok (new_site h0).
  Proof.
    constructor; cbn.
    - exists []. split; [constructor|reflexivity].
    - apply le_n.
    - intro b. repeat split; try (intros; constructor); try discriminate. intros x _ g Hg. destruct Hg.
    - intros [c|] Hb; [inversion Hb|]. apply force_start. reflexivity.
    - intro b. split; [constructor|discriminate].
    - intros [c|] Hb; [inversion Hb|]. apply decl_start. reflexivity.
    - intros e [].
  Qed.
  Lemma site_ok ops : Forall (fun a => plain_call h0 (snd a)) ops -> ok (site_of W call_breaker lower captures h0 ops).
  Proof.
    intro F. unfold site_of. assert (forall t, ok t -> ok (fold_left (site_step W call_breaker lower captures) ops t)) as X; [|apply X, new_ok].
    induction F as [|a l Ha F IH]; intros t O; cbn [fold_left]; [exact O|]. apply IH, step_ok; assumption.
  Qed.
  Definition tidy (t : site) : Prop :=
    proper_heap (si_heap t) /\ clear_free (si_heap t) /\ (forall b, keys_ok (si_factory t b)) /\ forall e, In e (si_log t) -> proper_heap (sv_before e) /\ clear_free (sv_before e).
  Lemma step_tidy t a : ok t -> tidy t -> plain_call h0 (snd a) -> names_ok (snd a) -> tidy (site_step W call_breaker lower captures t a).
  Proof.
    intros O (P & C & K & L) H N. destruct a as [i sc]. cbn [snd] in H, N.
    assert (Lg : forall o r h h', forall e, In e (si_log t ++ [SEvent o sc r (si_heap t) h h']) -> proper_heap (sv_before e) /\ clear_free (sv_before e)).
    { intros o r h h' e He. apply in_app_or in He as [He|[<-|[]]]; [exact (L e He)|auto]. }
    unfold site_step. cbn [fst snd]. set (o := nth i (se_held (si_session t)) HRoot). destruct (ok_good O (builder_of o)) as (G1 & G2 & _ & _). destruct sc as [g kw|ks|key kw what|kw|v|v|].
    - destruct H as ((Nk & _) & _). destruct (defaults (si_heap t) (si_factory t (builder_of o)) g kw) as [h f] eqn:E. destruct (defaults_orderly Nk P C E) as [P1 C1].
      assert (Kf : keys_ok f). { unfold defaults in E. destruct (set_defaults _ _ _ _) as [[h1 x] d]. injection E as _ <-. exact (K (builder_of o)). }
      destruct o; (split; [first [exact P1|exact P]|split; [first [exact C1|exact C]|split; [first [exact K|apply (put_all (P := keys_ok)); assumption]|apply Lg]]]).
    - assert (Kf : keys_ok (declare_keys (si_factory t (builder_of o)) ks)) by (apply declare_keys_ok; [exact N|apply K]).
      destruct o; (split; [exact P|split; [exact C|split; [first [exact K|apply (put_all (P := keys_ok)); assumption]|apply Lg]]]).
    - destruct H as (Nk & _). destruct (add _ _ _ _ _) as [[h f] r] eqn:E. destruct (step _ _ _) as [w res] eqn:Es. destruct (add_orderly G1 G2 Nk (K _) N P C E) as [P1 C1].
      destruct (add_factory G1 E) as [_ Fk]. split; [exact P1|]. split; [exact C1|]. split; [|apply Lg]. apply (put_all (P := keys_ok)); [exact K|]. intros e He. rewrite Fk in He. exact (K _ e He).
    - destruct H as (Nk & _).
      assert (T : tidy (let '(h, f, r) := add (si_heap t) (si_factory t (builder_of o)) Builder.KChain NoKey kw in
            let k := KChain match r with Ok p => Ok (opened W call_breaker h (length (si_log t)) p) | Err e => Err e end in
            let '(_, res) := step (se_world (si_session t)) o k in
            let fs := put_factory (si_factory t) (builder_of o) f in
            match r with
            | Ok _ => let '(h', f') := chain_factory h f in
                      Site h' (put_factory fs (Some (w_count (se_world (si_session t)))) f') (act (si_session t) (i, k)) (si_log t ++ [SEvent o (SChain kw) res (si_heap t) h h'])
            | Err _ => Site h fs (act (si_session t) (i, k)) (si_log t ++ [SEvent o (SChain kw) res (si_heap t) h h])
            end)).
      { destruct (add _ _ _ _ _) as [[h f] r] eqn:E. cbv zeta. destruct (step _ _ _) as [w res] eqn:Es. destruct (add_orderly G1 G2 Nk (K _) (Logic.I : key_names_ok NoKey) P C E) as [P1 C1].
        destruct (add_factory G1 E) as [_ Fk]. assert (Kf : keys_ok f) by (intros e He; rewrite Fk in He; exact (K _ e He)).
        assert (Ks : forall x, keys_ok (put_factory (si_factory t) (builder_of o) f x)) by (apply (put_all (P := keys_ok)); assumption).
        destruct r as [p|x].
        - destruct (chain_factory h f) as [h' f'] eqn:Ec. destruct (chain_factory_orderly P1 C1 Ec) as [P2 C2]. split; [exact P2|]. split; [exact C2|]. split; [|apply Lg].
          apply (put_all (P := keys_ok)); [exact Ks|]. intros e He. rewrite (chain_factory_keys Ec) in He. exact (Kf e He).
        - split; [exact P1|]. split; [exact C1|]. split; [exact Ks|apply Lg]. }
      destruct o as [|c|c j]; [exact T|exact T|]. destruct kw as [|kv kw]; [exact T|]. split; [exact P|split; [exact C|split; [exact K|apply Lg]]].
    - unfold plain_act. fold o. destruct (step _ _ _) as [w r]. split; [exact P|split; [exact C|split; [exact K|apply Lg]]].
    - unfold plain_act. fold o. destruct (step _ _ _) as [w r]. split; [exact P|split; [exact C|split; [exact K|apply Lg]]].
    - unfold plain_act. fold o. destruct (step _ _ _) as [w r]. split; [exact P|split; [exact C|split; [exact K|apply Lg]]].
  Qed.
  Lemma site_orderly ops : Forall (fun a => plain_call h0 (snd a)) ops -> Forall (fun a => names_ok (snd a)) ops -> proper_heap h0 -> clear_free h0 ->
    forall e, In e (si_log (site_of W call_breaker lower captures h0 ops)) -> proper_heap (sv_before e) /\ clear_free (sv_before e).
  Proof.
    intros F Nm P C. unfold site_of. assert (X : forall t, ok t -> tidy t -> tidy (fold_left (site_step W call_breaker lower captures) ops t)).
    { induction F as [|a l Ha F IH]; intros t O T; cbn [fold_left]; [exact T|]. inversion Nm; subst. apply IH; [assumption|apply step_ok; assumption|apply step_tidy; assumption]. }
    destruct (X (new_site h0) new_ok) as (_ & _ & _ & Q); [|exact Q]. split; [exact P|]. split; [exact C|]. split; [intros b e []|intros e []].
  Qed.
End Run.

Section Search.
  Variables (W : callables) (call_breaker : pyval -> list mtch -> bool) (lower : pstr -> pstr) (captures : bool) (h0 : heap).
  Variable t : site.
  Hypothesis O : ok W call_breaker lower captures h0 t.
  Let flog := se_log (si_session t).
  Lemma leaf_formatted h get gf keys p id src n text n' outs raws m : unprocessed (fun k => dfind (bp_opts p) k) ->
    (forall k, k <> k_overrides -> k <> k_formatter -> dfind (bp_opts p) k = get k) ->
    (forall child m, resolves (po_formatters (assemble W h id p)) (po_formatter (assemble W h id p)) (m_name m) child (m_fmt m) -> formatted W h gf keys child m) ->
    pattern_matches (assemble W h id p) src n text = Ok (n', (outs, raws)) -> In m outs ->
    (treated h get (s "format_all") m -> formatted W h gf keys (is_child m) m) /\ (~ functional src -> formats_children h get -> Forall (formatted W h gf keys true) (m_children m)).
  Proof.
    intros U G FM H Hm. assert (NP : no_processor (assemble W h id p)) by (apply q_plain; exact U).
    destruct (q_flags W h id p) as (E1 & E2 & E3 & E4 & E5 & E6 & E7 & E8). rewrite !G in E1, E2, E7 by discriminate. split.
    - intro Tr. destruct (C40_options_resolve NP H Hm) as (_ & Cf & _). apply FM, Cf. unfold subject. rewrite E1, E2, E7. exact Tr.
    - intros NF Tr. apply Forall_forall. intros z Hz. destruct (returned_children NP NF H Hm Hz) as (i & c & _ & [(_ & A2 & _) _ _ _ [FF _]]). apply FM. rewrite A2. apply FF. unfold subject. rewrite E1, E2, E7. exact Tr.
  Qed.
  Lemma chain_displays ev before after kw c keys p id n parts fuel breaker k text k' outs raws m :
    si_log t = before ++ ev :: after -> sv_call ev = SChain kw -> sv_result ev = Ok (HBuilder n) -> in_force before (builder_of (sv_on ev)) c -> declared before (builder_of (sv_on ev)) keys ->
    (forall child m, resolves (po_formatters (assemble W (sv_built ev) id p)) (po_formatter (assemble W (sv_built ev) id p)) (m_name m) child (m_fmt m) ->
       formatted W (sv_built ev) (wanted_by c Builder.KChain NoKey kw (s "formatter")) keys child m) ->
    (forall k, k <> k_overrides -> k <> k_formatter -> dfind (bp_opts p) k = wanted_by c Builder.KChain NoKey kw k) -> unprocessed (wanted_by c Builder.KChain NoKey kw) ->
    (forall x, piece text parts x -> exists front text' x0 w, text = front ++ text' /\ displays W (si_log t) (Some n) text' x0 /\ moved text w x0 x) ->
    chain_matches fuel (assemble W (sv_built ev) id p) breaker parts k text = Ok (k', (outs, raws)) -> In m outs -> displays W (si_log t) (builder_of (sv_on ev)) text m.
  Proof.
    intros El Ec Er F Dk FM G U Pc H Hm. set (get := wanted_by c Builder.KChain NoKey kw) in *. set (h := sv_built ev) in *.
    assert (NP : no_processor (assemble W h id p)).
    { apply q_plain. intros k0 Hk x. rewrite G; [apply U, Hk|..]; intros ->; simpl in Hk; intuition discriminate. }
    destruct (q_flags W h id p) as (E1 & E2 & E3 & E4 & E5 & E6 & E7 & E8). rewrite !G in E1, E2, E4, E6, E7, E8 by discriminate.
    assert (PO : forall z, from_part (assemble W h id p) text parts z -> exists front text' x0 w x y, text = front ++ text' /\ displays W (si_log t) (Some n) text' x0
       /\ moved text w x0 x /\ In y (x :: m_children x) /\ becomes W h get keys y z).
    { intros z (x & y & Hx & Hy & S). destruct (Pc x Hx) as (front & text' & x0 & w & Q1 & Q2 & Q3). exists front, text', x0, w, x, y. repeat (split; [assumption|]). split; [apply (piece_shows_ext (g := fun k => dfind (bp_opts p) k)); [exact G|]; exact (piece_options S)|].
      intro Sb. destruct S as (i & e & [(_ & A2 & _) _ _ _ [FF _]]). apply FM. rewrite A2. apply FF. unfold subject. rewrite E1, E2, E7. exact Sb. }
    destruct (C134_chain_shows NP H Hm) as (Hi & [(Hp & Hr & (o & Mo & So) & Ha & K)|(Hr & K & (q & Ca))]).
    - apply (@by_chain W (si_log t) text m before ev after kw c keys get n); try assumption; try reflexivity.
      + apply (shows_ext (g := fun k => dfind (bp_opts p) k)); [exact G|]. exact (chain_options Mo So Hp Hi Hr Ha).
      + intro Tr. destruct So as (i & e & [(_ & A2 & _) _ _ _ [FF _]]). apply FM. rewrite A2. apply FF. unfold subject, treated in *. fold h in Tr. rewrite E1, E2, E7. rewrite Hp in Tr. exact Tr.
      + intros z Hz. rewrite Forall_forall in K. apply PO, K, Hz.
    - destruct (PO m K) as (front & text' & x0 & w & x & y & Q1 & Q2 & Q3 & Q4 & Q5).
      apply (@by_piece W (si_log t) text m before ev after kw c keys get n front text' x0 w x y); try assumption; try reflexivity.
      + rewrite E1, E2, E4 in Hr. exact Hr.
      + intros nm Hn Hin. unfold ignored in Hi. rewrite Hn, E6 in Hi. apply (existsb_pstr nm) in Hin. congruence.
      + intros v Ev Tv Tr. exists q. pose proof (q_validators W h id p) as V. rewrite G in V by discriminate. fold h in Tr. rewrite Ev, dict_single in V by exact Tv. apply pair_equal_spec in V as [Qv Qd].
        unfold accepted in Ca. rewrite E8, Qv, Qd in Ca.
        assert (subject (assemble W h id p) true (flag h (get (s "validate_all")))) as Sb by (unfold subject; rewrite E1, E2; tauto).
        destruct (Ca Sb) as (fv & Rf & Af). rewrite <- (resolves_fun (resolves_single _ _ _ _) Rf) in Af. unfold as_validator in Af. rewrite Tv in Af. exact Af.
  Qed.
  Lemma tree_displays : forall k b x tr, In x (added_to b flog) -> match x with CChain n => (w_count (se_world (si_session t)) <= k + n)%nat | CLeaf _ => True end -> written flog x tr ->
    forall n text n' outs raws m, tree_matches tr n text = Ok (n', (outs, raws)) -> In m outs -> displays W (si_log t) b text m.
  Proof.
    destruct (ok_session O) as (fops & T & Ef). unfold flog in *. 
    assert (Own : forall b x, In x (added_to b (se_log (si_session t))) -> exists e, In e (se_log (si_session t)) /\ builder_of (ev_on e) = b /\ In x (added e)).
    { intros b x Hx. unfold added_to in Hx. apply in_flat_map in Hx as (e & He & Hx). destruct (same_owner (chain_of (ev_on e)) b) eqn:Eo; [|destruct Hx].
      apply option_eqb_nat in Eo. exists e. split; [exact He|]. split; [|exact Hx]. rewrite <- Eo. destruct (ev_on e); reflexivity. }
    induction k as [|k IH]; intros b x tr Hx Hk Wr n text n' outs raws m H Hm; destruct Wr as [p src|hd c p br parts He Hl Hp].
    1,3: destruct (Own _ _ Hx) as (e & He & Hb & Ha); unfold added in Ha; pose proof (ok_log O He) as FC; unfold from_call in FC;
      destruct (ev_call e) as [[a|y]|[a|y]|v|v|]; destruct (ev_result e) as [[|n0|n0 j]|y']; try contradiction; destruct Ha as [Ha|[]]; try discriminate; injection Ha as Ea;
      destruct FC as (before & ev & after & key & kw & what & c & keys & bp & id & o & El & Eon & Ec & Er & F & Dk & Eleaf & G & U & gf & Gb & FM); rewrite Ea in Eleaf; injection Eleaf as -> ->; rewrite <- Hb, <- Eon in *;
      (assert (UG : unprocessed (fun k => dfind (bp_opts bp) k)) by (intros k0 Hk0 x0; rewrite G; [apply U, Hk0|..]; intros ->; simpl in Hk0; intuition discriminate));
      cbn [tree_matches] in H;
      (assert (LF : (treated (sv_built ev) (wanted_by c (kind_searched what) key kw) (s "format_all") m -> formatted W (sv_built ev) gf keys (is_child m) m)
          /\ (~ functional (source lower captures (sv_built ev) bp what) -> formats_children (sv_built ev) (wanted_by c (kind_searched what) key kw) -> Forall (formatted W (sv_built ev) gf keys true) (m_children m)))
        by (exact (leaf_formatted UG G FM H Hm)));
      (assert (NF' : kind_searched what <> KFunctional -> ~ functional (source lower captures (sv_built ev) bp what)) by (destruct what as [?|?|?]; [intros _ Z; exact Z|intros _ Z; exact Z|intro Z; contradiction]));
      (assert (Dec : kind_searched what <> KFunctional \/ exists fs, what = GFunctional fs) by (destruct what as [?|?|fs]; [left; discriminate|left; discriminate|right; exists fs; reflexivity]));
      (destruct Dec as [Nk|(fs & ->)];
        [specialize (NF' Nk); apply (@by_pattern W (si_log t) text m before ev after key kw what c keys _ o gf El Ec Nk Er F Dk eq_refl Gb);
          [apply (shows_ext (g := fun k => dfind (bp_opts bp) k)); [exact G|]; exact (assembled_shows UG NF' H Hm)
          |eapply Forall_impl; [|exact (assembled_children UG NF' H Hm)]; intros z; apply group_shows_ext; exact G
          |destruct LF as [L1 L2]; exact L1|destruct LF as [L1 L2]; exact (L2 NF')]
        |destruct (assembled_result UG H Hm) as (f & x0 & Hf & Hx0 & S0);
         apply (@by_function W (si_log t) text m before ev after key kw fs c keys _ o f x0 gf El Ec Er F Dk eq_refl Gb Hf Hx0);
          [exact (result_shows_ext G S0)
          |intros Tr; destruct LF as [L1 _]; specialize (L1 Tr); unfold is_child in L1; rewrite (proj1 (rs_alone S0)) in L1; exact L1]]).
    - rewrite Ef in *. destruct (nested_later Hx) as [B _]. lia.
    - destruct (Own _ _ Hx) as (e & He' & Hb & Ha). unfold added in Ha. pose proof (ok_log O He') as FC. unfold from_call in FC.
      destruct (ev_call e) as [[a|y]|[a|y]|v|v|] eqn:Ek; destruct (ev_result e) as [[|n0|n0 j]|y'] eqn:Er'; try contradiction; destruct Ha as [Ha|[]]; try discriminate; injection Ha as ->.
      assert (e = Event (ev_on e) (KChain (Ok a)) (Ok (HBuilder c))) as Ee by (destruct e; cbn in *; congruence). rewrite Ee in He'.
      rewrite Ef in He, He'. destruct (chains_opened fops) as [CO _]. destruct (CO _ _ _ He) as [_ Q1]. destruct (CO _ _ _ He') as [_ Q2]. rewrite Q1 in Q2. injection Q2 as <-.
      destruct FC as (before & ev & after & kw & cf & keys & bp & id & El & Eon & Ec & Er & F & Dk & Eop & G & U & FM). unfold opened in Eop. injection Eop as -> ->. rewrite <- Hb, <- Eon in *.
      cbn [tree_matches] in H. refine (chain_displays El Ec Er F Dk FM G U _ H Hm).
      intros x0 (cp & q & front & text' & q' & fd & rw & m0 & w & Hcp & _ & Et & Em & Hm0 & Mv). exists front, text', m0, w. split; [exact Et|]. split; [|exact Mv].
      apply in_map_iff in Hcp as ([tr [[lo hi] hid]] & <- & Htr). cbn [cp_match] in Em. apply In_nth_error in Htr as (i & Htr).
      assert (i < length parts)%nat as Hi by (apply nth_error_Some; congruence).
      destruct (nth_error (added_to (Some c) (se_log (si_session t))) i) as [y|] eqn:Ey; [|apply nth_error_None in Ey; lia].
      destruct (Hp i y _ Ey Htr) as [P1 _]. pose proof (nth_error_In _ _ Ey) as Hin. cbn [fst] in P1.
      refine (IH (Some c) y tr Hin _ P1 q text' q' fd rw m0 Em Hm0). destruct y as [|d]; [exact I|]. rewrite Ef in Hin, Hk |- *. destruct (nested_later Hin) as [_ Q]. specialize (Q c eq_refl). lia.
  Qed.
End Search.

(** ** C135: theorem *)
(** With rules adding nothing, every match of matches() displays the options the program gave *)
Theorem C135_matches_display : forall W call_breaker lower captures Ctx R (ctx : Ctx) info h ops rules keys env perm solvers order (user : Ctx -> behav found R) isinst check input f m,
  Forall (fun a => plain_call h (snd a)) ops -> (forall u, adds_nothing (user ctx) u) ->
  rb_matches env perm (fun c => with_defaults solvers order (user c)) isinst check (site_rebulk W call_breaker lower captures info h ops rules keys) ctx input = Ok f ->
  In m (all_found f) ->
  displays W (si_log (site_of W call_breaker lower captures h ops)) None input m.
Proof.
  intros W call_breaker lower captures Ctx R ctx info h ops rules keys env perm solvers order user isinst check input f m P Hu E Hm.
  pose proof (site_ok W call_breaker lower captures P) as O. destruct (ok_session O) as (fops & T & Ef). unfold site_rebulk in E. rewrite Ef in E.
  destruct (C131_found T Hu E Hm) as (x & tr & n & n' & outs & raws & Hx & Wr & Et & Ho). rewrite <- Ef in Hx, Wr.
  refine (tree_displays O (k := w_count (se_world (si_session (site_of W call_breaker lower captures h ops)))) Hx _ Wr Et Ho). destruct x; [exact I|lia].
Qed.
(** If the dictionaries the user has, and the keys, do not use the name "clear", no dictionary ever does (see [given_by]) *)
Theorem C135_orderly : forall W call_breaker lower captures h ops, Forall (fun a => plain_call h (snd a)) ops -> Forall (fun a => names_ok (snd a)) ops ->
  proper_heap h -> clear_free h -> forall e, In e (si_log (site_of W call_breaker lower captures h ops)) -> proper_heap (sv_before e) /\ clear_free (sv_before e).
Proof. intros W call_breaker lower captures h ops F N P C. exact (site_orderly F N P C). Qed.
(** Every builder obtained has a configuration in force, which is the one it is in *)
Theorem C135_in_force : forall W call_breaker lower captures h ops i, Forall (fun a => plain_call h (snd a)) ops ->
  let t := site_of W call_breaker lower captures h ops in
  let b := builder_of (nth i (se_held (si_session t)) HRoot) in
  in_force (si_log t) b (fun g => dfind (f_defaults (si_factory t b) g)).
Proof.
  intros W call_breaker lower captures h ops i P t b. pose proof (site_ok W call_breaker lower captures P) as O. apply (ok_force O). exact (known_target i O).
Qed.

Theorem C135_keys_in_force : forall W call_breaker lower captures h ops i, Forall (fun a => plain_call h (snd a)) ops ->
  let t := site_of W call_breaker lower captures h ops in
  let b := builder_of (nth i (se_held (si_session t)) HRoot) in
  declared (si_log t) b (fun x => match dfind (f_keys (si_factory t b)) x with Some k => Some (bk_converter k) | None => None end).
Proof.
  intros W call_breaker lower captures h ops i P t b. pose proof (site_ok W call_breaker lower captures P) as O. apply (ok_declared O). exact (known_target i O).
Qed.

(** The configuration in force is determined by the log: plain options are, and which options are dictionaries *)
Definition alike_option (o o' : option bval) : Prop :=
  match o, o' with None, None => True | Some (BVal v), Some (BVal w) => v = w | Some (BDict _), Some (BDict _) => True | _, _ => False end.
Lemma step_logs W call_breaker lower captures t a : exists ev, si_log (site_step W call_breaker lower captures t a) = si_log t ++ [ev]
  /\ forall kw n, sv_call ev = SChain kw -> sv_result ev = Ok (HBuilder n) -> n = w_count (se_world (si_session t)) /\ w_count (se_world (si_session (site_step W call_breaker lower captures t a))) = S n.
Proof.
  destruct a as [i sc]. unfold site_step. cbn [fst snd]. set (o := nth i (se_held (si_session t)) HRoot). destruct sc as [g kw|ks|key kw what|kw|v|v|].
  - destruct o; try (destruct (defaults _ _ _ _)); (eexists; split; [reflexivity|]; discriminate).
  - destruct o; (eexists; split; [reflexivity|]; discriminate).
  - destruct (add _ _ _ _ _) as [[h f] r]. destruct (step _ _ _) as [w res]. eexists. split; [reflexivity|]. discriminate.
  - assert (exists ev, si_log (let '(h, f, r) := add (si_heap t) (si_factory t (builder_of o)) Builder.KChain NoKey kw in
            let k := KChain match r with Ok p => Ok (opened W call_breaker h (length (si_log t)) p) | Err e => Err e end in
            let '(_, res) := step (se_world (si_session t)) o k in
            let fs := put_factory (si_factory t) (builder_of o) f in
            match r with
            | Ok _ => let '(h', f') := chain_factory h f in
                      Site h' (put_factory fs (Some (w_count (se_world (si_session t)))) f') (act (si_session t) (i, k)) (si_log t ++ [SEvent o (SChain kw) res (si_heap t) h h'])
            | Err _ => Site h fs (act (si_session t) (i, k)) (si_log t ++ [SEvent o (SChain kw) res (si_heap t) h h])
            end) = si_log t ++ [ev] /\ forall kw' n, sv_call ev = SChain kw' -> sv_result ev = Ok (HBuilder n) -> n = w_count (se_world (si_session t))
       /\ w_count (se_world (si_session (let '(h, f, r) := add (si_heap t) (si_factory t (builder_of o)) Builder.KChain NoKey kw in
            let k := KChain match r with Ok p => Ok (opened W call_breaker h (length (si_log t)) p) | Err e => Err e end in
            let '(_, res) := step (se_world (si_session t)) o k in
            let fs := put_factory (si_factory t) (builder_of o) f in
            match r with
            | Ok _ => let '(h', f') := chain_factory h f in
                      Site h' (put_factory fs (Some (w_count (se_world (si_session t)))) f') (act (si_session t) (i, k)) (si_log t ++ [SEvent o (SChain kw) res (si_heap t) h h'])
            | Err _ => Site h fs (act (si_session t) (i, k)) (si_log t ++ [SEvent o (SChain kw) res (si_heap t) h h])
            end))) = S n) as X.
    { destruct (add _ _ _ _ _) as [[h f] r]. destruct r as [p|x]; cbv zeta.
      - destruct (step _ _ _) as [w res] eqn:Es. pose proof (step_options Es) as P. destruct (act_eq (u := si_session t) (i := i) Es) as [A _].
        destruct (chain_factory h f) as [h' f']. eexists. split; [reflexivity|]. intros kw0 n _ R. cbn [sv_result] in R. subst res. cbn [si_session].
        destruct P as (P1 & P2 & _). split; [exact P1|]. etransitivity; [exact (f_equal (fun z => w_count z) A)|]. exact P2.
      - destruct (step _ _ _) as [w res] eqn:Es. eexists. split; [reflexivity|]. intros kw0 n _ R. cbn [sv_result] in R. subst res. exfalso. destruct o; cbn in Es; discriminate. }
    destruct o as [|c|c j]; [exact X|exact X|]. destruct kw; [exact X|]. eexists. split; [reflexivity|]. discriminate.
  - unfold plain_act. destruct (step _ _ _). eexists. split; [reflexivity|]. discriminate.
  - unfold plain_act. destruct (step _ _ _). eexists. split; [reflexivity|]. discriminate.
  - unfold plain_act. destruct (step _ _ _). eexists. split; [reflexivity|]. discriminate.
Qed.
Lemma step_grows W call_breaker lower captures t a : (w_count (se_world (si_session t)) <= w_count (se_world (si_session (site_step W call_breaker lower captures t a))))%nat.
Proof.
  assert (G : forall i k, (w_count (se_world (si_session t)) <= w_count (se_world (act (si_session t) (i, k))))%nat).
  { intros i k. destruct (step (se_world (si_session t)) (nth i (se_held (si_session t)) HRoot) k) as [w r] eqn:E. destruct (act_eq (u := si_session t) (i := i) E) as [A _]. rewrite A.
    pose proof (step_options E) as P. destruct k as [[x|e]|[x|e]|v|v|]; try (destruct P as [P _]; lia). destruct r as [[|c|c j]|e]; try contradiction; [destruct P as (P1 & P2 & _); lia|destruct P as [P _]; lia]. }
  destruct a as [i sc]. unfold site_step. cbn [fst snd]. destruct sc as [g kw|ks|key kw what|kw|v|v|].
  - destruct (nth i _ HRoot); try (destruct (defaults _ _ _ _)); apply Nat.le_refl.
  - destruct (nth i _ HRoot); apply Nat.le_refl.
  - destruct (add _ _ _ _ _) as [[h f] r]. destruct (step _ _ _) as [w res]. cbn [si_session]. apply G.
  - destruct (nth i (se_held (si_session t)) HRoot) as [|c|c j]; [| |destruct kw as [|kv kw]; [|apply Nat.le_refl]];
      (destruct (add _ _ _ _ _) as [[h f] [p|x]]; cbv zeta; destruct (step _ _ _) as [w res]; [destruct (chain_factory h f)|]; cbn [si_session]; apply G).
  - unfold plain_act. destruct (step _ _ _). cbn [si_session]. apply G.
  - unfold plain_act. destruct (step _ _ _). cbn [si_session]. apply G.
  - unfold plain_act. destruct (step _ _ _). cbn [si_session]. apply G.
Qed.
Lemma force_created log b c : in_force log b c -> forall n, b = Some n -> exists e kw, In e log /\ sv_call e = SChain kw /\ sv_result e = Ok (HBuilder n).
Proof.
  induction 1 as [c Hc|log b c e g kw c' H IH Ec Eb Er Hc|log b c e H IH N|log b c e kw m c' H IH Ec Eb Er Hc]; intros n Hn; [discriminate| | |].
  - destruct (IH n Hn) as (e' & kw' & X & Y). exists e', kw'. split; [apply in_or_app; left; exact X|exact Y].
  - destruct (IH n Hn) as (e' & kw' & X & Y). exists e', kw'. split; [apply in_or_app; left; exact X|exact Y].
  - injection Hn as ->. exists e, kw. split; [apply in_or_app; right; left; reflexivity|split; assumption].
Qed.
Lemma alike_after g o o' g' kw k : alike_option (o k) (o' k) -> alike_option (after_op g' o (ODefaults g kw) k) (after_op g' o' (ODefaults g kw) k).
Proof.
  intro A. cbn [after_op]. destruct (group_eqb g g'); [|exact A]. destruct (pstr_eqb k k_clear); [exact I|]. destruct (dfind kw k) as [[v|a]|]; cbn; auto. destruct (clears kw); [exact I|exact A].
Qed.
Lemma alike_copy h h' a b c d : copy_of h h' a c -> copy_of h h' b d -> alike_option a b -> alike_option c d.
Proof. destruct a as [[]|], b as [[]|], c as [[]|], d as [[]|]; cbn; try tauto; intros; subst; auto. Qed.
(** The log determines the configuration in force: no two accounts of the calls made differ in the options given as plain values *)
Theorem C135_determined : forall W call_breaker lower captures h ops b c c',
  let log := si_log (site_of W call_breaker lower captures h ops) in
  in_force log b c -> in_force log b c' -> forall g k, alike_option (c g k) (c' g k).
Proof.
  intros W call_breaker lower captures h ops. cbv zeta.
  enough (A : (forall e kw n, In e (si_log (site_of W call_breaker lower captures h ops)) -> sv_call e = SChain kw -> sv_result e = Ok (HBuilder n) ->
               (n < w_count (se_world (si_session (site_of W call_breaker lower captures h ops))))%nat)
    /\ forall b c c', in_force (si_log (site_of W call_breaker lower captures h ops)) b c -> in_force (si_log (site_of W call_breaker lower captures h ops)) b c' ->
       forall g k, alike_option (c g k) (c' g k)) by (intros b c c'; apply A).
  induction ops as [|a ops IH] using rev_ind.
  - split; [intros e kw n []|]. cbn [site_of fold_left new_site si_log]. intros b c c' D D' g k.
    assert (Z : forall log b (c : config), in_force log b c -> log = [] -> forall g k, c g k = None) by (clear; intros log b c H; destruct H; intros Q g' k'; auto; destruct log; discriminate).
    rewrite (Z _ _ _ D eq_refl), (Z _ _ _ D' eq_refl). exact I.
  - unfold site_of in *. rewrite fold_left_app. cbn [fold_left]. set (t := fold_left (site_step W call_breaker lower captures) ops (new_site h)) in *. destruct IH as [I1 I2].
    destruct (step_logs W call_breaker lower captures t a) as (ev & El & Hn). pose proof (step_grows W call_breaker lower captures t a) as Gr. rewrite El. split.
    + intros e kw n He Ec Er. apply in_app_or in He as [He|[<-|[]]]; [specialize (I1 _ _ _ He Ec Er); lia|]. destruct (Hn _ _ Ec Er) as [_ ->]. lia.
    + intros b c c' D D' g k.
      assert (Cas : forall c0, in_force (si_log t ++ [ev]) b c0 ->
        (exists c1 g' kw, in_force (si_log t) b c1 /\ sv_call ev = SDefaults g' kw /\ configures ev b /\ forall x y, c0 x y = after_op x (c1 x) (ODefaults g' kw) y)
        \/ (in_force (si_log t) b c0 /\ ~ configures ev b)
        \/ (exists c1 kw n, b = Some n /\ in_force (si_log t) (builder_of (sv_on ev)) c1 /\ sv_call ev = SChain kw /\ sv_result ev = Ok (HBuilder n) /\ forall x y, copy_of (sv_built ev) (sv_after ev) (c1 x y) (c0 x y))).
      { intros c0 D0. inversion D0 as [cc Hcc Eq|log0 b0 c1 e0 g0 kw0 c0' F0 Ec0 Eb0 Er0 Hc0 Eq|log0 b0 c1 e0 F0 N0 Eq|log0 b0 c1 e0 kw0 n0 c0' F0 Ec0 Eb0 Er0 Hc0 Eq]; subst.
        - destruct (si_log t); discriminate.
        - apply app_inj_tail in Eq as [-> ->]. left. exists c1, g0, kw0. split; [exact F0|]. split; [exact Ec0|]. split; [|exact Hc0]. split; [reflexivity|split; [exists g0, kw0; exact Ec0|exact Er0]].
        - apply app_inj_tail in Eq as [-> ->]. right. left. split; assumption.
        - apply app_inj_tail in Eq as [-> ->]. right. right. exists c1, kw0, n0. repeat (split; [assumption || reflexivity|]). exact Hc0. }
      assert (Fr : forall c0 kw n, b = Some n -> in_force (si_log t) b c0 -> sv_call ev = SChain kw -> sv_result ev = Ok (HBuilder n) -> False).
      { intros c0 kw n Eb F0 Ec Er. destruct (force_created F0 Eb) as (e' & kw' & He & Ec' & Er'). specialize (I1 _ _ _ He Ec' Er'). destruct (Hn _ _ Ec Er) as [Q _]. lia. }
      destruct (Cas c D) as [(c1 & g1 & kw1 & F1 & Ec1 & C1 & H1)|[[F1 N1]|(c1 & kw1 & n1 & Eb1 & F1 & Ec1 & Er1 & H1)]];
      destruct (Cas c' D') as [(c2 & g2 & kw2 & F2 & Ec2 & C2 & H2)|[[F2 N2]|(c2 & kw2 & n2 & Eb2 & F2 & Ec2 & Er2 & H2)]].
      * rewrite Ec1 in Ec2. injection Ec2 as <- <-. rewrite H1, H2. apply alike_after. apply (I2 _ _ _ F1 F2).
      * contradiction.
      * rewrite Ec1 in Ec2. discriminate.
      * contradiction.
      * apply (I2 _ _ _ F1 F2).
      * exfalso. exact (Fr _ _ _ Eb2 F1 Ec2 Er2).
      * rewrite Ec1 in Ec2. discriminate.
      * exfalso. exact (Fr _ _ _ Eb1 F2 Ec1 Er1).
      * exact (alike_copy (H1 g k) (H2 g k) (I2 _ _ _ F1 F2 g k)).
Qed.
(** so are the keys declared *)
Lemma declared_created log b d : declared log b d -> forall n, b = Some n -> exists e kw, In e log /\ sv_call e = SChain kw /\ sv_result e = Ok (HBuilder n).
Proof.
  induction 1 as [c Hc|log b c e g c' H IH Ec Eb Er Hc|log b c e H IH N|log b c e kw m c' H IH Ec Eb Er Hc]; intros n Hn; [discriminate| | |].
  - destruct (IH n Hn) as (e' & kw' & X & Y). exists e', kw'. split; [apply in_or_app; left; exact X|exact Y].
  - destruct (IH n Hn) as (e' & kw' & X & Y). exists e', kw'. split; [apply in_or_app; left; exact X|exact Y].
  - injection Hn as ->. exists e, kw. split; [apply in_or_app; right; left; reflexivity|split; assumption].
Qed.
Theorem C135_keys_determined : forall W call_breaker lower captures h ops b d d',
  let log := si_log (site_of W call_breaker lower captures h ops) in
  declared log b d -> declared log b d' -> forall x, d x = d' x.
Proof.
  intros W call_breaker lower captures h ops. cbv zeta.
  enough (A : (forall e kw n, In e (si_log (site_of W call_breaker lower captures h ops)) -> sv_call e = SChain kw -> sv_result e = Ok (HBuilder n) ->
               (n < w_count (se_world (si_session (site_of W call_breaker lower captures h ops))))%nat)
    /\ forall b d d', declared (si_log (site_of W call_breaker lower captures h ops)) b d -> declared (si_log (site_of W call_breaker lower captures h ops)) b d' -> forall x, d x = d' x) by (intros b d d'; apply A).
  induction ops as [|a ops IH] using rev_ind.
  - split; [intros e kw n []|]. cbn [site_of fold_left new_site si_log]. intros b c c' D D' x.
    assert (Z : forall log b d, declared log b d -> log = [] -> forall x, d x = None) by (clear; intros log b d H; destruct H; intros Q x; auto; destruct log; discriminate).
    rewrite (Z _ _ _ D eq_refl), (Z _ _ _ D' eq_refl). reflexivity.
  - unfold site_of in *. rewrite fold_left_app. cbn [fold_left]. set (t := fold_left (site_step W call_breaker lower captures) ops (new_site h)) in *. destruct IH as [I1 I2].
    destruct (step_logs W call_breaker lower captures t a) as (ev & El & Hn). pose proof (step_grows W call_breaker lower captures t a) as Gr. rewrite El. split.
    + intros e kw n He Ec Er. apply in_app_or in He as [He|[<-|[]]]; [specialize (I1 _ _ _ He Ec Er); lia|]. destruct (Hn _ _ Ec Er) as [_ ->]. lia.
    + intros b c c' D D' x. set (declares := builder_of (sv_on ev) = b /\ (exists ks, sv_call ev = SDeclare ks) /\ exists o, sv_result ev = Ok o).
      assert (Cas : forall c0, declared (si_log t ++ [ev]) b c0 ->
        (exists c1 ks, declared (si_log t) b c1 /\ sv_call ev = SDeclare ks /\ declares /\ forall x, c0 x = match find (fun k => pstr_eqb x (bk_name k)) (rev ks) with Some k => Some (bk_converter k) | None => c1 x end)
        \/ (declared (si_log t) b c0 /\ ~ declares)
        \/ (exists c1 kw n, b = Some n /\ declared (si_log t) (builder_of (sv_on ev)) c1 /\ sv_call ev = SChain kw /\ sv_result ev = Ok (HBuilder n) /\ forall x, c0 x = c1 x)).
      { intros c0 D0. unfold declares. inversion D0 as [cc Hcc Eq|log0 b0 c1 e0 ks0 c0' F0 Ec0 Eb0 Er0 Hc0 Eq|log0 b0 c1 e0 F0 N0 Eq|log0 b0 c1 e0 kw0 n0 c0' F0 Ec0 Eb0 Er0 Hc0 Eq]; subst.
        - destruct (si_log t); discriminate.
        - apply app_inj_tail in Eq as [-> ->]. left. exists c1, ks0. split; [exact F0|]. split; [exact Ec0|]. split; [|exact Hc0]. split; [reflexivity|split; [exists ks0; exact Ec0|exact Er0]].
        - apply app_inj_tail in Eq as [-> ->]. right. left. split; assumption.
        - apply app_inj_tail in Eq as [-> ->]. right. right. exists c1, kw0, n0. repeat (split; [assumption || reflexivity|]). exact Hc0. }
      assert (Fr : forall c0 kw n, b = Some n -> declared (si_log t) b c0 -> sv_call ev = SChain kw -> sv_result ev = Ok (HBuilder n) -> False).
      { intros c0 kw n Eb F0 Ec Er. destruct (declared_created F0 Eb) as (e' & kw' & He & Ec' & Er'). specialize (I1 _ _ _ He Ec' Er'). destruct (Hn _ _ Ec Er) as [Q _]. lia. }
      destruct (Cas c D) as [(c1 & g1 & F1 & Ec1 & C1 & H1)|[[F1 N1]|(c1 & kw1 & n1 & Eb1 & F1 & Ec1 & Er1 & H1)]];
      destruct (Cas c' D') as [(c2 & g2 & F2 & Ec2 & C2 & H2)|[[F2 N2]|(c2 & kw2 & n2 & Eb2 & F2 & Ec2 & Er2 & H2)]].
      * rewrite Ec1 in Ec2. injection Ec2 as <-. rewrite H1, H2. destruct (find _ (rev g1)); [reflexivity|]. apply (I2 _ _ _ F1 F2).
      * contradiction.
      * rewrite Ec1 in Ec2. discriminate.
      * contradiction.
      * apply (I2 _ _ _ F1 F2).
      * exfalso. exact (Fr _ _ _ Eb2 F1 Ec2 Er2).
      * rewrite Ec1 in Ec2. discriminate.
      * exfalso. exact (Fr _ _ _ Eb1 F2 Ec1 Er1).
      * rewrite H1, H2. exact (I2 _ _ _ F1 F2 x).
Qed.

(** ** A case: [rb.defaults(tags=["a"])]; [rb.declare_keys(n)] (the length); [b = rb.chain(name="all")]; [rb.declare_keys(d)]; [b.string_defaults(tags=["p"])]; [b.string("a", name="n").repeater("+")];
    [rb.defaults(tags=["late"], clear=True)]; [b.regex("[12]", name="d")]; [rb.string("z")]; searched in "aa1 z" *)
Definition tags_kw (t : pstr) : pstr * bval := (s "tags", BVal (VList [VStr t])).
Definition some_site : list (nat * scall) :=
  [(0, SDefaults GAll [tags_kw (s "a")]); (0, SDeclare [BKey (s "n") (VObj 8)]); (0, SChain [(s "name", BVal (VStr (s "all")))]); (0, SDeclare [BKey (s "d") (VObj 8)]); (1, SDefaults (GKind KString) [tags_kw (s "p")]);
   (1, SPattern NoKey [(s "name", BVal (VStr (s "n")))] (GString [s "a"])); (2, SRepeater (RStr (s "+")));
   (0, SDefaults GAll [tags_kw (s "late"); (s "clear", BVal (VBool true))]);
   (1, SPattern NoKey [(s "name", BVal (VStr (s "d")))] (GRegex [char_rx (s "12")])); (0, SPattern NoKey [] (GString [s "z"]))]%nat.
Example C135_case : Forall (fun a => plain_call (Heap 0 (fun _ => [])) (snd a)) some_site
  /\ match rb_matches default_env (fun l => l) (fun _ => with_defaults (fun _ _ _ => VDefault) (fun l => l) idle) (fun _ _ => true) true
            (site_rebulk some_callables (fun _ _ => false) (fun x => x) false no_info (Heap 0 (fun _ => [])) some_site default_rules []) tt (s "aa1 z") with
     | Ok f => map (fun m => (m_span m, m_name m, m_tags m, map (fun z => (m_span z, m_name z, m_tags z, m_value z)) (m_children m))) (all_found f)
     | Err _ => []
     end = [((0, 3), Some (s "all"), [s "a"], [((0, 1), Some (s "n"), [s "a"; s "p"], VInt 1); ((1, 2), Some (s "n"), [s "a"; s "p"], VInt 1); ((2, 3), Some (s "d"), [s "a"], VStr (s "1"))]);
            ((4, 5), None, [s "late"], [])].
Proof.
  split; [|vm_compute; reflexivity].
  assert (P : forall kw, NoDup (dkeys kw) -> (forall k v, In (k, v) kw -> exists w, v = BVal w /\ forall n, w <> VObj n) -> plain_kw (Heap 0 (fun _ => [])) kw).
  { intros kw N V. split; [exact N|]. split.
    - intros a Ha. exfalso. unfold addrs in Ha. apply in_flat_map in Ha as ([k v] & Hk & Ha). destruct (V _ _ Hk) as (w & -> & _). destruct Ha.
    - intros k _ n E. apply (dfind_In) in E. destruct (V _ _ E) as (w & Q & X). injection Q as <-. exact (X n eq_refl). }
  unfold some_site. repeat (apply Forall_cons; [cbn [snd plain_call]; first [exact I|idtac]|]); [..|apply Forall_nil].
  1, 3, 5: split; [|intro a; vm_compute; discriminate].
  all: apply P; [repeat constructor; cbn; intuition discriminate|]; intros k v Hk; cbn in Hk; repeat (destruct Hk as [Hk|Hk]; [injection Hk as <- <-; eexists; split; [reflexivity|discriminate]|]); destruct Hk.
Qed.
(** [rb.functional_defaults(tags=["f"])]; [b = rb.chain(name="all")]; [b.string("a")]; [b.functional(one_letter, name="n", value=None).repeater("*")]; [rb.functional(both_ends, name="e")]; searched in "abb":
    the function of the chain is called on what is left of the text, and gives its first letter a tag of its own if it is not the last; it gives one letter, so that the part matches once *)
Definition one_letter (t : pstr) : fresult := match t with [] => FFalsy | [_] => FOne (FTuple 0 1 None None) | _ => FOne (FDict 0 1 (MOpts (Some (VInt (zlen t))) None (Some [s "own"]) None None None None)) end.
Definition both_ends (t : pstr) : fresult := FMany [FTuple 0 1 (Some (VInt 1)) None; FTuple (zlen t - 1) (zlen t) None (Some (MOpts None (Some (Some (s "last"))) None None None None None))].
Definition function_site : list (nat * scall) :=
  [(0, SDefaults (GKind KFunctional) [tags_kw (s "f")]); (0, SChain [(s "name", BVal (VStr (s "all")))]); (1, SPattern NoKey [] (GString [s "a"]));
   (1, SPattern NoKey [(s "name", BVal (VStr (s "n"))); (s "value", BVal VNone)] (GFunctional [one_letter])); (3, SRepeater (RStr (s "*")));
   (0, SPattern NoKey [(s "name", BVal (VStr (s "e")))] (GFunctional [both_ends]))]%nat.
Example C135_functions_case : Forall (fun a => plain_call (Heap 0 (fun _ => [])) (snd a)) function_site
  /\ match rb_matches default_env (fun l => l) (fun _ => with_defaults (fun _ _ _ => VDefault) (fun l => l) idle) (fun _ _ => true) true
            (site_rebulk some_callables (fun _ _ => false) (fun x => x) false no_info (Heap 0 (fun _ => [])) function_site [] []) tt (s "abb") with
     | Ok f => map (fun m => (m_span m, m_name m, m_tags m, m_value m, map (fun z => (m_span z, m_name z, m_tags z, m_value z)) (m_children m))) (all_found f)
     | Err _ => []
     end = [((0, 2), Some (s "all"), [], VStr (s "ab"), [((0, 1), None, [], VStr (s "a")); ((1, 2), Some (s "n"), [s "own"], VInt 2)]);
            ((0, 1), Some (s "e"), [s "f"], VInt 1, []); ((2, 3), Some (s "last"), [s "f"], VStr (s "b"), [])].
Proof.
  split; [|vm_compute; reflexivity].
  assert (P : forall kw, NoDup (dkeys kw) -> (forall k v, In (k, v) kw -> exists w, v = BVal w /\ forall n, w <> VObj n) -> plain_kw (Heap 0 (fun _ => [])) kw).
  { intros kw N V. split; [exact N|]. split.
    - intros a Ha. exfalso. unfold addrs in Ha. apply in_flat_map in Ha as ([k v] & Hk & Ha). destruct (V _ _ Hk) as (w & -> & _). destruct Ha.
    - intros k _ n E. apply (dfind_In) in E. destruct (V _ _ E) as (w & Q & X). injection Q as <-. exact (X n eq_refl). }
  unfold function_site. repeat (apply Forall_cons; [cbn [snd plain_call]; first [exact I|idtac]|]); [..|apply Forall_nil].
  1: split; [|intro a; vm_compute; discriminate].
  all: apply P; [repeat constructor; cbn; intuition discriminate|]; intros k v Hk; cbn in Hk; repeat (destruct Hk as [Hk|Hk]; [injection Hk as <- <-; eexists; split; [reflexivity|discriminate]|]); destruct Hk.
Qed.
(** [rb.regex("(?P<d>[12]+)(?P<x>[ab]+)", key=[Key("d", len), Key("x", str), Key("d", str)], children=True)] and [rb.regex(..., key=[Key("d", len), Key("x", str)], formatter={"x": len}, children=True)],
    searched in "12aab": the first key of a name counts, and a formatter given for a name wins over the key *)
Definition two_groups : regex := Regex [Some (s "d"); Some (s "x")] (fun _ => [Occurrence (0, 5) [[(0, 2)]; [(2, 5)]]]).
Definition several_heap : heap := Heap 1 (fun a => if Nat.eqb a 0 then [(Some (s "x"), VObj 8)] else []).
Definition several_site : list (nat * scall) :=
  [(0, SPattern (Keys [BKey (s "d") (VObj 8); BKey (s "x") (VObj 7); BKey (s "d") (VObj 7)]) [(s "children", BVal (VBool true))] (GRegex [two_groups]));
   (0, SPattern (Keys [BKey (s "d") (VObj 8); BKey (s "x") (VObj 7)]) [(s "formatter", BDict 0); (s "children", BVal (VBool true))] (GRegex [two_groups]))]%nat.
Example C135_several_keys_case : Forall (fun a => plain_call several_heap (snd a)) several_site
  /\ Forall (fun a => names_ok (snd a)) several_site /\ proper_heap several_heap /\ clear_free several_heap
  /\ match rb_matches default_env (fun l => l) (fun _ => with_defaults (fun _ _ _ => VDefault) (fun l => l) idle) (fun _ _ => true) true
            (site_rebulk some_callables (fun _ _ => false) (fun x => x) false no_info several_heap several_site [] []) tt (s "12aab") with
     | Ok f => map (fun m => (m_span m, m_name m, m_value m)) (all_found f)
     | Err _ => []
     end = [((0, 2), Some (s "d"), VInt 2); ((2, 5), Some (s "x"), VStr (s "aab")); ((0, 2), Some (s "d"), VInt 2); ((2, 5), Some (s "x"), VInt 3)].
Proof.
  split; [|split; [|split; [|split; [|vm_compute; reflexivity]]]].
  - assert (P : forall kw, NoDup (dkeys kw) -> (forall k v, In (k, v) kw -> v = BDict 0 \/ exists w, v = BVal w /\ forall n, w <> VObj n) -> plain_kw several_heap kw).
    { intros kw N V. split; [exact N|]. split.
      - intros a Ha. unfold addrs in Ha. apply in_flat_map in Ha as ([k v] & Hk & Ha). destruct (V _ _ Hk) as [->|(w & -> & _)]; [|destruct Ha]. destruct Ha as [<-|[]]. cbn. lia.
      - intros k _ n E. apply (dfind_In) in E. destruct (V _ _ E) as [Q|(w & Q & X)]; [discriminate|]. injection Q as <-. exact (X n eq_refl). }
    unfold several_site. repeat (apply Forall_cons; [cbn [snd plain_call]|]); [..|apply Forall_nil].
    all: apply P; [repeat constructor; cbn; intuition discriminate|]; intros k v Hk; cbn in Hk; repeat (destruct Hk as [Hk|Hk]; [injection Hk as <- <-; first [left; reflexivity|right; eexists; split; [reflexivity|discriminate]]|]); destruct Hk.
  - repeat constructor; discriminate.
  - intro a. unfold several_heap. cbn [h_cell]. destruct (Nat.eqb a 0); repeat constructor. intros [].
  - intro a. unfold several_heap. cbn [h_cell]. destruct (Nat.eqb a 0); reflexivity.
Qed.
