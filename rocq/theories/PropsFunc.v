(** * What the function of a functional pattern may return: C148 *)
From Coq Require Import ZifyBool.
From Coq Require String. Export Coq.Strings.String.StringSyntax.
From Verif Require Import Base BaseFacts Match Pattern FuncRet.
Set Implicit Arguments.
Unset Strict Implicit.
Open Scope string_scope.
Open Scope list_scope.
Open Scope Z_scope.

(** ** Specification *)
(** how one result is read: the positional arguments, and the options it gives: a dictionary gives options only (its entries
    input_string and pattern are dropped); a tuple or a list gives positional arguments, and options when it ends with a dictionary *)
Definition is_dict (o : pobj) : Prop := exists d, o = PDict d.
Inductive reads : pobj -> list pobj -> kwargs -> Prop :=
| reads_dict d : reads (PDict d) [] (filter (fun e => negb (pstr_eqb (fst e) (s "input_string") || pstr_eqb (fst e) (s "pattern"))) d)
| reads_options x args d : sequence_of x = Some (args ++ [PDict d]) -> reads x args d
| reads_plain x args last : sequence_of x = Some (args ++ [last]) -> ~ is_dict last -> reads x (args ++ [last]) [].
(** the value of a parameter of the match: the positional one, the one among the options of the result, the one the pattern gives *)
Definition argument (args : list pobj) (opts kw : kwargs) (k : pstr) : option pobj :=
  dfind (combine (map s ["start"; "end"; "value"; "name"; "tags"; "marker"; "parent"; "private"]) args ++ opts ++ kw) k.
Definition integer (o : option pobj) (z : Z) : Prop := exists v, o = Some (PV v) /\ as_int v = Some z.
(** the result says from where to where, and says nothing twice *)
Record acceptable (args : list pobj) (opts kw : kwargs) (st en : Z) : Prop := {
  ac_length : (length args <= 8)%nat;
  ac_once : forall k, In k (firstn (length args) (map s ["start"; "end"; "value"; "name"; "tags"; "marker"; "parent"; "private"])) ->
              dfind opts k = None /\ dfind kw k = None;
  ac_reserved : forall k, In k (map s ["self"; "pattern"; "input_string"]) -> dfind opts k = None /\ dfind kw k = None;
  ac_start : integer (argument args opts kw (s "start")) st;
  ac_end : integer (argument args opts kw (s "end")) en
}.
(** what is yielded for the result: nothing when it is empty, or the match with these arguments *)
Definition yields (me : pobj) (input : pstr) (args : list pobj) (opts kw : kwargs) (st en : Z) (r : res (list kwargs)) : Prop :=
  if en <? st then r = Err ValueError
  else if en =? st then r = Ok []
  else exists b, r = Ok [b] /\ dfind b (s "pattern") = Some me /\ dfind b (s "input_string") = Some (PV (VStr input))
    /\ forall k, ~ In k (map s ["pattern"; "input_string"]) -> dfind b k = argument args opts kw k.

(** ** Lookups *)
Lemma find_app (a b : kwargs) k : dfind (a ++ b) k = match dfind a k with Some v => Some v | None => dfind b k end.
Proof. induction a as [|[k' v] a IH]; [reflexivity|]. cbn [app dfind]. destruct (eqb k k'); [reflexivity|exact IH]. Qed.
Lemma mem_none (d : kwargs) k : dmem d k = false <-> dfind d k = None.
Proof. unfold dmem. destruct (dfind d k); split; congruence. Qed.
Definition eight : list pstr := map s ["start"; "end"; "value"; "name"; "tags"; "marker"; "parent"; "private"].
Lemma combine_eight (args : list pobj) : (length args <= 8)%nat -> combine (firstn (length args) parameters) args = combine eight args.
Proof. intro L. rewrite <- combine_firstn_r. do 9 (destruct args as [|? args]; [reflexivity|]). cbn [length] in L. lia. Qed.
Lemma firstn_eight n : (n <= 8)%nat -> firstn n parameters = firstn n eight.
Proof. intro L. do 9 (destruct n as [|n]; [reflexivity|]). lia. Qed.
Lemma ninth n : (8 < n)%nat -> In (s "pattern") (firstn n parameters).
Proof. intro L. do 9 (destruct n as [|n]; [lia|]). unfold parameters. cbn [map firstn]. do 8 right. now left. Qed.
Lemma eight_reserved k : In k eight -> k <> s "pattern" /\ k <> s "input_string" /\ k <> s "self".
Proof. unfold eight. cbn [map In]. intuition (subst; vm_compute in *; congruence). Qed.
Lemma firstn_in {A} n (l : list A) x : In x (firstn n l) -> In x l.
Proof. revert l. induction n as [|n IH]; intros [|y l] H; cbn [firstn] in H; try contradiction. destruct H as [->|H]; [now left|right; auto]. Qed.
Lemma not_eqb (a b : pstr) : a <> b -> eqb a b = false.
Proof. intro N. destruct (eqb a b) eqn:E; [|reflexivity]. apply eqb_eq in E. contradiction. Qed.

Section Make.
  Variables (me : pobj) (input : pstr) (args : list pobj) (opts kw : kwargs).
  Let kws : kwargs := (s "pattern", me) :: (s "input_string", PV (VStr input)) :: opts ++ kw.
  Lemma kws_other k : k <> s "pattern" -> k <> s "input_string" -> dfind kws k = dfind (opts ++ kw) k.
  Proof. intros A B. unfold kws. cbn [dfind]. rewrite (not_eqb A), (not_eqb B). reflexivity. Qed.
  Lemma once_iff : existsb (fun k => dmem kws k) (s "self" :: firstn (length args) parameters) = false <->
    (length args <= 8)%nat /\ (dfind opts (s "self") = None /\ dfind kw (s "self") = None)
    /\ (forall k, In k (firstn (length args) eight) -> dfind opts k = None /\ dfind kw k = None).
  Proof.
    assert (forall k, k <> s "pattern" -> k <> s "input_string" -> dmem kws k = false <-> dfind opts k = None /\ dfind kw k = None) as X.
    { intros k A B. rewrite mem_none, kws_other by assumption. rewrite find_app. destruct (dfind opts k); intuition congruence. }
    assert (existsb (fun k => dmem kws k) (s "self" :: firstn (length args) parameters) = false <->
      forall k, In k (s "self" :: firstn (length args) parameters) -> dmem kws k = false) as E.
    { generalize (s "self" :: firstn (length args) parameters). intro l. induction l as [|y l IH]; cbn [existsb In]; [intuition|].
      rewrite orb_false_iff, IH. split; [intros [A B] k [<-|H]; auto|intro H; split; [apply H; now left|intros; apply H; now right]]. }
    rewrite E. split.
    - intro H. assert (length args <= 8)%nat as L.
      { destruct (Nat.leb_spec (length args) 8) as [L|L]; [exact L|]. specialize (H _ (or_intror (ninth L))). discriminate H. }
      split; [exact L|]. split; [apply X; [discriminate|discriminate|apply H; now left]|].
      intros k Hk. destruct (eight_reserved (firstn_in Hk)) as (A & B & _). apply X; auto. apply H. right. now rewrite firstn_eight.
    - intros (L & S & H) k [<-|Hk]; [apply X; auto; discriminate|]. rewrite firstn_eight in Hk by exact L.
      destruct (eight_reserved (firstn_in Hk)) as (A & B & _). apply X; auto.
  Qed.
  Lemma reserved_iff : dmem (opts ++ kw) (s "pattern") || dmem (opts ++ kw) (s "input_string") = false <->
    (dfind opts (s "pattern") = None /\ dfind kw (s "pattern") = None) /\ (dfind opts (s "input_string") = None /\ dfind kw (s "input_string") = None).
  Proof.
    rewrite orb_false_iff, !mem_none, !find_app. destruct (dfind opts (s "pattern")), (dfind opts (s "input_string")); intuition congruence.
  Qed.
  Lemma make_reads : (forall st en, acceptable args opts kw st en -> yields me input args opts kw st en (make me input args (opts ++ kw)))
    /\ (~ (exists st en, acceptable args opts kw st en) -> make me input args (opts ++ kw) = Err TypeError).
  Proof.
    unfold make. fold kws. unfold bind. fold kws.
    destruct (dmem (opts ++ kw) (s "pattern") || dmem (opts ++ kw) (s "input_string")) eqn:R.
    { split; [|reflexivity]. intros st en [_ _ C _ _]. exfalso. assert (dmem (opts ++ kw) (s "pattern") || dmem (opts ++ kw) (s "input_string") = false); [|congruence].
      apply reserved_iff. split; apply C; [right; now left|right; right; now left]. }
    apply reserved_iff in R as (R1 & R2).
    destruct (Nat.ltb_spec (length parameters) (length args)) as [L|L].
    { split; [|reflexivity]. intros st en [A _ _ _ _]. exfalso. cbn in L. lia. }
    destruct (existsb _ _) eqn:E.
    { split; [|reflexivity]. intros st en [A B C _ _]. exfalso. assert (existsb (fun k => dmem kws k) (s "self" :: firstn (length args) parameters) = false); [|congruence].
      apply once_iff. split; [exact A|]. split; [apply C; now left|exact B]. }
    apply once_iff in E as (E1 & E2 & E3). rewrite combine_eight by exact E1.
    assert (forall k, k <> s "pattern" -> k <> s "input_string" -> dfind (combine eight args ++ kws) k = argument args opts kw k) as F.
    { intros k A B. unfold argument. fold eight. rewrite !(find_app (combine eight args)). destruct (dfind (combine eight args) k); [reflexivity|]. now apply kws_other. }
    assert (forall k, k = s "pattern" \/ k = s "input_string" -> dfind (combine eight args) k = None) as G.
    { intros k Hk. destruct (dfind (combine eight args) k) eqn:D; [|reflexivity]. exfalso.
      assert (In k eight) as Hk'. { clear - D. revert D. generalize eight. intro l. revert args. induction l as [|y l IH]; intros [|a r] D; cbn [combine dfind] in D; try discriminate.
        destruct (eqb k y) eqn:Ek; [left; symmetry; now apply eqb_eq|right; eauto]. }
      destruct (eight_reserved Hk') as (A & B & _). destruct Hk; contradiction. }
    cbv zeta. set (all := combine eight args ++ kws) in *.
    assert (forall st en, acceptable args opts kw st en <-> integer (dfind all (s "start")) st /\ integer (dfind all (s "end")) en) as AC.
    { intros st en. rewrite !F by discriminate. split; [intros [_ _ _ A B]; auto|]. intros [A B]. constructor; auto.
      intros k [<-|[<-|[<-|[]]]]; auto. }
    assert (dmem all (s "start") = match dfind all (s "start") with Some _ => true | None => false end) as -> by reflexivity.
    assert (dmem all (s "end") = match dfind all (s "end") with Some _ => true | None => false end) as -> by reflexivity.
    assert (dfind all (s "pattern") = Some me /\ dfind all (s "input_string") = Some (PV (VStr input))) as [P1 P2].
    { unfold all. rewrite !find_app, !G by auto. split; reflexivity. }
    clearbody all. split.
    - intros st en A. apply AC in A as [(v & A1 & A2) (w & B1 & B2)]. rewrite A1, B1. cbn [andb]. rewrite A1, B1, A2, B2. unfold yields.
      destruct (Z.ltb_spec (en - st) 0), (Z.ltb_spec en st); try lia; [reflexivity|].
      destruct (Z.eqb_spec (en - st) 0), (Z.eqb_spec en st); try lia; [reflexivity|].
      exists all. split; [reflexivity|]. split; [exact P1|]. split; [exact P2|]. intros k Hk. apply F; intros ->; apply Hk; [now left|right; now left].
    - intro N. destruct (dfind all (s "start")) as [[v| | | | | |]|] eqn:A1; cbn [andb]; try reflexivity;
        destruct (dfind all (s "end")) as [[w| | | | | |]|] eqn:B1; try reflexivity; rewrite ?A1, ?B1; try reflexivity.
      destruct (as_int v) as [st|] eqn:A2; [|reflexivity]. destruct (as_int w) as [en|] eqn:B2; [|reflexivity].
      exfalso. apply N. exists st, en. apply AC. split; [exists v|exists w]; auto.
  Qed.
End Make.

(** ** C148: one result *)
Lemma reads_item x args opts : reads x args opts -> forall kw me input, item_matches kw me input x = make me input args (opts ++ kw).
Proof.
  intros R kw me input. destruct R as [d|x args d S|x args last S N].
  - cbn [item_matches]. fold (popped d). destruct kw; [now rewrite app_nil_r|reflexivity].
  - assert (item_matches kw me input x = match indexed x with Err e => Err e | Ok a => match rev a with [] => Err IndexError | PDict d :: r => make me input (rev r) (update kw d) | _ => make me input a kw end end) as -> by (destruct x; try reflexivity; discriminate S).
    assert (indexed x = Ok (args ++ [PDict d])) as ->. { unfold indexed. rewrite S. destruct x as [[]| | | | | |]; try reflexivity; discriminate S. }
    rewrite rev_app_distr. cbn [rev app]. rewrite rev_involutive. reflexivity.
  - assert (item_matches kw me input x = match indexed x with Err e => Err e | Ok a => match rev a with [] => Err IndexError | PDict d :: r => make me input (rev r) (update kw d) | _ => make me input a kw end end) as -> by (destruct x; try reflexivity; discriminate S).
    assert (indexed x = Ok (args ++ [last])) as ->. { unfold indexed. rewrite S. destruct x as [[]| | | | | |]; try reflexivity; discriminate S. }
    rewrite rev_app_distr. cbn [rev app]. destruct last as [| | |d| | |]; try reflexivity. exfalso. apply N. now exists d.
Qed.
(** A result is used exactly if it says from where to where and nothing is said twice: each argument of the match is then the
    positional one, else the option of the result, else the option of the pattern.  Otherwise TypeError, or ValueError when it
    ends before it starts *)
Theorem C148_one_result : forall x args opts kw me input, reads x args opts ->
  (forall st en, acceptable args opts kw st en -> yields me input args opts kw st en (item_matches kw me input x))
  /\ (~ (exists st en, acceptable args opts kw st en) -> item_matches kw me input x = Err TypeError).
Proof. intros x args opts kw me input R. rewrite (reads_item R). apply make_reads. Qed.
(** A result which is neither a dictionary nor a tuple or a list with an element raises, whatever the pattern *)
Theorem C148_other_results_raise : forall x kw me input, (forall args opts, ~ reads x args opts) ->
  item_matches kw me input x = Err TypeError \/ item_matches kw me input x = Err IndexError.
Proof.
  intros x kw me input N.
  assert (forall d, x <> PDict d) as ND by (intros d ->; exact (N _ _ (reads_dict d))).
  assert (sequence_of x = None \/ sequence_of x = Some []) as S.
  { destruct (sequence_of x) as [l|] eqn:S; [right|left; reflexivity]. destruct (rev l) as [|z r] eqn:R.
    - apply (f_equal (@rev _)) in R. rewrite rev_involutive in R. now subst.
    - exfalso. apply (f_equal (@rev _)) in R. rewrite rev_involutive in R. cbn [rev] in R. subst l.
      assert (is_dict z \/ ~ is_dict z) as [[d ->]|Z] by (destruct z as [| | |d| | |]; [right|right|right|left; now exists d|right|right|right]; intros [? ?]; discriminate).
      + exact (N _ _ (reads_options S)).
      + exact (N _ _ (reads_plain S Z)). }
  assert (item_matches kw me input x = match indexed x with Err e => Err e | Ok a => match rev a with [] => Err IndexError | PDict d :: r => make me input (rev r) (update kw d) | _ => make me input a kw end end) as ->.
  { destruct x as [| | |d| | |]; try reflexivity. exfalso. exact (ND d eq_refl). }
  destruct x as [[| | |t|l|]|l|l|d|l|f|n]; cbn [indexed sequence_of] in *;
    try (left; reflexivity); try (destruct S as [S|S]; try discriminate; injection S as S; try (rewrite S); try subst l; right; reflexivity).
  (* a string: its first character is no position *)
  destruct t as [|c t]; [right; reflexivity|]. left.
  match goal with |- context [map ?f (c :: t)] => set (cs := map f (c :: t)) end.
  assert (match rev cs with [] => Err IndexError | PDict d :: r => make me input (rev r) (update kw d) | _ => make me input cs kw end = make me input cs kw) as ->.
  { assert (forall y, In y (rev cs) -> exists c0, y = PV (VStr [c0])) as Y. { intros y Hy. apply in_rev, in_map_iff in Hy as (c0 & <- & _). now exists c0. }
    destruct (rev cs) as [|y r] eqn:R. { apply (f_equal (@rev _)) in R. rewrite rev_involutive in R. discriminate R. }
    destruct (Y y (or_introl eq_refl)) as (c0 & ->). reflexivity. }
  change kw with ([] ++ kw). apply make_reads. intros (st & en & [_ _ _ (v & A & B) _]). unfold argument in A. cbn [map combine cs app dfind] in A.
  cbn in A. injection A as <-. discriminate B.
Qed.

(** ** C148: the answer *)
(** Nothing: None, False, 0, an empty tuple, list, dictionary or text *)
Theorem C148_no_answer : forall ret kw me input, ptruthy ret = false -> answer_matches kw me input ret = Ok [].
Proof. intros ret kw me input T. unfold answer_matches. now rewrite T. Qed.
(** True and False are numbers *)
Definition a_number (o : pobj) : Prop := (exists n, o = PV (VInt n)) \/ (exists b, o = PV (VBool b)).
Lemma number_int o : a_number o <-> is_int o = true.
Proof.
  split; [intros [[n ->]|[b ->]]; reflexivity|]. destruct o as [[]| | | | | |]; try discriminate; intros _; [right|left]; eexists; reflexivity.
Qed.
(** a dictionary, or a tuple or a list beginning with a number, may be returned alone, in a tuple, in a list, or yielded *)
Definition single (x : pobj) : Prop :=
  (exists d, d <> [] /\ x = PDict d) \/ (exists a l, sequence_of x = Some (a :: l) /\ a_number a).
Lemma single_items x : single x -> ptruthy x = true /\ answer_items x = [x] /\ is_int x = false.
Proof.
  intros [(d & D & ->)|(a & l & S & I)].
  - destruct d; [contradiction|]. repeat split.
  - apply number_int in I. unfold answer_items, iterated. destruct x as [[]|[|? ?]|[|? ?]| | | |]; try discriminate S; cbn [sequence_of] in S |- *.
    + destruct l0 as [|z l0]; [discriminate S|]. cbn [map] in S |- *. injection S as -> _. rewrite I. repeat split.
    + injection S as -> _. rewrite I. repeat split.
    + injection S as -> _. rewrite I. repeat split.
Qed.
Theorem C148_one_alone : forall x kw me input, single x ->
  answer_matches kw me input x = item_matches kw me input x
  /\ answer_matches kw me input (PTuple [x]) = item_matches kw me input x
  /\ answer_matches kw me input (PList [x]) = item_matches kw me input x
  /\ answer_matches kw me input (PIter [x]) = item_matches kw me input x.
Proof.
  intros x kw me input S. destruct (single_items S) as (T & I & N).
  assert (items_matches kw me input [x] = item_matches kw me input x) as E.
  { cbn [items_matches]. destruct (item_matches kw me input x); [now rewrite app_nil_r|reflexivity]. }
  unfold answer_matches. rewrite T, I. cbn [ptruthy answer_items iterated sequence_of]. rewrite N. auto.
Qed.
(** several results are used one after the other, up to the first which raises *)
Lemma items_ok kw me input : forall xs bs, items_matches kw me input xs = Ok bs <->
  exists bss, Forall2 (fun x b => item_matches kw me input x = Ok b) xs bss /\ bs = concat bss.
Proof.
  induction xs as [|x r IH]; intro bs; cbn [items_matches].
  - split; [intros [= <-]; exists []; auto|]. intros (bss & F & ->). inversion F. reflexivity.
  - destruct (item_matches kw me input x) as [l|e] eqn:E.
    + destruct (items_matches kw me input r) as [l'|e'] eqn:E'.
      * split.
        -- intros [= <-]. destruct (proj1 (IH l') eq_refl) as (bss & F & ->). exists (l :: bss). auto.
        -- intros (bss & F & ->). inversion F as [|? b ? bss' F1 F2]; subst. rewrite E in F1. injection F1 as ->.
           assert (Ok l' = Ok (concat bss')) as X by (apply IH; eauto). injection X as ->. reflexivity.
      * split; [discriminate|]. intros (bss & F & ->). inversion F as [|? b ? bss' F1 F2]; subst.
        assert (Err e' = Ok (concat bss')) as X by (apply IH; eauto). discriminate X.
    + split; [discriminate|]. intros (bss & F & ->). inversion F; subst. congruence.
Qed.
Definition listed (ret : pobj) (xs : list pobj) : Prop := ret = PTuple xs \/ ret = PList xs \/ ret = PIter xs.
Theorem C148_several : forall ret xs kw me input bs, listed ret xs -> (forall x r, xs = x :: r -> ~ a_number x) ->
  answer_matches kw me input ret = Ok bs <->
  exists bss, Forall2 (fun x b => answer_matches kw me input (PIter [x]) = Ok b) xs bss /\ bs = concat bss.
Proof.
  intros ret xs kw me input bs L I.
  assert (answer_matches kw me input ret = items_matches kw me input xs) as ->.
  { unfold answer_matches. destruct xs as [|x r]; [destruct L as [->|[->| ->]]; reflexivity|].
    assert (is_int x = false) as I' by (specialize (I x r eq_refl); destruct (is_int x) eqn:E; [now apply number_int in E|reflexivity]). clear I. rename I' into I.
    destruct L as [->|[->| ->]]; cbn [ptruthy answer_items iterated sequence_of]; rewrite ?I; reflexivity. }
  rewrite items_ok. assert (forall x, answer_matches kw me input (PIter [x]) = item_matches kw me input x) as X.
  { intro x. unfold answer_matches. cbn [ptruthy answer_items iterated sequence_of items_matches]. destruct (item_matches kw me input x); [now rewrite app_nil_r|reflexivity]. }
  split; intros (bss & F & ->); exists bss; (split; [|reflexivity]); clear - F X; (induction F; constructor; [|assumption]); [now rewrite X|now rewrite <- X].
Qed.
(** anything else raises: a number, True, a text, an object *)
Theorem C148_no_such_answer : forall ret kw me input, ptruthy ret = true -> iterated ret = None -> ~ is_dict ret ->
  answer_matches kw me input ret = Err TypeError \/ answer_matches kw me input ret = Err IndexError.
Proof.
  intros ret kw me input T I D. unfold answer_matches. rewrite T.
  assert (answer_items ret = [ret]) as ->. { unfold answer_items. rewrite I. destruct ret; reflexivity. }
  cbn [items_matches]. destruct (@C148_other_results_raise ret kw me input) as [->| ->]; [|now left|now right].
  intros args opts R. assert (sequence_of ret = None) as S. { unfold iterated in I. destruct ret; try exact I; try discriminate. }
  destruct R; [apply D; eexists; reflexivity|congruence|congruence].
Qed.
(** An answer may be used again: the dictionaries returned lose their entries input_string and pattern, which are not read *)
Theorem C148_used_again : forall x kw me input, item_matches kw me input (item_left x) = item_matches kw me input x.
Proof.
  intros x kw me input. destruct x as [| | |d| | |]; try reflexivity. cbn [item_left item_matches].
  assert (popped (popped d) = popped d) as ->; [|reflexivity]. unfold popped. induction d as [|e d IH]; [reflexivity|]. cbn [filter].
  destruct (negb _) eqn:E; [|exact IH]. cbn [filter]. rewrite E. now rewrite IH.
Qed.

(** ** C148: the documented forms
    A result of the shape Pattern.v starts from, as the Python object the function returns, and the match made of the arguments *)
Definition entry {A} (k : String.string) (f : A -> pobj) (o : option A) : kwargs := match o with Some a => [(s k, f a)] | None => [] end.
Definition as_dict (o : mopts) : kwargs :=
  entry "value" PV (mo_value o)
  ++ entry "name" (fun n => PV (match n with Some n => VStr n | None => VNone end)) (mo_name o)
  ++ entry "tags" (fun l => PV (VList (map VStr l))) (mo_tags o)
  ++ entry "marker" (fun b => PV (VBool b)) (mo_marker o)
  ++ entry "private" (fun b => PV (VBool b)) (mo_private o)
  ++ entry "formatter" (fun f => match f with Some f => PFun f | None => PV VNone end) (mo_fmt o)
  ++ entry "conflict_solver" (fun c => match c with Some n => PSolve n | None => PV VNone end) (mo_solver o).
Definition as_result (x : fitem) : pobj :=
  match x with
  | FTuple st en v o => PTuple (PV (VInt st) :: PV (VInt en) :: match v with Some v => [PV v] | None => [] end ++ match o with Some o => [PDict (as_dict o)] | None => [] end)
  | FDict st en o => PDict ((s "start", PV (VInt st)) :: (s "end", PV (VInt en)) :: as_dict o)
  end.
Inductive answers_with : pobj -> fresult -> Prop :=
| with_nothing ret : ptruthy ret = false -> answers_with ret FFalsy
| with_one x : answers_with (as_result x) (FOne x)
| with_many ret l : listed ret (map as_result l) -> answers_with ret (FMany l).
(** the attributes the match gets from its arguments (match.py:1032-1049), for arguments of the documented types *)
Definition texts (o : option pobj) : option (list pstr) :=
  match o with
  | None | Some (PV VNone) => Some []
  | Some (PV (VList l)) => fold_right (fun v r => match v, r with VStr t, Some r => Some (t :: r) | _, _ => None end) (Some []) l
  | _ => None
  end.
Definition flag (o : option pobj) : option bool := match o with None | Some (PV VNone) => Some false | Some (PV (VBool b)) => Some b | _ => None end.
Record is_match_of (b : kwargs) (id : nat) (input : pstr) (m : mtch) : Prop := {
  im_start : dfind b (s "start") = Some (PV (VInt (m_start m)));
  im_end : dfind b (s "end") = Some (PV (VInt (m_end m)));
  im_value : match dfind b (s "value") with None => m_lit m = VNone | Some v => v = PV (m_lit m) end;
  im_name : match dfind b (s "name") with None | Some (PV VNone) => m_name m = None | Some v => exists n, v = PV (VStr n) /\ m_name m = Some n end;
  im_tags : texts (dfind b (s "tags")) = Some (m_tags m);
  im_marker : flag (dfind b (s "marker")) = Some (m_marker m);
  im_private : flag (dfind b (s "private")) = Some (m_private m);
  im_formatter : match dfind b (s "formatter") with None | Some (PV VNone) => m_fmt m = None | Some v => exists f, v = PFun f /\ m_fmt m = Some f end;
  im_solver : match dfind b (s "conflict_solver") with None | Some (PV VNone) => m_solver m = None | Some v => exists n, v = PSolve n /\ m_solver m = Some n end;
  im_parent : dfind b (s "parent") = None /\ m_parent m = None;
  im_rest : m_id m = 0%nat /\ m_input m = Some input /\ m_rawstart m = None /\ m_rawend m = None /\ m_index m = 0%nat /\ m_pattern m = Some id /\ m_children m = []
}.

Lemma find_entry {A} k (f : A -> pobj) o k' : dfind (entry k f o) k' = match o with Some a => if eqb k' (s k) then Some (f a) else None | None => None end.
Proof. destruct o; reflexivity. Qed.
Definition tried {A} (f : A -> pobj) (o : option A) : option pobj := match o with Some a => Some (f a) | None => None end.
Ltac look := match goal with o : mopts |- _ => destruct o as [[] [] [] [] [] [] []]; reflexivity end.
Lemma dict_value o : dfind (as_dict o) (s "value") = tried PV (mo_value o). Proof. look. Qed.
Lemma dict_name o : dfind (as_dict o) (s "name") = tried (fun n => PV (match n with Some n => VStr n | None => VNone end)) (mo_name o). Proof. look. Qed.
Lemma dict_tags o : dfind (as_dict o) (s "tags") = tried (fun l => PV (VList (map VStr l))) (mo_tags o). Proof. look. Qed.
Lemma dict_marker o : dfind (as_dict o) (s "marker") = tried (fun b => PV (VBool b)) (mo_marker o). Proof. look. Qed.
Lemma dict_private o : dfind (as_dict o) (s "private") = tried (fun b => PV (VBool b)) (mo_private o). Proof. look. Qed.
Lemma dict_formatter o : dfind (as_dict o) (s "formatter") = tried (fun f : fmtr => match f with Some f => PFun f | None => PV VNone end) (mo_fmt o). Proof. look. Qed.
Lemma dict_solver o : dfind (as_dict o) (s "conflict_solver") = tried (fun c => match c with Some n => PSolve n | None => PV VNone end) (mo_solver o). Proof. look. Qed.
Lemma dict_other o k : In k (map s ["start"; "end"; "parent"; "pattern"; "input_string"; "self"]) -> dfind (as_dict o) k = None.
Proof. intros [<-|[<-|[<-|[<-|[<-|[<-|[]]]]]]]; look. Qed.
Lemma texts_back l : texts (Some (PV (VList (map VStr l)))) = Some l.
Proof. cbn [texts]. induction l as [|t l IH]; [reflexivity|]. cbn [map fold_right]. rewrite IH. reflexivity. Qed.
Definition seven : list pstr := map s ["value"; "name"; "tags"; "marker"; "private"; "formatter"; "conflict_solver"].
Lemma match_of_dict b st en o id input : dfind b (s "start") = Some (PV (VInt st)) -> dfind b (s "end") = Some (PV (VInt en)) -> dfind b (s "parent") = None ->
  (forall k, In k seven -> dfind b k = dfind (as_dict o) k) -> is_match_of b id input (new_match 0 st en o id input).
Proof.
  intros S E P H. unfold seven in H. cbn [map In] in H.
  constructor; unfold new_match; cbn [m_start m_end m_lit m_name m_tags m_marker m_private m_fmt m_solver m_parent m_id m_input m_rawstart m_rawend m_index m_pattern m_children]; auto.
  - rewrite H by auto 10. rewrite dict_value. destruct (mo_value o); reflexivity.
  - rewrite H by auto 10. rewrite dict_name. destruct (mo_name o) as [[n|]|]; cbn [tried given]; [exists n; auto|reflexivity|reflexivity].
  - rewrite H by auto 10. rewrite dict_tags. destruct (mo_tags o) as [l|]; cbn [tried given]; [apply texts_back|reflexivity].
  - rewrite H by auto 10. rewrite dict_marker. destruct (mo_marker o); reflexivity.
  - rewrite H by auto 10. rewrite dict_private. destruct (mo_private o); reflexivity.
  - rewrite H by auto 10. rewrite dict_formatter. destruct (mo_fmt o) as [[f|]|]; cbn [tried given]; [exists f; auto|reflexivity|reflexivity].
  - rewrite H by auto 10. rewrite dict_solver. destruct (mo_solver o) as [[n|]|]; cbn [tried given]; [exists n; auto|reflexivity|reflexivity].
  - split; [reflexivity|]. split; [reflexivity|]. split; [reflexivity|]. split; [reflexivity|]. split; [reflexivity|]. split; reflexivity.
Qed.
Lemma dict_update o k key : In key seven -> dfind (as_dict o ++ as_dict k) key = dfind (as_dict (mo_update k o)) key.
Proof.
  unfold seven. cbn [map In]. rewrite find_app.
  intros [<-|[<-|[<-|[<-|[<-|[<-|[<-|[]]]]]]]]; [rewrite !dict_value|rewrite !dict_name|rewrite !dict_tags|rewrite !dict_marker|rewrite !dict_private|rewrite !dict_formatter|rewrite !dict_solver];
    cbn [mo_update mo_value mo_name mo_tags mo_marker mo_private mo_fmt mo_solver];
    [destruct (mo_value o)|destruct (mo_name o)|destruct (mo_tags o)|destruct (mo_marker o)|destruct (mo_private o)|destruct (mo_fmt o)|destruct (mo_solver o)]; reflexivity.
Qed.
Lemma find_popped (d : kwargs) k : k <> s "pattern" -> k <> s "input_string" -> dfind (filter (fun e => negb (pstr_eqb (fst e) (s "input_string") || pstr_eqb (fst e) (s "pattern"))) d) k = dfind d k.
Proof.
  intros A B. induction d as [|[k' v] d IH]; [reflexivity|]. cbn [filter fst dfind]. destruct (eqb k k') eqn:E.
  - apply eqb_eq in E. subst k'. destruct (pstr_eqb k (s "input_string")) eqn:E1; [apply pstr_eqb_eq in E1; contradiction|].
    destruct (pstr_eqb k (s "pattern")) eqn:E2; [apply pstr_eqb_eq in E2; contradiction|]. cbn [orb negb dfind].
    assert (eqb k k = true) as -> by (now apply eqb_eq). reflexivity.
  - destruct (negb _); [cbn [dfind]; rewrite E|]; exact IH.
Qed.
Lemma find_popped_none (d : kwargs) k : k = s "pattern" \/ k = s "input_string" -> dfind (filter (fun e => negb (pstr_eqb (fst e) (s "input_string") || pstr_eqb (fst e) (s "pattern"))) d) k = None.
Proof.
  intro K. induction d as [|[k' v] d IH]; [reflexivity|]. cbn [filter fst]. destruct (negb _) eqn:E; [|exact IH]. cbn [dfind]. destruct (eqb k k') eqn:Ek; [|exact IH].
  apply eqb_eq in Ek. subst k'. destruct K as [->| ->]; discriminate E.
Qed.
(** the match Pattern.v makes of a result is the one the arguments of the call give *)
Definition same_result (p : popts) (input : pstr) (x : fitem) (r : res (list kwargs)) : Prop :=
  match functional_one p input x with
  | Err e => r = Err TypeError
  | Ok m => if m_end m <? m_start m then r = Err ValueError else if m_end m =? m_start m then r = Ok []
            else exists b, r = Ok [b] /\ is_match_of b (po_id p) input m
  end.
Lemma one_typed p me input x : same_result p input x (item_matches (as_dict (filter_match_kwargs (po_kw p) false)) me input (as_result x)).
Proof.
  unfold same_result. set (kw := filter_match_kwargs (po_kw p) false).
  assert (mo_value kw = None) as KV by reflexivity. destruct x as [st en v o|st en o].
  - (* a tuple *)
    set (o' := given o no_opts). set (args := PV (VInt st) :: PV (VInt en) :: match v with Some v => [PV v] | None => [] end).
    assert (reads (as_result (FTuple st en v o)) args (as_dict o')) as R.
    { unfold as_result, args, o'. destruct o as [o|]; cbn [given].
      - apply reads_options. cbn [sequence_of]. now rewrite app_comm_cons, app_comm_cons.
      - change (as_dict no_opts) with (@nil (pstr * pobj)). rewrite app_nil_r. destruct v as [v|].
        + apply (@reads_plain _ [PV (VInt st); PV (VInt en)] (PV v)); [reflexivity|]. intros [d X]; discriminate X.
        + apply (@reads_plain _ [PV (VInt st)] (PV (VInt en))); [reflexivity|]. intros [d X]; discriminate X. }
    destruct (C148_one_result (as_dict kw) me input R) as [Y N].
    assert (functional_one p input (FTuple st en v o) = match v, mo_value (mo_update kw o') with
      | Some _, Some _ => Err TypeError
      | Some v, None => Ok (new_match 0 st en (mo_update (mo_update kw o') (MOpts (Some v) None None None None None None)) (po_id p) input)
      | None, _ => Ok (new_match 0 st en (mo_update kw o') (po_id p) input) end) as ->.
    { unfold functional_one. fold kw. unfold o'. destruct o as [o|]; [reflexivity|]. cbn [given]. assert (mo_update kw no_opts = kw) as -> by (unfold kw, mo_update, filter_match_kwargs; reflexivity). reflexivity. }
    assert (mo_value (mo_update kw o') = mo_value o') as -> by (cbn [mo_update mo_value]; rewrite KV; destruct (mo_value o'); reflexivity).
    assert (forall k, In k (map s ["self"; "pattern"; "input_string"]) -> dfind (as_dict o') k = None /\ dfind (as_dict kw) k = None) as RES.
    { intros k Hk. split; apply dict_other; destruct Hk as [<-|[<-|[<-|[]]]]; unfold map; cbn [In]; auto 10. }
    assert ((v = None \/ mo_value o' = None) -> acceptable args (as_dict o') (as_dict kw) st en) as AC.
    { intro V. constructor.
      - unfold args. destruct v; cbn; lia.
      - intros k Hk. assert (k = s "start" \/ k = s "end" \/ (k = s "value" /\ v <> None)) as K.
        { unfold args in Hk. destruct v; cbn [length firstn map In] in Hk; intuition (auto; right; right; split; auto; discriminate). }
        destruct K as [->|[->|[-> K]]].
        + split; apply dict_other; now left.
        + split; apply dict_other; right; now left.
        + destruct V as [V|V]; [contradiction|]. rewrite !dict_value, V, KV. split; reflexivity.
      - exact RES.
      - exists (VInt st). split; reflexivity.
      - exists (VInt en). split; reflexivity. }
    assert (forall K, (forall k, In k seven -> argument args (as_dict o') (as_dict kw) k = dfind (as_dict K) k) -> (v = None \/ mo_value o' = None) ->
      if en <? st then item_matches (as_dict kw) me input (as_result (FTuple st en v o)) = Err ValueError
      else if en =? st then item_matches (as_dict kw) me input (as_result (FTuple st en v o)) = Ok []
      else exists b, item_matches (as_dict kw) me input (as_result (FTuple st en v o)) = Ok [b] /\ is_match_of b (po_id p) input (new_match 0 st en K (po_id p) input)) as F.
    { intros K HK V. specialize (Y st en (AC V)). unfold yields in Y. destruct (en <? st); [exact Y|]. destruct (en =? st); [exact Y|].
      destruct Y as (b & Y1 & _ & _ & Y2). exists b. split; [exact Y1|]. apply match_of_dict.
      - rewrite Y2; [reflexivity|]. intros [X|[X|[]]]; discriminate X.
      - rewrite Y2; [reflexivity|]. intros [X|[X|[]]]; discriminate X.
      - rewrite Y2 by (intros [X|[X|[]]]; discriminate X). unfold argument. rewrite find_app.
        assert (dfind (combine (map s ["start"; "end"; "value"; "name"; "tags"; "marker"; "parent"; "private"]) args) (s "parent") = None) as -> by (unfold args; destruct v; reflexivity).
        rewrite find_app, !dict_other; [reflexivity|right; right; now left|right; right; now left].
      - intros k Hk. rewrite Y2; [now apply HK|]. unfold seven in Hk. cbn [map In] in Hk. intros [<-|[<-|[]]]; intuition discriminate. }
    destruct v as [v|].
    + destruct (mo_value o') as [w|] eqn:W.
      * apply N. intros (st' & en' & [_ O _ _ _]). destruct (O (s "value")) as [O1 _]; [right; right; now left|]. rewrite dict_value, W in O1. discriminate O1.
      * unfold new_match at 1 2 3 4. cbn [m_start m_end]. apply F; [|now right]. intros k Hk. rewrite <- dict_update by exact Hk.
        unfold argument. rewrite !find_app. unfold seven in Hk. cbn [map In] in Hk. 
        destruct Hk as [<-|[<-|[<-|[<-|[<-|[<-|[<-|[]]]]]]]]; [reflexivity| | | | | |];
          match goal with |- context [dfind (as_dict (mo_update kw o')) ?k] => rewrite <- (@dict_update o' kw k) by (unfold seven; cbn [map In]; auto 10) end; rewrite find_app; reflexivity.
    + assert (forall r, (match mo_value o' with Some _ | None => r end) = r :> Prop) as E by (intro; destruct (mo_value o'); reflexivity).
      unfold new_match at 1 2 3 4. cbn [m_start m_end]. apply F; [|now left]. intros k Hk. rewrite <- dict_update by exact Hk. unfold argument. rewrite !find_app. unfold seven in Hk. cbn [map In] in Hk. 
      destruct Hk as [<-|[<-|[<-|[<-|[<-|[<-|[<-|[]]]]]]]]; reflexivity.
  - (* a dictionary *)
    set (d := (s "start", PV (VInt st)) :: (s "end", PV (VInt en)) :: as_dict o).
    pose proof (reads_dict d) as R. set (opts := filter _ d) in R. destruct (C148_one_result (as_dict kw) me input R) as [Y _].
    assert (forall k, k <> s "pattern" -> k <> s "input_string" -> dfind opts k = dfind d k) as FO by (intros; now apply find_popped).
    assert (forall k, In k (map s ["self"; "pattern"; "input_string"]) -> dfind opts k = None /\ dfind (as_dict kw) k = None) as RES.
    { intros k Hk. split; [|apply dict_other; destruct Hk as [<-|[<-|[<-|[]]]]; unfold map; cbn [In]; auto 10].
      destruct Hk as [<-|[<-|[<-|[]]]].
      - rewrite FO by discriminate. unfold d. cbn [dfind]. change (eqb (s "self") (s "start")) with false. change (eqb (s "self") (s "end")) with false. cbv iota. apply dict_other. unfold map. cbn [In]. auto 10.
      - apply find_popped_none. now left.
      - apply find_popped_none. now right. }
    assert (acceptable [] opts (as_dict kw) st en) as AC.
    { constructor; [cbn; lia|intros k []|exact RES|exists (VInt st)|exists (VInt en)]; (split; [|reflexivity]);
        unfold argument; cbn [map combine app]; rewrite find_app, FO by discriminate; reflexivity. }
    unfold functional_one. fold kw. unfold new_match at 1 2 3 4. cbn [m_start m_end]. specialize (Y st en AC). unfold yields in Y. cbn [as_result]. fold d.
    destruct (en <? st); [exact Y|]. destruct (en =? st); [exact Y|]. destruct Y as (b & Y1 & _ & _ & Y2). exists b. split; [exact Y1|].
    assert (forall k, k <> s "pattern" -> k <> s "input_string" -> dfind b k = match dfind d k with Some x => Some x | None => dfind (as_dict kw) k end) as Y3.
    { intros k A B. rewrite Y2 by (intros [X|[X|[]]]; congruence). unfold argument. cbn [map combine app]. rewrite find_app, FO by assumption. reflexivity. }
    apply match_of_dict.
    + rewrite Y3 by discriminate. reflexivity.
    + rewrite Y3 by discriminate. reflexivity.
    + rewrite Y3 by discriminate. unfold d. cbn [dfind]. change (eqb (s "parent") (s "start")) with false. change (eqb (s "parent") (s "end")) with false. cbv iota.
      rewrite !dict_other; [reflexivity|right; right; now left|right; right; now left].
    + intros k Hk. rewrite <- dict_update by exact Hk. unfold seven in Hk. cbn [map In] in Hk.
      assert (k <> s "pattern" /\ k <> s "input_string" /\ eqb k (s "start") = false /\ eqb k (s "end") = false) as (A & B & C & D) by (intuition (subst; discriminate || reflexivity)).
      rewrite Y3 by assumption. unfold d. cbn [dfind]. rewrite C, D, find_app. reflexivity.
Qed.
Lemma mbool_span m : mbool m = if m_end m <? m_start m then Err ValueError else Ok (negb (m_end m =? m_start m)).
Proof. unfold mbool, mlen. destruct (Z.ltb_spec (m_end m - m_start m) 0), (Z.ltb_spec (m_end m) (m_start m)); try lia; [reflexivity|]. f_equal. f_equal. lia. Qed.
Lemma typed_items p me input : forall xs,
  match match sequence (functional_one p input) xs with Err e => Err e | Ok ms => keep_truthy ms end with
  | Err _ => exists e, items_matches (as_dict (filter_match_kwargs (po_kw p) false)) me input (map as_result xs) = Err e
  | Ok ms => exists bs, items_matches (as_dict (filter_match_kwargs (po_kw p) false)) me input (map as_result xs) = Ok bs /\ Forall2 (fun b m => is_match_of b (po_id p) input m) bs ms
  end.
Proof.
  set (kw := as_dict _). induction xs as [|x xs IH]; [exists []; split; [reflexivity|constructor]|].
  cbn [sequence map items_matches]. pose proof (one_typed p me input x) as S. fold kw in S. unfold same_result in S.
  destruct (functional_one p input x) as [m|e]; [|rewrite S; eauto].
  destruct (sequence (functional_one p input) xs) as [ms|e].
  - cbn [keep_truthy]. rewrite mbool_span. destruct (m_end m <? m_start m); [rewrite S; eauto|].
    destruct (keep_truthy ms) as [r|e].
    + destruct IH as (bs & -> & F). destruct (m_end m =? m_start m); cbn [negb].
      * rewrite S. exists bs. split; [reflexivity|exact F].
      * destruct S as (b & -> & B). exists (b :: bs). split; [reflexivity|]. constructor; assumption.
    + destruct IH as (e' & ->). destruct (m_end m =? m_start m); [rewrite S; eauto|]. destruct S as (b & -> & B). eauto.
  - destruct IH as (e' & ->). destruct (m_end m <? m_start m); [rewrite S; eauto|]. destruct (m_end m =? m_start m); [rewrite S; eauto|]. destruct S as (b & -> & B). eauto.
Qed.
Lemma as_result_single x : single (as_result x).
Proof.
  destruct x as [st en v o|st en o]; cbn [as_result].
  - right. eexists _, _. split; [reflexivity|]. left. eexists. reflexivity.
  - left. eexists. split; [|reflexivity]. discriminate.
Qed.
(** For the documented answers the search of Pattern.v is the one described here, on the objects the function returns *)
Theorem C148_documented_answers : forall p f input ret me, answers_with ret (f input) ->
  match functional_match p f input with
  | Ok ms => exists bs, answer_matches (as_dict (filter_match_kwargs (po_kw p) false)) me input ret = Ok bs
               /\ Forall2 (fun b m => is_match_of b (po_id p) input m) bs ms
  | Err _ => exists e, answer_matches (as_dict (filter_match_kwargs (po_kw p) false)) me input ret = Err e
  end.
Proof.
  intros p f input ret me A. unfold functional_match.
  set (xs := match f input with FFalsy => [] | FOne x => [x] | FMany l => l end).
  assert (answer_matches (as_dict (filter_match_kwargs (po_kw p) false)) me input ret = items_matches (as_dict (filter_match_kwargs (po_kw p) false)) me input (map as_result xs)) as ->.
  { unfold xs. destruct A as [ret T|x|ret l L].
    - now rewrite C148_no_answer.
    - destruct (single_items (as_result_single x)) as (T & I & _). unfold answer_matches. now rewrite T, I.
    - unfold answer_matches. destruct l as [|x l]; [destruct L as [->|[->| ->]]; reflexivity|]. cbn [map] in L |- *.
      destruct (single_items (as_result_single x)) as (_ & _ & N). destruct L as [->|[->| ->]]; cbn [ptruthy answer_items iterated sequence_of]; rewrite ?N; reflexivity. }
  exact (typed_items p me input xs).
Qed.

(** The documented forms suffice: whatever the function returns, what is found (when the arguments have the documented types) is what
    a function returning documented results finds, so that what is proved of functional patterns holds for all functions *)
Lemma make_kept me input args kw bs : make me input args kw = Ok bs ->
  Forall (fun b => exists st en, integer (dfind b (s "start")) st /\ integer (dfind b (s "end")) en /\ st < en) bs.
Proof.
  unfold make. destruct (_ || _)%bool; [discriminate|]. destruct (bind _ _) as [b|]; [|discriminate].
  destruct (dfind b (s "start")) as [[x| | | | | |]|] eqn:A; try discriminate. destruct (dfind b (s "end")) as [[y| | | | | |]|] eqn:B; try discriminate.
  destruct (as_int x) as [st|] eqn:C; [|discriminate]. destruct (as_int y) as [en|] eqn:D; [|discriminate].
  destruct (Z.ltb_spec (en - st) 0); [discriminate|]. destruct (Z.eqb_spec (en - st) 0); intros [= <-]; [constructor|]. constructor; [|constructor].
  exists st, en. split; [exists x; auto|]. split; [exists y; auto|lia].
Qed.
Lemma answer_kept kw me input ret bs : answer_matches kw me input ret = Ok bs ->
  Forall (fun b => exists st en, integer (dfind b (s "start")) st /\ integer (dfind b (s "end")) en /\ st < en) bs.
Proof.
  unfold answer_matches. destruct (ptruthy ret); [|intros [= <-]; constructor]. generalize (answer_items ret). intro xs. revert bs.
  induction xs as [|x xs IH]; intros bs H; cbn [items_matches] in H; [injection H as <-; constructor|].
  destruct (item_matches kw me input x) as [l|] eqn:E; [|discriminate]. destruct (items_matches kw me input xs) as [l'|]; [|discriminate]. injection H as <-.
  apply Forall_app. split; [|now apply IH].
  assert (forall args kw', make me input args kw' = Ok l -> Forall (fun b => exists st en, integer (dfind b (s "start")) st /\ integer (dfind b (s "end")) en /\ st < en) l) as K by (intros; eapply make_kept; eassumption).
  assert (match x with PDict _ => False | _ => True end -> item_matches kw me input x = match indexed x with Err e => Err e | Ok a => match rev a with [] => Err IndexError | PDict d :: r => make me input (rev r) (update kw d) | _ => make me input a kw end end) as U by (destruct x; try reflexivity; contradiction).
  destruct x as [v|a|a|d|a|g|n]; [| | |exact (K _ _ E)| | |]; rewrite U in E by exact I; clear U;
    (destruct (indexed _) as [args|]; [|discriminate E]); (destruct (rev args) as [|[] r]; [discriminate E|..]); exact (K _ _ E).
Qed.
Definition in_full (m : mtch) : mopts :=
  MOpts (Some (m_lit m)) (Some (m_name m)) (Some (m_tags m)) (Some (m_marker m)) (Some (m_private m)) (Some (m_fmt m)) (Some (m_solver m)).
Theorem C148_documented_forms_suffice : forall p kw me input ret bs ms, answer_matches kw me input ret = Ok bs ->
  Forall2 (fun b m => is_match_of b (po_id p) input m) bs ms ->
  functional_match p (fun _ => FMany (map (fun m => FDict (m_start m) (m_end m) (in_full m)) ms)) input = Ok ms.
Proof.
  intros p kw me input ret bs ms A F. apply answer_kept in A. unfold functional_match. induction F as [|b m bs ms B F IH]; [reflexivity|].
  inversion A as [|? ? (st & en & (x & X1 & X2) & (y & Y1 & Y2) & L) A2]; subst. specialize (IH A2). cbn [map sequence].
  assert (functional_one p input (FDict (m_start m) (m_end m) (in_full m)) = Ok m) as ->.
  { unfold functional_one, mo_update, in_full, new_match. cbn [mo_value mo_name mo_tags mo_marker mo_private mo_fmt mo_solver or_else given]. f_equal.
    destruct B as [_ _ _ _ _ _ _ _ _ [_ P] (R1 & R2 & R3 & R4 & R5 & R6 & R7)]. destruct m; cbn in *. subst. reflexivity. }
  destruct (sequence _ _) as [l|]; [|discriminate IH]. cbn [keep_truthy]. rewrite mbool_span.
  destruct B as [S E _ _ _ _ _ _ _ _ _]. rewrite S in X1. injection X1 as <-. injection X2 as <-. rewrite E in Y1. injection Y1 as <-. injection Y2 as <-.
  destruct (Z.ltb_spec (m_end m) (m_start m)); [lia|]. destruct (Z.eqb_spec (m_end m) (m_start m)); [lia|]. cbn [negb]. rewrite IH. reflexivity.
Qed.

(** ** Cases *)
(** a position, a value, a name by position; options at the end of a list; a dictionary: with a pattern which gives tags *)
Definition kw_case : kwargs := [(s "tags", PV (VList [VStr (s "t")])); (s "validate", PV (VBool true))].
Definition ret_case : pobj := PIter [PTuple [PV (VInt 0); PV (VInt 2); PV (VStr (s "v")); PV (VStr (s "n"))];
  PList [PV (VInt 3); PV (VInt 5); PDict [(s "tags", PV (VList []))]]; PDict [(s "end", PV (VInt 9)); (s "start", PV (VInt 7)); (s "pattern", PV VNone)]; PTuple [PV (VInt 4); PV (VInt 4)]].
Example C148_case : exists b1 b2 b3, answer_matches kw_case (PV (VObj 1)) (s "abcdefghi") ret_case = Ok [b1; b2; b3]
  /\ map (fun b => (dfind b (s "start"), dfind b (s "end"), dfind b (s "value"), dfind b (s "name"), dfind b (s "tags"))) [b1; b2; b3]
     = [(Some (PV (VInt 0)), Some (PV (VInt 2)), Some (PV (VStr (s "v"))), Some (PV (VStr (s "n"))), Some (PV (VList [VStr (s "t")])));
        (Some (PV (VInt 3)), Some (PV (VInt 5)), None, None, Some (PV (VList [])));
        (Some (PV (VInt 7)), Some (PV (VInt 9)), None, None, Some (PV (VList [VStr (s "t")])))]
  /\ acceptable [PV (VInt 3); PV (VInt 5)] [(s "tags", PV (VList []))] kw_case 3 5.
Proof.
  eexists _, _, _. split; [vm_compute; reflexivity|]. split; [vm_compute; reflexivity|]. constructor.
  - cbn; lia.
  - intros k [<-|[<-|[]]]; split; reflexivity.
  - intros k [<-|[<-|[<-|[]]]]; split; reflexivity.
  - exists (VInt 3). split; reflexivity.
  - exists (VInt 5). split; reflexivity.
Qed.
(** saying something twice: a name by position when the pattern has a name; an entry pattern, which a dictionary may have, among the
    options of a tuple; a number, a text *)
Example C148_case_raises :
  answer_matches [(s "name", PV (VStr (s "x")))] (PV (VObj 1)) (s "abc") (PTuple [PV (VInt 0); PV (VInt 2); PV (VStr (s "v")); PV (VStr (s "n"))]) = Err TypeError
  /\ answer_matches [] (PV (VObj 1)) (s "abc") (PTuple [PV (VInt 0); PV (VInt 2); PDict [(s "pattern", PV VNone)]]) = Err TypeError
  /\ answer_matches [] (PV (VObj 1)) (s "abc") (PV (VInt 3)) = Err TypeError
  /\ answer_matches [] (PV (VObj 1)) (s "abc") (PV (VStr (s "abc"))) = Err TypeError
  /\ answer_matches [] (PV (VObj 1)) (s "abc") (PTuple [PV (VInt 2); PV (VInt 0)]) = Err ValueError
  /\ answer_matches [] (PV (VObj 1)) (s "abc") (PTuple [PV (VStr (s "a")); PV (VInt 0)]) = Err TypeError.
Proof. vm_compute. split; [reflexivity|]. split; [reflexivity|]. split; [reflexivity|]. split; [reflexivity|]. split; reflexivity. Qed.
Example C148_case_documented : answers_with (PList [as_result (FTuple 0 2 None None); as_result (FDict 3 5 no_opts)]) (FMany [FTuple 0 2 None None; FDict 3 5 no_opts])
  /\ single (as_result (FTuple 0 2 None None)).
Proof. split; [apply with_many; right; now left|apply as_result_single]. Qed.
Definition found_case (st en : Z) (v : pyval) (n : option pstr) (tags : list pstr) : mtch :=
  Mtch 0 st en v n tags false false None None (Some (s "abcdefghi")) None None 0 (Some 7%nat) None [].
Example C148_case_matches : exists bs, answer_matches kw_case (PV (VObj 1)) (s "abcdefghi") ret_case = Ok bs
  /\ Forall2 (fun b m => is_match_of b 7 (s "abcdefghi") m) bs [found_case 0 2 (VStr (s "v")) (Some (s "n")) [s "t"]; found_case 3 5 VNone None []; found_case 7 9 VNone None [s "t"]].
Proof.
  eexists. split; [vm_compute; reflexivity|].
  constructor; [|constructor; [|constructor; [|constructor]]];
    (constructor; [reflexivity|reflexivity|reflexivity| |reflexivity|reflexivity|reflexivity|reflexivity|reflexivity|split; reflexivity|]);
    try (vm_compute; reflexivity); try (eexists; split; vm_compute; reflexivity);
    (split; [reflexivity|split; [reflexivity|split; [reflexivity|split; [reflexivity|split; [reflexivity|split; reflexivity]]]]]).
Qed.
Print Assumptions C148_one_result.
Print Assumptions C148_other_results_raise.
Print Assumptions C148_several.
Print Assumptions C148_no_such_answer.
Print Assumptions C148_documented_answers.
Print Assumptions C148_documented_forms_suffice.
