(** * Theorems about to_dict, typed access and the declared-type check: C19, C54, C55 *)
From Verif Require Import Base BaseFacts Match Spec MatchFacts Coll CollFacts CollQuery SpecColl CollHist CollUniv CollOrder SpecFiled PropsColl PropsFiled Typed.
From Coq Require String.
Export Coq.Strings.String.StringSyntax.
Set Implicit Arguments.
Unset Strict Implicit.
Open Scope Z_scope.

(** ** Specification *)
(** [r] lists each element of [l] once up to [eq]: the first of its kind, in the order of [l] *)
Fixpoint firsts {A} (eq : A -> A -> bool) (seen l : list A) : list A :=
  match l with
  | [] => []
  | x :: t => if existsb (eq x) seen then firsts eq seen t else x :: firsts eq (seen ++ [x]) t
  end.
(** the members in the order of their spans, members with one span in their order *)
Definition in_span_order (l r : list mtch) : Prop :=
  Permutation l r /\ StronglySorted (fun a b => mle a b = true) r
  /\ forall st en, filter (fun m => (m_start m =? st) && (m_end m =? en)) r = filter (fun m => (m_start m =? st) && (m_end m =? en)) l.
Definition has_name (n : option pstr) (m : mtch) : bool := option_eqb pstr_eqb n (m_name m).

(** what a name maps to, given its values in span order *)
Definition dict_entry {V} (vs : values V) (first_value enforce_list : bool) (l : list V) : option V :=
  match firsts (v_eq vs) [] l with
  | [] => None
  | v :: r =>
      Some (if enforce_list then v_mk vs (if first_value then [v] else v :: r)
            else if first_value then v
            else match r with [] => v | _ => v_mk vs (v :: r) end)
  end.

Lemma in_span_order_sort l : in_span_order l (sort_by mlt l).
Proof.
  assert (forall x y z : mtch, mlt y x = false -> mlt z y = false -> mlt z x = false) as T by (intros; eapply mlt_le_trans; eauto).
  split; [symmetry; apply sort_by_perm|]. split.
  - pose proof (@sort_by_sorted mtch mlt T mlt_asym l) as H. induction H as [|x r H IH F]; constructor; auto.
    eapply Forall_impl; [|exact F]. intros y Hy. rewrite mle_negb. unfold le in Hy. now rewrite Hy.
  - intros st en. apply sort_by_stable; [exact T|exact mlt_asym|]. intros x y Hx Hy. apply mlt_false. lia.
Qed.

Lemma firsts_snoc {A} (eq : A -> A -> bool) x : forall l seen,
  firsts eq seen (l ++ [x]) = firsts eq seen l ++ (if existsb (eq x) (seen ++ firsts eq seen l) then [] else [x]).
Proof.
  induction l as [|y l IH]; intro seen; simpl.
  - rewrite app_nil_r. destruct (existsb (eq x) seen); reflexivity.
  - destruct (existsb (eq y) seen); [apply IH|]. rewrite IH. simpl. now rewrite <- app_assoc.
Qed.
Lemma firsts_nil_iff {A} (eq : A -> A -> bool) l : firsts eq [] l = [] -> l = [].
Proof. destruct l; simpl; [auto|discriminate]. Qed.
(** [firsts] does what it is said to do *)
Lemma firsts_spec {A} (eq : A -> A -> bool) l : (forall x y, eq x y = eq y x) ->
  ForallOrdPairs (fun a b => eq a b = false) (firsts eq [] l)
  /\ (forall x, In x (firsts eq [] l) -> In x l)
  /\ (forall x, In x l -> (exists y, In y (firsts eq [] l) /\ eq x y = true) \/ In x (firsts eq [] l)).
Proof.
  intro S. induction l as [|x l (I1 & I2 & I3)] using rev_ind; [simpl; repeat split; auto; try contradiction; constructor|].
  rewrite firsts_snoc. simpl. destruct (existsb (eq x) (firsts eq [] l)) eqn:E.
  - rewrite app_nil_r. split; [exact I1|]. split; [intros y Hy; apply in_app_iff; auto|]. intros y Hy. apply in_app_iff in Hy as [Hy|[<-|[]]]; auto.
    left. apply existsb_exists in E as (z & Hz & E). eauto.
  - split; [|split].
    + pose proof (proj1 (existsb_false_iff _ _) E) as E2. clear E I2 I3. rename E2 into E. induction I1 as [|a r F I1 IH]; simpl; [repeat constructor|]. constructor.
      * apply Forall_app. split; [exact F|]. constructor; [rewrite S; apply E; now left|constructor].
      * apply IH. intros y Hy. apply E. now right.
    + intros y Hy. apply in_app_iff in Hy as [Hy|Hy]; apply in_app_iff; auto.
    + intros y Hy. apply in_app_iff in Hy as [Hy|[<-|[]]]; [|right; apply in_app_iff; right; now left].
      destruct (I3 y Hy) as [(z & Hz & E')|Hz]; [left; exists z; split; auto; apply in_app_iff; auto|right; apply in_app_iff; auto].
Qed.

Lemma filter_snoc {A} (p : A -> bool) l x : filter p (l ++ [x]) = filter p l ++ (if p x then [x] else []).
Proof. rewrite filter_app. simpl. destruct (p x); reflexivity. Qed.
Lemma has_name_eqb n m : has_name n m = eqb n (m_name m).
Proof. reflexivity. Qed.
Lemma existsb_eqb_In (n : option pstr) l : existsb (option_eqb pstr_eqb n) l = true <-> In n l.
Proof.
  rewrite existsb_exists. split; [intros (x & H & E)|intro H; exists n; split; auto].
  - apply opt_pstr_eqb_eq in E. now subst.
  - now apply opt_pstr_eqb_eq.
Qed.
Lemma filter_none_name n l : ~ In n (map m_name l) -> filter (has_name n) l = [].
Proof.
  intro H. apply filter_nil_iff. intros m Hm. destruct (has_name n m) eqn:E; [|reflexivity]. exfalso. apply H. apply in_map_iff.
  exists m. split; auto. symmetry. now apply opt_pstr_eqb_eq.
Qed.
Lemma firsts_names_In n (l : list (option pstr)) : In n (firsts (option_eqb pstr_eqb) [] l) <-> In n l.
Proof.
  destruct (@firsts_spec _ (option_eqb pstr_eqb) l) as (_ & A & B).
  { intros x y. destruct (option_eqb pstr_eqb x y) eqn:E; symmetry; [apply opt_pstr_eqb_eq in E; subst; now apply opt_pstr_eqb_eq|].
    destruct (option_eqb pstr_eqb y x) eqn:E'; auto. apply opt_pstr_eqb_eq in E'. subst. assert (option_eqb pstr_eqb x x = true) by now apply opt_pstr_eqb_eq. congruence. }
  split; [apply A|]. intro H. destruct (B n H) as [(y & Hy & E)|Hy]; auto. apply opt_pstr_eqb_eq in E. now subst.
Qed.

Section Dict.
  Context {V : Type} (vs : values V) (fv el : bool).
  Hypothesis sym : forall x y, v_eq vs x y = v_eq vs y x.
  Hypothesis mk : forall l, v_list vs (v_mk vs l) = Some l.
  Notation vals n l := (map (v_of vs) (filter (has_name n) l)).

  Lemma to_dict_inv l : (forall m, In m l -> v_list vs (v_of vs m) = None) ->
    let r := fold_left (to_dict_step vs fv el) l (MatchesDict [] [] []) in
    let ns := firsts (option_eqb pstr_eqb) [] (map m_name l) in
    dkeys (md_items r) = ns /\ (forall n, dfind (md_items r) n = dict_entry vs fv el (vals n l))
    /\ dkeys (md_matches r) = ns /\ (forall n, dget (md_matches r) n = filter (has_name n) l)
    /\ (el = false -> dkeys (md_values r) = ns /\ forall n, dget (md_values r) n = firsts (v_eq vs) [] (vals n l))
    /\ (el = true -> md_values r = []).
  Proof.
    induction l as [|m l IH] using rev_ind; intros S; [simpl; repeat split; auto|].
    destruct IH as (I1 & I2 & I3 & I4 & I5 & I6); [intros x Hx; apply S, in_app_iff; auto|].
    rewrite fold_left_app. simpl. set (r := fold_left (to_dict_step vs fv el) l (MatchesDict [] [] [])) in *.
    rewrite map_app. simpl. rewrite firsts_snoc. simpl app.
    set (ns := firsts (option_eqb pstr_eqb) [] (map m_name l)) in *.
    assert (forall V' (d : dict (option pstr) V') v, dkeys d = ns ->
      dkeys (dset d (m_name m) v) = ns ++ (if existsb (option_eqb pstr_eqb (m_name m)) ns then [] else [m_name m])) as DK.
    { intros V' d v E. rewrite dkeys_dset. destruct (dmem d (m_name m)) eqn:D.
      - apply dmem_In in D. rewrite E in *. apply existsb_eqb_In in D. now rewrite D, app_nil_r.
      - assert (existsb (option_eqb pstr_eqb (m_name m)) ns = false) as ->; [|now rewrite E].
        destruct (existsb (option_eqb pstr_eqb (m_name m)) ns) eqn:X; auto. apply existsb_eqb_In in X. rewrite <- E in X. apply dmem_In in X. congruence. }
    assert (forall V' (d : dict (option pstr) V') v, dkeys d = ns -> dfind d (m_name m) = Some v ->
      dkeys d = ns ++ (if existsb (option_eqb pstr_eqb (m_name m)) ns then [] else [m_name m])) as DF.
    { intros V' d v E F. assert (In (m_name m) ns) as H by (rewrite <- E; apply dmem_In; unfold dmem; now rewrite F).
      apply existsb_eqb_In in H. now rewrite H, app_nil_r. }
    assert (v_list vs (v_of vs m) = None) as Sm by (apply S, in_app_iff; right; now left).
    assert (forall n, vals n (l ++ [m]) = vals n l ++ (if has_name n m then [v_of vs m] else [])) as VS.
    { intro n. rewrite filter_snoc. destruct (has_name n m); rewrite ?map_app, ?app_nil_r; reflexivity. }
    (* the items *)
    assert (let it := md_items (to_dict_step vs fv el r m) in
            dkeys it = ns ++ (if existsb (option_eqb pstr_eqb (m_name m)) ns then [] else [m_name m])
            /\ forall n, dfind it n = dict_entry vs fv el (vals n (l ++ [m]))) as [J1 J2].
    { assert (forall n, eqb n (m_name m) = true -> n = m_name m) as EQ by (intros n; apply eqb_eq).
      assert (forall it, (forall n, n <> m_name m -> dfind it n = dfind (md_items r) n) -> dfind it (m_name m) = dict_entry vs fv el (vals (m_name m) (l ++ [m])) ->
              forall n, dfind it n = dict_entry vs fv el (vals n (l ++ [m]))) as ST.
      { intros it A B n. destruct (eqb n (m_name m)) eqn:E; [apply EQ in E; subst; exact B|].
        rewrite A by (intros ->; rewrite (proj2 (eqb_eq _ _) eq_refl) in E; discriminate). rewrite I2, VS, has_name_eqb, E, app_nil_r. reflexivity. }
      assert (forall v n, n <> m_name m -> dfind (dset (md_items r) (m_name m) v) n = dfind (md_items r) n) as SE.
      { intros v n N. rewrite dfind_dset. destruct (eqb n (m_name m)) eqn:E; auto. apply EQ in E. contradiction. }
      assert (forall v, dfind (dset (md_items r) (m_name m) v) (m_name m) = Some v) as SS.
      { intro v. rewrite dfind_dset, (proj2 (eqb_eq _ _) eq_refl). reflexivity. }
      assert (has_name (m_name m) m = true) as HN by (apply opt_pstr_eqb_eq; reflexivity).
      assert (vals (m_name m) (l ++ [m]) = vals (m_name m) l ++ [v_of vs m]) as VM by (rewrite VS, HN; reflexivity).
      assert (forall x, In x (vals (m_name m) l) -> v_list vs x = None) as SC.
      { intros x Hx. apply in_map_iff in Hx as (y & <- & Hy). apply filter_In in Hy as [Hy _]. apply S, in_app_iff. auto. }
      destruct (@firsts_spec _ (v_eq vs) (vals (m_name m) l) sym) as (_ & FI & _).
      pose proof (I2 (m_name m)) as OLD. unfold dict_entry in OLD.
      cbn [to_dict_step md_items]. destruct (dfind (md_items r) (m_name m)) as [old|] eqn:EO.
      - destruct (firsts (v_eq vs) [] (vals (m_name m) l)) as [|v rr] eqn:FE; [discriminate|]. injection OLD as OLD.
        assert (v_list vs v = None) as SV by (apply SC, FI; now left).
        assert (dict_entry vs fv el (vals (m_name m) (l ++ [m])) =
                Some (if el then v_mk vs (if fv then [v] else v :: rr ++ (if v_in vs (v_of vs m) (v :: rr) then [] else [v_of vs m]))
                      else if fv then v
                      else match rr ++ (if v_in vs (v_of vs m) (v :: rr) then [] else [v_of vs m]) with
                           | [] => v | _ => v_mk vs (v :: rr ++ (if v_in vs (v_of vs m) (v :: rr) then [] else [v_of vs m])) end)) as NEW.
        { rewrite VM. unfold dict_entry. rewrite firsts_snoc, FE. reflexivity. }
        destruct fv.
        + split; [eapply DF; eauto|]. apply ST; [auto|]. rewrite EO, NEW, OLD. destruct el; reflexivity.
        + destruct el.
          * rewrite OLD, mk. destruct (v_in vs (v_of vs m) (v :: rr)) eqn:VI.
            -- split; [eapply DF; eauto|]. apply ST; [auto|]. rewrite EO, NEW, OLD, app_nil_r. reflexivity.
            -- split; [apply DK; exact I1|]. apply ST; [apply SE|]. rewrite SS, NEW. reflexivity.
          * destruct rr as [|w rr].
            -- subst old. rewrite SV. simpl v_in in NEW. rewrite orb_false_r, sym in NEW. destruct (v_eq vs v (v_of vs m)) eqn:VI.
               ++ split; [eapply DF; eauto|]. apply ST; [auto|]. rewrite EO, NEW. reflexivity.
               ++ split; [apply DK; exact I1|]. apply ST; [apply SE|]. rewrite SS, NEW. reflexivity.
            -- rewrite OLD, mk. destruct (v_in vs (v_of vs m) (v :: w :: rr)) eqn:VI.
               ++ split; [eapply DF; eauto|]. apply ST; [auto|]. rewrite EO, NEW, OLD, app_nil_r. reflexivity.
               ++ split; [apply DK; exact I1|]. apply ST; [apply SE|]. rewrite SS, NEW. reflexivity.
      - destruct (firsts (v_eq vs) [] (vals (m_name m) l)) as [|v rr] eqn:FE; [|discriminate].
        split; [apply DK; exact I1|]. apply ST; [apply SE|]. rewrite SS, VM. unfold dict_entry. rewrite firsts_snoc, FE. simpl.
        rewrite Sm, andb_true_r. destruct el, fv; reflexivity. }
    split; [exact J1|]. split; [exact J2|]. split; [|split; [|split]].
    - cbn [to_dict_step md_matches]. unfold dpush. apply DK. exact I3.
    - intro n. cbn [to_dict_step md_matches]. rewrite dget_dpush, I4, filter_snoc, has_name_eqb. reflexivity.
    - intro El. destruct (I5 El) as [K1 K2]. cbn [to_dict_step md_values]. rewrite El.
      assert (dkeys (dtouch (md_values r) (m_name m)) = ns ++ (if existsb (option_eqb pstr_eqb (m_name m)) ns then [] else [m_name m])) as KT.
      { unfold dtouch. destruct (dfind (md_values r) (m_name m)) eqn:F; [eapply DF; eauto|apply DK; exact K1]. }
      assert (forall n, firsts (v_eq vs) [] (vals n (l ++ [m])) = firsts (v_eq vs) [] (vals n l)
                ++ (if eqb n (m_name m) then if v_in vs (v_of vs m) (firsts (v_eq vs) [] (vals n l)) then [] else [v_of vs m] else [])) as FS.
      { intro n. rewrite VS, has_name_eqb. destruct (eqb n (m_name m)); [rewrite firsts_snoc; reflexivity|now rewrite !app_nil_r]. }
      rewrite dget_dtouch, K2. destruct (v_in vs (v_of vs m) _) eqn:VI.
      + split; [exact KT|]. intro n. rewrite dget_dtouch, K2, FS. destruct (eqb n (m_name m)) eqn:E; [|now rewrite app_nil_r].
        apply eqb_eq in E. subst n. now rewrite VI, app_nil_r.
      + split.
        * unfold dpush. rewrite dkeys_dset. assert (dmem (dtouch (md_values r) (m_name m)) (m_name m) = true) as ->; [|exact KT].
          apply dmem_In, dkeys_dtouch_In. now left.
        * intro n. rewrite dget_dpush, dget_dtouch, K2, FS. destruct (eqb n (m_name m)) eqn:E; [|reflexivity].
          apply eqb_eq in E. subst n. now rewrite VI.
    - intro El. cbn [to_dict_step md_values]. rewrite El. apply I6, El.
  Qed.
End Dict.

(** ** C19 *)
(** [r] is the dictionary of the members listed in [l] (in span order) *)
Record groups {V} (vs : values V) (first_value enforce_list : bool) (l : list mtch) (r : mdict_result V) : Prop := {
  gr_keys : dkeys (md_items r) = firsts (option_eqb pstr_eqb) [] (map m_name l);
  gr_items : forall n, dfind (md_items r) n = dict_entry vs first_value enforce_list (map (v_of vs) (filter (has_name n) l));
  gr_matches : dkeys (md_matches r) = dkeys (md_items r) /\ forall n, dget (md_matches r) n = filter (has_name n) l;
  gr_values : enforce_list = false -> forall n, dget (md_values r) n = firsts (v_eq vs) [] (map (v_of vs) (filter (has_name n) l))
}.
Definition is_list_value (v : pyval) : Prop := exists l, v = VList l.

Theorem C19_to_dict_partial : forall c first_value enforce_list, (forall m, In m (c_del c) -> ~ is_list_value (m_value m)) ->
  exists l, in_span_order (c_del c) l /\ groups plain_values first_value enforce_list l (to_dict plain_values first_value enforce_list c).
Proof.
  intros c fv el H. exists (sort_by mlt (c_del c)). split; [apply in_span_order_sort|]. unfold to_dict.
  destruct (@to_dict_inv _ plain_values fv el py_eqb_sym (fun _ => eq_refl) (sort_by mlt (c_del c))) as (A & B & C & D & E & F).
  - intros m Hm. apply sort_by_in in Hm. simpl. destruct (m_value m) eqn:X; auto. exfalso. apply (H m Hm). exists l. exact X.
  - constructor; auto; [split; [congruence|exact D]|]. intro El. apply (E El).
Qed.
Theorem C19_details : forall c first_value enforce_list,
  exists l, in_span_order (c_del c) l /\ groups detail_values first_value enforce_list l (to_dict detail_values first_value enforce_list c).
Proof.
  intros c fv el. exists (sort_by mlt (c_del c)). split; [apply in_span_order_sort|]. unfold to_dict.
  assert (forall x y, entry_eq x y = entry_eq y x) as S by (intros [x|x] [y|y]; simpl; auto; apply meq_sym).
  destruct (@to_dict_inv _ detail_values fv el S (fun _ => eq_refl) (sort_by mlt (c_del c))) as (A & B & C & D & E & F).
  - reflexivity.
  - constructor; auto; [split; [congruence|exact D]|]. intro El. apply (E El).
Qed.
(** List values: two distinct values [1,2] and [3] of one name are not listed, the second one is
    added to the first; and a list value is not wrapped by enforce_list *)
Definition t_val (id : nat) (st : Z) (name : pstr) (v : pyval) : mtch := set_lit (set_name (mk_match id st (st + 1)) (Some name)) v.
Theorem C19_list_values_refuted :
  let c := run (empty_coll KMatches None) [OExtend [t_val 1 0 (s "n") (VList [VInt 1; VInt 2]); t_val 2 4 (s "n") (VList [VInt 3])]] in
  let c1 := run (empty_coll KMatches None) [OAppend (t_val 1 0 (s "n") (VList [VInt 1; VInt 2]))] in
  dfind (md_items (to_dict plain_values false false c)) (Some (s "n")) = Some (VList [VInt 1; VInt 2; VList [VInt 3]])
  /\ dict_entry plain_values false false [VList [VInt 1; VInt 2]; VList [VInt 3]] = Some (VList [VList [VInt 1; VInt 2]; VList [VInt 3]])
  /\ dfind (md_items (to_dict plain_values false true c1)) (Some (s "n")) = Some (VList [VInt 1; VInt 2])
  /\ dict_entry plain_values false true [VList [VInt 1; VInt 2]] = Some (VList [VList [VInt 1; VInt 2]]).
Proof. split; [vm_compute; reflexivity|]. split; [vm_compute; reflexivity|]. split; vm_compute; reflexivity. Qed.
Example C19_example :
  let c := run (empty_coll KMatches None)
    [OExtend [t_val 1 7 (s "b") (VInt 2); t_val 2 4 (s "a") (VInt 1); t_val 3 0 (s "b") (VInt 5); t_val 4 5 (s "a") (VBool true); t_val 5 9 (s "b") (VInt 5)]] in
  md_items (to_dict plain_values false false c) = [(Some (s "b"), VList [VInt 5; VInt 2]); (Some (s "a"), VInt 1)]
  /\ md_items (to_dict plain_values true false c) = [(Some (s "b"), VInt 5); (Some (s "a"), VInt 1)]
  /\ md_items (to_dict plain_values false true c) = [(Some (s "b"), VList [VInt 5; VInt 2]); (Some (s "a"), VList [VInt 1])]
  /\ map m_id (dget (md_matches (to_dict plain_values true false c)) (Some (s "b"))) = [3; 1; 5]%nat
  /\ Forall (fun m => ~ is_list_value (m_value m)) (c_del c).
Proof.
  intro c. split; [vm_compute; reflexivity|]. split; [vm_compute; reflexivity|]. split; [vm_compute; reflexivity|]. split; [vm_compute; reflexivity|].
  assert (c_del c = [t_val 1 7 (s "b") (VInt 2); t_val 2 4 (s "a") (VInt 1); t_val 3 0 (s "b") (VInt 5); t_val 4 5 (s "a") (VBool true); t_val 5 9 (s "b") (VInt 5)]) as -> by reflexivity.
  repeat (apply Forall_cons; [intros (l & E); discriminate E|]). constructor.
Qed.

(** ** C54 *)
(** the type an annotation is about, when there is exactly one *)
Inductive carries (none_type : nat) (container : nat -> bool) : hint -> nat -> Prop :=
| carries_class c : container c = false -> carries none_type container (HType c) c
| carries_list h t : carries none_type container h t -> carries none_type container (HList (Some h)) t
| carries_optional before h after t :                           (* X | None, None | X, X *)
    Forall (fun a => a = HType none_type) (before ++ after) -> h <> HType none_type ->
    carries none_type container h t -> carries none_type container (HUnion (before ++ h :: after)) t.

Section HintInd.
  Variable P : hint -> Prop.
  Hypothesis Hany : P HAny.
  Hypothesis Hlist0 : P (HList None).
  Hypothesis Hlist : forall h, P h -> P (HList (Some h)).
  Hypothesis Hunion : forall l, Forall P l -> P (HUnion l).
  Hypothesis Htype : forall c, P (HType c).
  Hypothesis Hother : P HOther.
  Fixpoint hint_rect' (h : hint) : P h :=
    match h with
    | HAny => Hany
    | HList None => Hlist0
    | HList (Some h) => Hlist (hint_rect' h)
    | HUnion l => Hunion ((fix go l := match l return Forall P l with [] => Forall_nil P | x :: r => Forall_cons x (hint_rect' x) (go r) end) l)
    | HType c => Htype c
    | HOther => Hother
    end.
End HintInd.

Lemma is_none_spec n h : is_none_hint n h = true <-> h = HType n.
Proof. destruct h; simpl; try (split; discriminate). rewrite Nat.eqb_eq. split; [now intros ->|congruence]. Qed.
Lemma filter_one {A} (p : A -> bool) x : forall l, filter p l = [x] ->
  exists b a, l = b ++ x :: a /\ Forall (fun y => p y = false) (b ++ a) /\ p x = true.
Proof.
  induction l as [|y l IH]; simpl; [discriminate|]. destruct (p y) eqn:E; intro H.
  - injection H as <- H. exists [], l. split; auto. split; auto. simpl. apply Forall_forall. exact (proj1 (filter_nil_iff _ _) H).
  - destruct (IH H) as (b & a & -> & F & X). exists (y :: b), a. split; auto. split; auto. simpl. constructor; auto.
Qed.
Theorem C89_element_type : forall none_type container h t, element_type none_type container h = Some t <-> carries none_type container h t.
Proof.
  intros nt co h. pattern h. apply hint_rect'; clear h.
  - intro t. split; [discriminate|inversion 1].
  - intro t. split; [discriminate|inversion 1].
  - intros h IH t. simpl. rewrite IH. split; [now constructor|inversion 1; auto].
  - intros l IH t. simpl. split.
    + intro H. set (F := map (fun a => (element_type nt co a, negb (is_none_hint nt a))) l) in H.
      destruct (filter snd F) as [|[e b] [|? ?]] eqn:E; try discriminate. subst e.
      assert (filter (fun a => negb (is_none_hint nt a)) l <> [] /\ map (fun a => (element_type nt co a, negb (is_none_hint nt a))) (filter (fun a => negb (is_none_hint nt a)) l) = [(Some t, b)]) as [N M].
      { assert (map (fun a => (element_type nt co a, negb (is_none_hint nt a))) (filter (fun a => negb (is_none_hint nt a)) l) = filter snd F) as X.
        { unfold F. clear. induction l as [|x l IH]; simpl; auto. destruct (negb (is_none_hint nt x)) eqn:E; simpl; rewrite ?E, IH; reflexivity. }
        rewrite X, E. split; auto. intro Y. rewrite Y in X. simpl in X. rewrite E in X. discriminate. }
      destruct (filter (fun a => negb (is_none_hint nt a)) l) as [|x [|? ?]] eqn:Fl; try discriminate.
      simpl in M. injection M as M _. apply filter_one in Fl as (bf & af & -> & FF & X). constructor.
      * eapply Forall_impl; [|exact FF]. intros a Ha. apply negb_false_iff in Ha. now apply is_none_spec.
      * intro Y. apply is_none_spec in Y. rewrite Y in X. discriminate.
      * rewrite Forall_forall in IH. apply IH; [apply in_app_iff; right; now left|exact M].
    + intro H. inversion H as [| |bf h af t' FF N C]; subst. rewrite map_app, filter_app. simpl.
      assert (is_none_hint nt h = false) as Nh by (destruct (is_none_hint nt h) eqn:E; auto; apply is_none_spec in E; contradiction).
      rewrite Nh. simpl.
      assert (forall r, Forall (fun a => a = HType nt) r -> filter snd (map (fun a => (element_type nt co a, negb (is_none_hint nt a))) r) = []) as Z.
      { intros r Fr. induction Fr as [|x r Hx Fr IHr]; simpl; auto. subst x. simpl. rewrite Nat.eqb_refl. exact IHr. }
      apply Forall_app in FF as [F1 F2]. rewrite !Z by assumption. simpl.
      rewrite Forall_forall in IH. apply IH; [apply in_app_iff; right; now left|exact C].
  - intros c t. simpl. destruct (co c) eqn:E; split; try discriminate; try (inversion 1; congruence). intro H. injection H as <-. now constructor.
  - intro t. split; [discriminate|inversion 1].
Qed.

Definition named_members (c : coll) (n : pstr) : list mtch := dget (named_dict c) n.
Lemma key_all_eq c k : obs c (fst (key_all c k)) /\ snd (key_all c k) = map m_value (named_members c (k_name k)).
Proof. unfold key_all. destruct (q_named1_spec c (k_name k)) as [A B]. destruct (q_named1 c (k_name k)). simpl in *. now subst. Qed.
Lemma key_item_eq c k : obs c (fst (key_item c k)) /\ snd (key_item c k) = match named_members c (k_name k) with m :: _ => m_value m | [] => VNone end.
Proof. unfold key_item. destruct (q_named1_spec c (k_name k)) as [A B]. destruct (q_named1 c (k_name k)). simpl in *. now subst. Qed.

(** the fields given, [named n] being the members of name [n] *)
Definition given_field (named : pstr -> list mtch) (f : field) : option pyval :=
  match f_hint f with
  | HList _ => Some (VList (map m_value (named (f_name f))))
  | _ => match named (f_name f) with m :: _ => Some (m_value m) | [] => None end
  end.
Definition contradictory (none_type : nat) (issub : nat -> nat -> bool) (container : nat -> bool) (keys : dict pstr key) (f : field) : Prop :=
  exists k t, dfind keys (f_name f) = Some k /\ carries none_type container (f_hint f) t
              /\ issub t (k_type k) = false /\ issub (k_type k) t = false.

Lemma contradicts_spec nt isb co h d : contradicts nt isb co h d = true <-> exists t, carries nt co h t /\ isb t d = false /\ isb d t = false.
Proof.
  unfold contradicts. destruct (element_type nt co h) as [e|] eqn:E.
  - rewrite negb_true_iff, orb_false_iff. split; [intros [A B]; exists e; split; [now apply C89_element_type|auto]|].
    intros (t & C & A & B). apply C89_element_type in C. rewrite E in C. injection C as ->. auto.
  - split; [discriminate|]. intros (t & C & _). apply C89_element_type in C. congruence.
Qed.

Lemma fill_spec nt isb co keys : forall fs c0 c kw, obs c0 c -> NoDup (map f_name fs) -> (forall f, In f fs -> dfind kw (f_name f) = None) ->
  let '(c', r) := fill nt isb co keys fs c kw in
  obs c0 c' /\
  ((Exists (contradictory nt isb co keys) fs /\ r = Err TypeError)
   \/ (~ Exists (contradictory nt isb co keys) fs /\ exists kw', r = Ok kw'
       /\ (forall f, In f fs -> dfind kw' (f_name f) = given_field (named_members c0) f)
       /\ (forall n, ~ In n (map f_name fs) -> dfind kw' n = dfind kw n))).
Proof.
  induction fs as [|f fs IH]; intros c0 c kw O N K.
  - simpl. split; [exact O|]. right. split; [intro H; inversion H|]. exists kw. split; auto. split; [contradiction|auto].
  - cbn [fill]. set (X := match dfind keys (f_name f) with Some k => _ | None => false end).
    assert (X = true <-> contradictory nt isb co keys f) as HX.
    { unfold X, contradictory. destruct (dfind keys (f_name f)) as [k|].
      - rewrite contradicts_spec. split; [intros (t & A & B & C); exists k, t; auto|]. intros (k' & t & E & A & B & C). injection E as <-. exists t. auto.
      - split; [discriminate|]. intros (k & t & E & _). discriminate. }
    destruct X; [split; [exact O|]; left; split; [left; now apply HX|reflexivity]|].
    destruct (q_named1_rel (f_name f) O) as [O1 E1]. destruct (q_named1 c (f_name f)) as [c1 l]. simpl in O1, E1. fold (named_members c0 (f_name f)) in E1.
    inversion N as [|? ? N1 N2]; subst. set (l := named_members c0 (f_name f)).
    set (kw1 := if is_list_hint (f_hint f) then _ else _).
    assert (forall n, n <> f_name f -> dfind kw1 n = dfind kw n) as K1.
    { intros n Hn. assert (forall v, dfind (dset kw (f_name f) v) n = dfind kw n) as D.
      { intro v. rewrite dfind_dset. destruct (eqb n (f_name f)) eqn:E; auto. apply eqb_eq in E. contradiction. }
      unfold kw1. destruct (is_list_hint (f_hint f)); [apply D|]. destruct (map m_value l); [reflexivity|apply D]. }
    assert (dfind kw1 (f_name f) = given_field (named_members c0) f) as K2.
    { assert (forall v, dfind (dset kw (f_name f) v) (f_name f) = Some v) as D by (intro v; rewrite dfind_dset, (proj2 (eqb_eq _ _) eq_refl); reflexivity).
      unfold kw1, given_field. fold l. destruct (f_hint f); simpl; try apply D; destruct l as [|m l']; simpl; try apply D; apply K; now left. }
    specialize (IH c0 c1 kw1 O1 N2). destruct (fill nt isb co keys fs c1 kw1) as [c' r].
    destruct IH as [O2 IH].
    { intros g Hg. rewrite K1; [apply K; now right|]. intro E. apply N1. rewrite <- E. now apply in_map. }
    split; [exact O2|]. destruct IH as [[H ->]|[H (kw' & -> & A & B)]]; [left; split; [now right|reflexivity]|]. right. split.
    + intro Y. inversion Y as [? ? Y1|? ? Y1]; subst; [apply HX in Y1; discriminate|contradiction].
    + exists kw'. split; auto. split.
      * intros g [<-|Hg]; [rewrite B by exact N1; exact K2|apply A, Hg].
      * intros n Hn. simpl in Hn. rewrite B by tauto. apply K1. intros ->. tauto.
Qed.

(** Access by key and projection, on a collection whose contents are [l] and of which [named n]
    are the matches of name [n] *)
Definition typed_access none_type issub container (c : coll) (l : list mtch) (named : pstr -> list mtch) : Prop :=
    (* all(key), matches[key] *)
    (forall key, snd (key_all c key) = map m_value (named (k_name key)))
    /\ (forall key, snd (key_item c key) = match named (k_name key) with m :: _ => m_value m | [] => VNone end)
    (* to(list[X]), to(X) *)
    /\ (forall keys, snd (to none_type issub container keys c (MList false)) = Ok (PValues (map m_value l))
                     /\ snd (to none_type issub container keys c (MList true)) = Err TypeError
                     /\ snd (to none_type issub container keys c MOther) = Err TypeError
                     /\ snd (to none_type issub container keys c MType) = match l with m :: _ => Ok (PValue (m_value m)) | [] => Err LookupError end)
    (* to(model) *)
    /\ (forall keys fields, NoDup (map f_name fields) ->
          (snd (to none_type issub container keys c (MFields fields)) = Err TypeError
           /\ (Exists (contradictory none_type issub container keys) fields
               \/ Exists (fun f => f_required f = true /\ given_field named f = None) fields))
          \/ (~ Exists (contradictory none_type issub container keys) fields
              /\ ~ Exists (fun f => f_required f = true /\ given_field named f = None) fields
              /\ exists kw, snd (to none_type issub container keys c (MFields fields)) = Ok (PFields kw)
                 /\ (forall f, In f fields -> dfind kw (f_name f) = given_field named f)
                 /\ (forall n, ~ In n (map f_name fields) -> dfind kw n = None)))
    (* nothing of this changes the contents or what [named] answers later *)
    /\ (forall keys mo, c_del (fst (to none_type issub container keys c mo)) = l
                        /\ forall n, snd (step (fst (to none_type issub container keys c mo)) (ONamed [n])) = RList (named n)).
Lemma step_named c n : snd (step c (ONamed [n])) = RList (named_members c n).
Proof. rewrite lookup_answer by reflexivity. simpl. now rewrite app_nil_r. Qed.
Lemma typed_access_ok nt isb co c : typed_access nt isb co c (c_del c) (named_members c).
Proof.
  split; [|split; [|split; [|split]]].
  - intro key. apply key_all_eq.
  - intro key. apply key_item_eq.
  - intro keys. simpl. repeat split; auto. destruct (c_del c); reflexivity.
  - intros keys fields N. simpl. pose proof (@fill_spec nt isb co keys fields c c [] (obs_refl c) N (fun f _ => eq_refl)) as F.
    destruct (fill nt isb co keys fields c []) as [c' r]. destruct F as [_ [[F ->]|[F (kw & -> & K1 & K2)]]]; [left; simpl; auto|].
    set (W := forallb _ fields).
    assert (W = true <-> ~ Exists (fun f => f_required f = true /\ given_field (named_members c) f = None) fields) as HW.
    { unfold W. rewrite forallb_forall. split.
      - intros G E. apply Exists_exists in E as (f & Hf & R & G'). specialize (G f Hf). rewrite R in G. unfold dmem in G. rewrite (K1 f Hf), G' in G. discriminate.
      - intros G f Hf. destruct (f_required f) eqn:R; auto. simpl. unfold dmem. rewrite (K1 f Hf). destruct (given_field (named_members c) f) eqn:G'; auto.
        exfalso. apply G. apply Exists_exists. exists f. auto. }
    destruct W; simpl.
    + right. split; auto. split; [now apply HW|]. exists kw. auto.
    + left. split; auto. right. destruct (Exists_dec (fun f => f_required f = true /\ given_field (named_members c) f = None) fields) as [E|E]; auto.
      * intro f. destruct (f_required f), (given_field (named_members c) f); auto; right; intros [? ?]; discriminate.
      * apply HW in E. discriminate.
  - intros keys mo. assert (obs c (fst (to nt isb co keys c mo))) as O.
    { destruct mo as [[]|fs| |]; simpl; try apply obs_refl.
      - clear. assert (forall fs c0 c kw, obs c0 c -> obs c0 (fst (fill nt isb co keys fs c kw))) as G.
        { intro fs0. induction fs0 as [|f fs0 IH]; intros c0 c1 kw O; [exact O|]. cbn [fill]. destruct (match dfind keys (f_name f) with Some k => _ | None => false end); [exact O|].
          destruct (q_named1_rel (f_name f) O) as [O1 _]. destruct (q_named1 c1 (f_name f)) as [c2 l]. apply IH, O1. }
        specialize (G fs c c [] (obs_refl c)). destruct (fill nt isb co keys fs c []) as [c' [kw|e]]; [|exact G]. destruct (forallb _ fs); exact G.
      - destruct (c_del c); apply obs_refl. }
    split; [apply O|]. intro n. rewrite step_named. f_equal. apply O.
Qed.
(** Access by key and projection, on any collection reached without assignments: [named n] are
    the members of name [n], in match order when matches were only added at the end and no two
    were [==] (C03) *)
Theorem C54_typed_access_partial : forall none_type issub container k input ops,
  acceptable k false [] ops -> no_assignment ops ->
  let c := run (empty_coll k input) ops in
  let l := list_run [] ops in
  exists named : pstr -> list mtch,
    (forall n, n <> [] -> same_members (named n) (filter (name_is n) l))
    /\ (in_order [] ops -> forall n, n <> [] -> named n = filter (name_is n) l)
    /\ typed_access none_type issub container c l named.
Proof.
  intros nt isb co k input ops H1 H2 c l. exists (named_members c).
  destruct (@C01_lookups_agree k input ops H1 H2) as (A & _). fold c l in A.
  destruct (@reached_ok k input ops H1 H2) as (_ & Hd & _). unfold reached in Hd. fold c l in Hd.
  split; [|split].
  - intros n Hn. destruct (A n Hn) as (r & E & S). rewrite step_named in E. injection E as <-. exact S.
  - intros HO n Hn. destruct (@C03_lookup_order_partial k input ops H1 H2 HO) as (B & _). fold c l in B. specialize (B n Hn). rewrite step_named in B. now injection B.
  - rewrite <- Hd. apply typed_access_ok.
Qed.
(** On any collection reached, assignments included: the matches of name [n] are those of the
    register of names (C80), in its order. *)
Theorem C89_typed_access : forall none_type issub container k input ops,
  acceptable k false [] ops ->
  exists named : pstr -> list mtch,
    (forall n, n <> [] -> named n = filter (name_is n) (told_since_asked ByName ops))
    /\ typed_access none_type issub container (run (empty_coll k input) ops) (list_run [] ops) named.
Proof.
  intros nt isb co k input ops H1. exists (named_members (run (empty_coll k input) ops)).
  destruct (@C80_lookups_told k input ops H1) as (A & _). split.
  - intros n Hn. specialize (A n Hn). rewrite step_named in A. now injection A.
  - destruct (@run_ok (fun _ => True) k ops false (empty_coll k input)) as (_ & _ & Hd & _); auto; try discriminate; [apply Inv_empty|].
    cbn [c_del empty_coll] in Hd. rewrite <- Hd. apply typed_access_ok.
Qed.
(** ... and not always in match order: after a lookup and an insertion at the front *)
Theorem C54_order_refuted :
  let c := run (empty_coll KMatches None) [OAppend (t_val 1 0 (s "n") (VInt 1)); ONamed [s "n"]; OInsert 0 (t_val 2 4 (s "n") (VInt 2))] in
  map m_value (c_del c) = [VInt 2; VInt 1] /\ snd (key_all c (Key (s "n") 0 None)) = [VInt 1; VInt 2].
Proof. split; reflexivity. Qed.
Example C54_example :
  let c := run (empty_coll KMatches None) [OExtend [t_val 1 0 (s "n") (VInt 1); t_val 2 4 (s "m") (VInt 2); t_val 3 8 (s "n") (VInt 3)]] in
  let keys := [(s "n", Key (s "n") 5 None)] in
  let fs h := [Field (s "n") h true; Field (s "m") (HType 7) false; Field (s "z") (HType 7) false] in
  snd (to 0 Nat.eqb (fun _ => false) keys c (MFields (fs (HList (Some (HType 5)))))) = Ok (PFields [(s "n", VList [VInt 1; VInt 3]); (s "m", VInt 2)])
  /\ snd (to 0 Nat.eqb (fun _ => false) keys c (MFields (fs (HUnion [HType 5; HType 0])))) = Ok (PFields [(s "n", VInt 1); (s "m", VInt 2)])
  /\ snd (to 0 Nat.eqb (fun _ => false) keys c (MFields (fs (HUnion [HType 6; HType 0])))) = Err TypeError.
Proof. split; [vm_compute; reflexivity|]. split; vm_compute; reflexivity. Qed.

(** ** C55 *)
Theorem C55_contract_check : forall isinst keys c,
  (check_declared_keys isinst keys c = Err TypeError <->
     exists m n k, In m (c_del c) /\ m_name m = Some n /\ n <> [] /\ dfind keys n = Some k
       /\ m_private m = false /\ truthy (m_lit m) = false /\ m_value m <> VNone /\ isinst (m_value m) (k_type k) = false)
  /\ (check_declared_keys isinst keys c = Err TypeError \/ check_declared_keys isinst keys c = Ok tt).
Proof.
  intros isinst keys c. unfold check_declared_keys.
  assert (forall m, violates isinst keys m = true <-> exists n k, m_name m = Some n /\ n <> [] /\ dfind keys n = Some k
       /\ m_private m = false /\ truthy (m_lit m) = false /\ m_value m <> VNone /\ isinst (m_value m) (k_type k) = false) as V.
  { intro m. unfold violates, has_literal. split.
    - destruct (m_name m) as [[|ch r]|]; try discriminate. destruct (dfind keys (ch :: r)) as [k|] eqn:E; [|discriminate].
      destruct (m_private m), (truthy (m_lit m)); simpl; try discriminate. intro H. exists (ch :: r), k. repeat split; auto; try discriminate;
        destruct (m_value m); try discriminate; now apply negb_true_iff in H.
    - intros (n & k & -> & N & E & -> & -> & V1 & V2). destruct n as [|ch r]; [contradiction|]. rewrite E. simpl.
      destruct (m_value m); try contradiction; rewrite V2; reflexivity. }
  destruct (existsb (violates isinst keys) (c_del c)) eqn:E; (split; [|auto]); split; try discriminate; auto.
  - intros _. apply existsb_exists in E as (m & Hm & E). apply V in E as (n & k & E). exists m, n, k. tauto.
  - intros (m & n & k & Hm & R). exfalso. assert (violates isinst keys m = true) as X by (apply V; exists n, k; tauto).
    assert (existsb (violates isinst keys) (c_del c) = true) by (apply existsb_exists; eauto). congruence.
Qed.
Example C55_example :
  let isinst v t := match v, t with VInt _, 5%nat => true | _, _ => false end in
  let keys := [(s "n", Key (s "n") 5 None)] in
  let text := Some (s "abc") in
  let m f := set_input (set_fmt (set_name (mk_match 1 0 2) (Some (s "n"))) f) text in
  check_declared_keys isinst keys (run (empty_coll KMatches text) [OAppend (m None)]) = Err TypeError
  /\ check_declared_keys isinst keys (run (empty_coll KMatches text) [OAppend (m (Some (fun _ => VInt 4)))]) = Ok tt
  /\ check_declared_keys isinst keys (run (empty_coll KMatches text) [OAppend (set_private (m None) true)]) = Ok tt.
Proof. repeat split. Qed.

Print Assumptions C19_to_dict_partial.
Print Assumptions C19_details.
Print Assumptions C54_typed_access_partial.
Print Assumptions C55_contract_check.
