(** * C104: to_dict with list objects and to_dict with list values *)
From Verif Require Import Base BaseFacts Match Spec MatchFacts Coll CollFacts SpecColl PropsColl PropsLoose Typed PropsTyped ToDict PropsToDict.
From Coq Require Import ZifyBool.
Export Coq.Strings.String.StringSyntax.
Set Implicit Arguments.
Unset Strict Implicit.
Open Scope nat_scope.
Open Scope string_scope.
Open Scope list_scope.

(** the value an object stands for: lists read through, none deeper than [depth] *)
Fixpoint all_some {A} (l : list (option A)) : option (list A) :=
  match l with
  | [] => Some []
  | Some x :: r => match all_some r with Some r' => Some (x :: r') | None => None end
  | None :: _ => None
  end.
Fixpoint deep (depth : nat) (h : lists pyval) (x : hval pyval) : option pyval :=
  match x with
  | HAtom (VList _) => None
  | HAtom v => Some v
  | HList a => match depth with
               | O => None
               | S d => match all_some (map (deep d h) (h a)) with Some l => Some (VList l) | None => None end
               end
  end.
Lemma deep_list d h a : deep (S d) h (HList a) = match all_some (map (deep d h) (h a)) with Some l => Some (VList l) | None => None end.
Proof. reflexivity. Qed.
Lemma deep_atom d h v : deep d h (HAtom v) = deep 0 h (HAtom v).
Proof. destruct d; reflexivity. Qed.
Lemma deep_atom_Some d h v u : deep d h (HAtom v) = Some u -> u = v /\ (forall l, v <> VList l).
Proof. rewrite deep_atom. destruct v; cbn [deep]; intro E; try discriminate E; injection E as <-; (split; [reflexivity | discriminate]). Qed.
Lemma all_some_F2 {A B} (g : A -> option B) l r : all_some (map g l) = Some r <-> Forall2 (fun x y => g x = Some y) l r.
Proof.
  revert r. induction l as [|x l IH]; intro r; cbn [map all_some].
  - split; intro H; [injection H as <-; constructor | inversion H; reflexivity].
  - destruct (g x) as [y|] eqn:E.
    + destruct (all_some (map g l)) as [r'|].
      * split; intro H; [injection H as <-; constructor; [exact E | apply IH; reflexivity]|]. inversion H as [|? ? ? r2 E1 E2]; subst. apply IH in E2. congruence.
      * split; intro H; [discriminate|]. inversion H as [|? ? ? r2 E1 E2]; subst. apply IH in E2. discriminate.
    + split; intro H; [discriminate|]. inversion H; congruence.
Qed.
Lemma deep_more d h : forall x v, deep d h x = Some v -> deep (S d) h x = Some v.
Proof.
  induction d as [|d IH]; intros [u|a] v H; try (rewrite deep_atom in *; exact H); [discriminate|].
  rewrite deep_list in *. destruct (all_some (map (deep d h) (h a))) as [l|] eqn:E; [|discriminate]. injection H as <-.
  apply all_some_F2 in E. assert (Forall2 (fun x y => deep (S d) h x = Some y) (h a) l) as F; [|apply all_some_F2 in F; rewrite F; reflexivity].
  clear -IH E. induction E; constructor; auto.
Qed.
Lemma py_eqb_lists l : forall r, py_eqb (VList l) (VList r) = Nat.eqb (length l) (length r) && forallb (fun p => py_eqb (fst p) (snd p)) (combine l r).
Proof.
  cbn [py_eqb]. induction l as [|x l IH]; intros [|y r]; try reflexivity. rewrite IH. cbn [length Nat.eqb combine forallb fst snd].
  destruct (py_eqb x y), (Nat.eqb (length l) (length r)); reflexivity.
Qed.
(** ** [==] on objects is [==] on what they stand for *)
Theorem C104_equality : forall d h x y u v,
  deep d h x = Some u -> deep d h y = Some v -> list_eqv d h x y = py_eqb u v.
Proof.
  intros d h. induction d as [|d IH]; intros [p|a] [q|b] u v Hx Hy; try discriminate.
  - apply deep_atom_Some in Hx as [-> _], Hy as [-> _]. reflexivity.
  - apply deep_atom_Some in Hx as [-> _], Hy as [-> _]. reflexivity.
  - apply deep_atom_Some in Hx as [-> N]. rewrite deep_list in Hy. destruct (all_some _); [|discriminate]. injection Hy as <-. cbn [list_eqv]. destruct p as [|[]| | | |]; try reflexivity. exfalso. eapply N. reflexivity.
  - apply deep_atom_Some in Hy as [-> N]. rewrite deep_list in Hx. destruct (all_some _); [|discriminate]. injection Hx as <-. cbn [list_eqv]. destruct q as [|[]| | | |]; try reflexivity. exfalso. eapply N. reflexivity.
  - rewrite deep_list in *. destruct (all_some (map (deep d h) (h a))) as [l|] eqn:Ea; [|discriminate]. destruct (all_some (map (deep d h) (h b))) as [r|] eqn:Eb; [|discriminate].
    injection Hx as <-. injection Hy as <-. apply all_some_F2 in Ea, Eb. cbn [list_eqv]. rewrite py_eqb_lists.
    revert Ea Eb. generalize (h a) (h b). intros xs ys Ea. revert ys r. induction Ea as [|x u xs us Ex Ea IHl]; intros ys' r Eb; inversion Eb as [|y v ys vs Ey Eb']; subst; try reflexivity.
    cbn [length Nat.eqb combine forallb fst snd]. specialize (IHl _ _ Eb').
    assert (match x, y with HList c, HList e => Nat.eqb c e || list_eqv d h x y | _, _ => list_eqv d h x y end = py_eqb u v) as ->.
    { destruct x as [p|c], y as [q|e]; try (apply IH; assumption). destruct (Nat.eqb c e) eqn:Q; [|cbn [orb]; apply IH; assumption].
      apply Nat.eqb_eq in Q. subst. assert (u = v) as <- by congruence. rewrite py_eqb_refl. reflexivity. }
    destruct (py_eqb u v); [|rewrite !andb_false_r; reflexivity]. cbn [andb]. exact IHl.
Qed.

(** ** The dictionary of values, one name at a time *)
Definition entry_step {V} (vs : values V) (fv el : bool) (e : option V) (x : V) : option V :=
  match e with
  | Some old =>
      if fv then e
      else match v_list vs old with
           | None => if v_eq vs old x then e else Some (v_mk vs [old; x])
           | Some l => if v_in vs x l then e else Some (v_mk vs (l ++ [x]))
           end
  | None => Some (if el && match v_list vs x with None => true | Some _ => false end then v_mk vs [x] else x)
  end.
Lemma found_same {V} (it : dict (option pstr) V) n e : dfind (dset it n e) n = Some e.
Proof. rewrite dfind_dset, (proj2 (eqb_eq _ _) eq_refl). reflexivity. Qed.
Lemma found_other {V} (it : dict (option pstr) V) n n' e : n' <> n -> dfind (dset it n e) n' = dfind it n'.
Proof. intro H. rewrite dfind_dset. destruct (eqb n' n) eqn:E; [apply eqb_eq in E; contradiction | reflexivity]. Qed.
Lemma pure_items {V} (vs : values V) fv el l n :
  dfind (md_items (fold_left (to_dict_step vs fv el) l (MatchesDict [] [] []))) n
  = fold_left (entry_step vs fv el) (map (v_of vs) (filter (has_name n) l)) None.
Proof.
  induction l as [|m l IH] using rev_ind; [reflexivity|]. rewrite fold_left_app, filter_snoc. cbn [fold_left].
  set (r := fold_left (to_dict_step vs fv el) l (MatchesDict [] [] [])) in *. cbn [to_dict_step md_items].
  destruct (has_name n m) eqn:En.
  - apply opt_pstr_eqb_eq in En. subst n. rewrite map_app, fold_left_app. cbn [map fold_left]. rewrite <- IH. unfold entry_step.
    destruct (dfind (md_items r) (m_name m)) as [e|] eqn:E; [|apply found_same]. destruct fv; [exact E|].
    destruct (v_list vs e).
    + destruct (v_in vs (v_of vs m) l0); [exact E | apply found_same].
    + destruct (v_eq vs e (v_of vs m)); [exact E | apply found_same].
  - rewrite app_nil_r. assert (n <> m_name m) as Hn by (intros ->; rewrite has_own_name in En; discriminate).
    rewrite <- IH. destruct (dfind (md_items r) (m_name m)) as [e|]; [|apply found_other, Hn]. destruct fv; [reflexivity|].
    destruct (v_list vs e).
    + destruct (v_in vs (v_of vs m) l0); [reflexivity | apply found_other, Hn].
    + destruct (v_eq vs e (v_of vs m)); [reflexivity | apply found_other, Hn].
Qed.
Lemma pure_keys {V} (vs : values V) fv el l :
  dkeys (md_items (fold_left (to_dict_step vs fv el) l (MatchesDict [] [] []))) = firsts (option_eqb pstr_eqb) [] (map m_name l).
Proof.
  induction l as [|m l IH] using rev_ind; [reflexivity|]. rewrite fold_left_app, map_app. cbn [fold_left map]. rewrite firsts_snoc. cbn [app].
  set (r := fold_left (to_dict_step vs fv el) l (MatchesDict [] [] [])) in *. cbn [to_dict_step md_items].
  assert (existsb (option_eqb pstr_eqb (m_name m)) (dkeys (md_items r)) = dmem (md_items r) (m_name m)) as K.
  { apply eq_true_iff_eq. rewrite dmem_In. apply existsb_eqb_In. }
  rewrite <- IH, K. unfold dmem. destruct (dfind (md_items r) (m_name m)) as [e|] eqn:E.
  - rewrite app_nil_r. destruct fv; [reflexivity|]. destruct (v_list vs e).
    + destruct (v_in vs (v_of vs m) l0); [reflexivity|]. rewrite dkeys_dset. unfold dmem. rewrite E. reflexivity.
    + destruct (v_eq vs e (v_of vs m)); [reflexivity|]. rewrite dkeys_dset. unfold dmem. rewrite E. reflexivity.
  - rewrite dkeys_dset. unfold dmem. rewrite E. reflexivity.
Qed.
Lemma pure_matches {V} (vs : values V) fv el l n :
  dget (md_matches (fold_left (to_dict_step vs fv el) l (MatchesDict [] [] []))) n = filter (has_name n) l.
Proof.
  induction l as [|m l IH] using rev_ind; [reflexivity|]. rewrite fold_left_app, filter_snoc. cbn [fold_left to_dict_step md_matches].
  rewrite dget_dpush, IH, has_name_eqb. reflexivity.
Qed.
Lemma pure_values {V} (vs : values V) fv l n :
  dget (md_values (fold_left (to_dict_step vs fv false) l (MatchesDict [] [] []))) n = firsts (v_eq vs) [] (map (v_of vs) (filter (has_name n) l)).
Proof.
  induction l as [|m l IH] using rev_ind; [reflexivity|]. rewrite fold_left_app, filter_snoc. cbn [fold_left to_dict_step md_values].
  set (r := fold_left (to_dict_step vs fv false) l (MatchesDict [] [] [])) in *. rewrite dget_dtouch.
  destruct (has_name n m) eqn:En.
  - apply opt_pstr_eqb_eq in En. subst n. rewrite map_app. cbn [map]. rewrite firsts_snoc. cbn [app]. rewrite IH. unfold v_in at 1.
    destruct (existsb (v_eq vs (v_of vs m)) (firsts (v_eq vs) [] (map (v_of vs) (filter (has_name (m_name m)) l)))).
    + rewrite dget_dtouch, IH, app_nil_r. reflexivity.
    + rewrite dget_dpush, dget_dtouch, IH, (proj2 (eqb_eq _ _) eq_refl). reflexivity.
  - assert (eqb n (m_name m) = false) as Eq by (destruct (eqb n (m_name m)) eqn:Q; [apply eqb_eq in Q; subst; rewrite has_own_name in En; discriminate | reflexivity]).
    rewrite app_nil_r. destruct (v_in vs _ _); rewrite ?dget_dpush, dget_dtouch, IH, ?Eq, ?app_nil_r; reflexivity.
Qed.

(** the entry of a name *)
Lemma fold_list (l r : list pyval) el : fold_left (entry_step plain_values false el) r (Some (VList l)) = Some (VList (l ++ firsts py_eqb l r)).
Proof.
  revert l. induction r as [|x r IH]; intro l; cbn [fold_left firsts]; [rewrite app_nil_r; reflexivity|].
  unfold entry_step at 2. cbn [v_list plain_values v_mk]. change (v_in plain_values x l) with (existsb (py_eqb x) l). destruct (existsb (py_eqb x) l); [apply IH|].
  rewrite IH, <- app_assoc. reflexivity.
Qed.
Lemma fold_first el (r : list pyval) e : fold_left (entry_step plain_values true el) r (Some e) = Some e.
Proof. induction r as [|x r IH]; [reflexivity | exact IH]. Qed.
Lemma fold_atom v r : (forall l, v <> VList l) ->
  fold_left (entry_step plain_values false false) r (Some v) = Some (match firsts py_eqb [v] r with [] => v | d => VList (v :: d) end).
Proof.
  intro N. induction r as [|x r IH]; [reflexivity|]. cbn [fold_left firsts existsb]. unfold entry_step at 2.
  assert (v_list plain_values v = None) as -> by (cbn; destruct v; try reflexivity; exfalso; eapply N; reflexivity).
  cbn [v_eq plain_values v_mk]. rewrite (py_eqb_sym v x), orb_false_r. destruct (py_eqb x v); [exact IH|]. apply (fold_list [v; x]).
Qed.
Lemma pure_entry fv el (vs : list pyval) :
  fold_left (entry_step plain_values fv el) vs None =
  match vs with
  | [] => None
  | VList l :: r => Some (VList (if fv then l else l ++ firsts py_eqb l r))
  | v :: r => let d := if fv then [v] else firsts py_eqb [] vs in
              Some (if el || Nat.ltb 1 (length d) then VList d else v)
  end.
Proof.
  destruct vs as [|v r]; [reflexivity|]. cbn [fold_left]. unfold entry_step at 2.
  assert (forall l, v = VList l -> fold_left (entry_step plain_values fv el) r (Some (VList l)) = Some (VList (if fv then l else l ++ firsts py_eqb l r))) as HL.
  { intros l _. destruct fv; [apply fold_first | apply fold_list]. }
  assert ((forall l, v <> VList l) -> fold_left (entry_step plain_values fv el) r (Some (if el then VList [v] else v))
     = Some (if el || Nat.ltb 1 (length (if fv then [v] else v :: firsts py_eqb [v] r)) then VList (if fv then [v] else v :: firsts py_eqb [v] r) else v)) as HA.
  { intro N. destruct fv; [rewrite fold_first; destruct el; reflexivity|]. destruct el; [apply (fold_list [v])|]. rewrite (fold_atom _ N).
    destruct (firsts py_eqb [v] r); reflexivity. }
  destruct v; cbn [v_list plain_values v_mk]; rewrite ?andb_true_r, ?andb_false_r; try (apply HA; discriminate). apply HL. reflexivity.
Qed.
Lemma pure_entry_atom fv el v r : (forall l, v <> VList l) ->
  fold_left (entry_step plain_values fv el) (v :: r) None =
  (let d := if fv then [v] else firsts py_eqb [] (v :: r) in Some (if el || Nat.ltb 1 (length d) then VList d else v)).
Proof. intro N. rewrite pure_entry. destruct v; try reflexivity. exfalso. eapply N. reflexivity. Qed.

Section ByValue.
  Variables (d : nat) (h0 : lists pyval) (n0 : nat).
  Hypothesis closed : forall a, a < n0 -> Forall (old n0) (h0 a).
  Notation R := (fun x u => deep d h0 x = Some u).
  Lemma deep_untouched h e x : untouched h0 n0 h -> old n0 x -> deep e h x = deep e h0 x.
  Proof.
    intros U. revert x. induction e as [|e IH]; intros [v|a] O; try reflexivity. cbn [old] in O. rewrite !deep_list, (U a O).
    assert (map (deep e h) (h0 a) = map (deep e h0) (h0 a)) as ->; [|reflexivity].
    apply map_ext_in. intros y Hy. apply IH. pose proof (closed O) as F. rewrite Forall_forall in F. exact (F y Hy).
  Qed.
  Lemma alike_deep x y u v : R x u -> R y v -> alike (list_eqv d) h0 x y = py_eqb u v.
  Proof.
    intros Hx Hy. unfold alike, same. destruct y as [q|b], x as [p|a]; try (rewrite (C104_equality Hy Hx); apply py_eqb_sym).
    destruct (Nat.eqb b a) eqn:E; [|cbn [orb]; rewrite (C104_equality Hy Hx); apply py_eqb_sym].
    apply Nat.eqb_eq in E. subst. assert (u = v) as <- by congruence. rewrite py_eqb_refl. reflexivity.
  Qed.
  Lemma exists_deep x u l l' : R x u -> Forall2 R l l' -> existsb (alike (list_eqv d) h0 x) l = existsb (py_eqb u) l'.
  Proof. intros Hx F. induction F as [|y v l l' Hy F IH]; [reflexivity|]. cbn [existsb]. rewrite (alike_deep Hx Hy), IH. reflexivity. Qed.
  Lemma firsts_deep l l' : Forall2 R l l' -> forall seen seen', Forall2 R seen seen' ->
    Forall2 R (firsts (alike (list_eqv d) h0) seen l) (firsts py_eqb seen' l').
  Proof.
    induction 1 as [|x u l l' Hx F IH]; intros seen seen' S; [constructor|]. cbn [firsts]. rewrite (exists_deep Hx S).
    destruct (existsb (py_eqb u) seen'); [apply IH, S|]. constructor; [exact Hx|]. apply IH, Forall2_app; [exact S | constructor; [exact Hx | constructor]].
  Qed.
  Lemma F2_length {A B} (P : A -> B -> Prop) l l' : Forall2 P l l' -> length l = length l'.
  Proof. induction 1; cbn; congruence. Qed.
  Lemma firsts_none l r : (forall u, In u r -> existsb (py_eqb u) l = true) -> firsts py_eqb l r = [].
  Proof. induction r as [|x r IH]; intro H; [reflexivity|]. cbn [firsts]. rewrite (H x (or_introl eq_refl)). apply IH. intros u Hu. apply H. right. exact Hu. Qed.
End ByValue.

(** ** When nothing is appended to the values, the dictionary is that of the values *)
Theorem C104_by_value : forall (val : mtch -> hval pyval) depth fv el h0 n0 c,
  (forall a, a < n0 -> Forall (old n0) (h0 a)) ->
  (forall m, In m (c_del c) -> old n0 (val m) /\ deep depth h0 (val m) = Some (m_value m)) ->
  let r := hto_dict val (list_eqv depth) fv el h0 n0 c in
  let p := to_dict plain_values fv el c in
  exists l, in_span_order (c_del c) l /\ (harmless val (list_eqv depth) fv h0 l ->
    dkeys (hd_items r) = dkeys (md_items p)
    /\ (forall n, dfind (md_items p) n = match dfind (hd_items r) n with Some e => deep (S depth) (hd_lists r) e | None => None end)
    /\ (forall n, dget (hd_matches r) n = dget (md_matches p) n)
    /\ (el = false -> forall n, map (deep depth (hd_lists r)) (dget (hd_values r) n) = map Some (dget (md_values p) n))).
Proof.
  intros val d fv el h0 n0 c Hc Hv r p. exists (sort_by mlt (c_del c)). split; [apply in_span_order_sort|]. intro Hh.
  set (l := sort_by mlt (c_del c)) in *.
  assert (forall m, In m l -> old n0 (val m) /\ deep d h0 (val m) = Some (m_value m)) as Hl by (intros m Hm; apply Hv; apply sort_by_in in Hm; exact Hm).
  assert (values_exist val h0 n0 l) as E by (split; [intros m Hm; apply Hl, Hm | exact Hc]).
  pose proof (list_eqv_looks_inside d Hc) as L.
  pose proof (holds_whatever (list_eqv d) fv el h0 (proj1 E)) as W. pose proof (calm_holds el L E Hh) as [K1 K2 K3].
  change (fold_left (hstep val (list_eqv d) fv el) l (HDict h0 n0 [] [] [])) with r in *.
  assert (forall n, Forall2 (fun x u => deep d h0 x = Some u) (values_of val n l) (map m_value (filter (has_name n) l))) as F.
  { intro n. unfold values_of. assert (forall m, In m (filter (has_name n) l) -> deep d h0 (val m) = Some (m_value m)) as H by (intros m Hm; apply filter_In in Hm as [Hm _]; apply Hl, Hm).
    revert H. generalize (filter (has_name n) l). induction l0 as [|m l0 IH]; intro H; cbn [map]; constructor; [apply H; left; reflexivity | apply IH; intros; apply H; right; assumption]. }
  assert (forall n x, In x (values_of val n l) -> old n0 x) as Ov.
  { intros n x Hx. pose proof (values_old n (proj1 E)) as Fo. rewrite Forall_forall in Fo. exact (Fo x Hx). }
  assert (p = fold_left (to_dict_step plain_values fv el) l (MatchesDict [] [] [])) as Ep by reflexivity.
  assert (forall xs us, Forall (old n0) xs -> Forall2 (fun x u => deep d h0 x = Some u) xs us -> all_some (map (deep d (hd_lists r)) xs) = Some us) as Rd.
  { intros xs us O H. apply all_some_F2. induction H as [|x u xs us Hx H IH]; [constructor|]. inversion O; subst. constructor; [|apply IH; assumption].
    rewrite (deep_untouched Hc d K1) by assumption. exact Hx. }
  split; [|split; [|split]].
  - rewrite Ep, pure_keys. apply (w_keys W).
  - intro n. rewrite Ep, pure_items. cbn [v_of plain_values]. pose proof (K2 n) as M. pose proof (F n) as Fn. pose proof (Ov n) as On.
    destruct (values_of val n l) as [|x rest] eqn:Ev; inversion Fn as [|? u ? us Hx Fr E1 E2]; subst.
    + cbn [mapped] in M. rewrite M. reflexivity.
    + destruct x as [v|a].
      * apply deep_atom_Some in Hx as Hx'. destruct Hx' as [-> N]. rewrite (pure_entry_atom fv el us N). cbn [mapped] in M. cbv zeta in *.
        assert (Forall2 (fun x u => deep d h0 x = Some u) (if fv then [HAtom v] else firsts (alike (list_eqv d) h0) [] (HAtom v :: rest)) (if fv then [v] else firsts py_eqb [] (v :: us))) as Fd.
        { destruct fv; [constructor; [exact Hx | constructor] | apply firsts_deep; [constructor; assumption | constructor]]. }
        rewrite (F2_length Fd) in M. destruct (el || Nat.ltb 1 (length (if fv then [v] else firsts py_eqb [] (v :: us)))).
        -- destruct M as (b & _ & Mb & Md). rewrite Mb, deep_list, Md.
           rewrite (Rd _ (if fv then [v] else firsts py_eqb [] (v :: us))); [reflexivity | | exact Fd].
           destruct fv; [constructor; [exact I | constructor]|]. apply firsts_old. apply Forall_forall. intros y Hy. apply On, Hy.
        -- rewrite M. symmetry. apply deep_more. rewrite deep_atom, <- (deep_atom d) in *. rewrite deep_atom in *. exact Hx.
      * cbn [mapped] in M. rewrite M. assert (a < n0) as Ha by (apply (On (HList a)); left; reflexivity).
        rewrite (@deep_untouched h0 n0 Hc (hd_lists r) (S d) (HList a) K1 Ha), (deep_more Hx).
        destruct d as [|e]; [discriminate|]. rewrite deep_list in Hx. destruct (all_some _) as [ua|] eqn:Ea; [|discriminate]. injection Hx as <-. rewrite pure_entry. do 2 f_equal.
        destruct fv eqn:Fv; [reflexivity|]. destruct Hh as [Hh|Hh]; [discriminate|].
        assert (firsts py_eqb ua us = []) as ->; [|apply app_nil_r].
        apply all_some_F2 in Ea. assert (Forall2 (fun x u => deep (S e) h0 x = Some u) (h0 a) ua) as Fa by (clear -Ea; induction Ea; constructor; auto using deep_more).
        pose proof (Hh n a rest Ev) as Ha'. apply firsts_none. clear -Fr Fa Ha'. induction Fr as [|x u rest us Hx Fr IH]; intros w Hw; [destruct Hw|].
        destruct Hw as [<-|Hw]; [|apply IH; [intros y Hy; apply Ha'; right; exact Hy | exact Hw]].
        rewrite <- (exists_deep Hx Fa). apply Ha'. left. reflexivity.
  - intro n. rewrite Ep, pure_matches. apply (w_matches W).
  - intros El n. rewrite (K3 El), Ep, El, pure_values. cbn [v_of v_eq plain_values].
    assert (Forall (old n0) (firsts (alike (list_eqv d) h0) [] (values_of val n l))) as O by (apply firsts_old, Forall_forall, Ov).
    assert (forall xs us, Forall (old n0) xs -> Forall2 (fun x u => deep d h0 x = Some u) xs us -> map (deep d (hd_lists r)) xs = map Some us) as Rm.
    { intros xs us O' H. induction H as [|x u xs us Hx H IH]; [reflexivity|]. inversion O'; subst. cbn [map]. rewrite IH by assumption. f_equal. rewrite (deep_untouched Hc d K1) by assumption. exact Hx. }
    apply Rm; [exact O|]. apply firsts_deep; [apply F | constructor].
Qed.
(** the lists of C104_example meet the hypotheses *)
Definition bv_y v (id : nat) (st : Z) : mtch := set_lit (set_name (mk_match id st (st + 1)%Z) (Some (s "y"))) v.
Definition bv_members : list mtch :=
  [bv_y (VInt 2) 2%nat 5; bv_y (VList [VInt 1; VInt 2]) 1%nat 0; bv_y (VInt 1) 3%nat 7; t_val 4%nat 6 (s "z") (VInt 1); t_val 5%nat 2 (s "z") (VInt 3)]%Z.
Definition bv_val (m : mtch) : hval pyval := if Nat.eqb (m_id m) 1 then HList 0 else HAtom (m_value m).
Definition bv_sorted : list mtch :=
  [bv_y (VList [VInt 1; VInt 2]) 1%nat 0; t_val 5%nat 2 (s "z") (VInt 3); bv_y (VInt 2) 2%nat 5; t_val 4%nat 6 (s "z") (VInt 1); bv_y (VInt 1) 3%nat 7]%Z.
Example C104_by_value_case :
  let c := run (empty_coll KMatches None) [OExtend bv_members] in
  (forall a, a < 1 -> Forall (old 1) (td_lists a))
  /\ (forall m, In m (c_del c) -> old 1 (bv_val m) /\ deep 1 td_lists (bv_val m) = Some (m_value m))
  /\ in_span_order (c_del c) bv_sorted /\ harmless bv_val (list_eqv 1) false td_lists bv_sorted.
Proof.
  cbv zeta. split; [intros a Ha; assert (a = 0) as -> by lia; repeat constructor|].
  assert (c_del (run (empty_coll KMatches None) [OExtend bv_members]) = bv_members) as -> by (vm_compute; reflexivity).
  split; [|split].
  - intros m Hm. destruct Hm as [<-|[<-|[<-|[<-|[<-|[]]]]]]; (split; [vm_compute; auto; lia | vm_compute; reflexivity]).
  - assert (bv_sorted = sort_by mlt bv_members) as -> by (vm_compute; reflexivity). apply in_span_order_sort.
  - right. intros n a rest E x Hx. unfold values_of in E.
    assert (forall m, m_name m = Some (s "y") \/ m_name m = Some (s "z") -> n <> Some (s "y") -> n <> Some (s "z") -> has_name n m = false) as Hn.
    { intros m [Hm|Hm] N1 N2; apply has_other_name; rewrite Hm; assumption. }
    destruct (option_eqb pstr_eqb n (Some (s "y"))) eqn:Q; [|destruct (option_eqb pstr_eqb n (Some (s "z"))) eqn:Q2].
    + apply opt_pstr_eqb_eq in Q. subst n.
      assert (map bv_val (filter (has_name (Some (s "y"))) bv_sorted) = [HList 0; HAtom (VInt 2); HAtom (VInt 1)]) as E' by (vm_compute; reflexivity).
      rewrite E' in E. injection E as <- <-. destruct Hx as [<-|[<-|[]]]; vm_compute; reflexivity.
    + apply opt_pstr_eqb_eq in Q2. subst n.
      assert (map bv_val (filter (has_name (Some (s "z"))) bv_sorted) = [HAtom (VInt 3); HAtom (VInt 1)]) as E' by (vm_compute; reflexivity).
      rewrite E' in E. discriminate.
    + assert (n <> Some (s "y")) as N1 by (intros ->; rewrite (proj2 (opt_pstr_eqb_eq _ _) eq_refl) in Q; discriminate).
      assert (n <> Some (s "z")) as N2 by (intros ->; rewrite (proj2 (opt_pstr_eqb_eq _ _) eq_refl) in Q2; discriminate).
      exfalso. unfold bv_sorted in E. cbn [filter] in E.
      rewrite !(fun m H => Hn m H N1 N2) in E by (first [left; reflexivity | right; reflexivity]). discriminate.
Qed.
Print Assumptions C104_equality.
Print Assumptions C104_by_value.
