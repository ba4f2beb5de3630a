(** * C104, C105: what to_dict answers and changes when values may be lists *)
From Verif Require Import Base BaseFacts Match Spec MatchFacts Coll CollFacts SpecColl PropsColl PropsLoose Typed PropsTyped ToDict.
From Coq Require Import ZifyBool.
Export Coq.Strings.String.StringSyntax.
Set Implicit Arguments.
Unset Strict Implicit.
Open Scope nat_scope.
Open Scope string_scope.
Open Scope list_scope.

Section Dict.
  Context {V : Type}.
  Variable val : mtch -> hval V.
  Variable eqv : lists V -> hval V -> hval V -> bool.
  Variables fv el : bool.
  (** the lists existing before the call *)
  Variables (h0 : lists V) (n0 : nat).
  Definition old (x : hval V) : Prop := match x with HAtom _ => True | HList a => a < n0 end.
  Definition untouched (h : lists V) : Prop := forall a, a < n0 -> h a = h0 a.
  (** [==] between values depends only on the lists they are made of *)
  Definition looks_inside : Prop := forall h x y, untouched h -> old x -> old y -> eqv h x y = eqv h0 x y.
  Definition values_exist (l : list mtch) : Prop := (forall m, In m l -> old (val m)) /\ (forall a, a < n0 -> Forall old (h0 a)).

  (** [x == y] or the same object, before the call *)
  Definition alike (x y : hval V) : bool := same eqv h0 y x.
  Definition values_of (n : option pstr) (l : list mtch) : list (hval V) := map val (filter (has_name n) l).
  (** Every value of a name whose first value is a list is already in that list (or the first
      value only is wanted). *)
  Definition harmless (l : list mtch) : Prop :=
    fv = true \/ forall n a rest, values_of n l = HList a :: rest -> forall x, In x rest -> existsb (alike x) (h0 a) = true.
  (** what a name is mapped to, [h'] being the lists after the call: the first value itself if
      it is a list; otherwise a new list of the distinct values, or the only value *)
  Definition mapped (h' : lists V) (vs : list (hval V)) (e : option (hval V)) : Prop :=
    match vs with
    | [] => e = None
    | HList a :: _ => e = Some (HList a)
    | HAtom v :: _ =>
        let d := if fv then [HAtom v] else firsts alike [] vs in
        if el || Nat.ltb 1 (length d) then exists b, n0 <= b /\ e = Some (HList b) /\ h' b = d else e = Some (HAtom v)
    end.

  Notation hrun l := (fold_left (hstep val eqv fv el) l (HDict h0 n0 [] [] [])).
  Notation vals := values_of.

  Lemma vals_snoc n l m : vals n (l ++ [m]) = vals n l ++ (if has_name n m then [val m] else []).
  Proof. unfold values_of. rewrite filter_snoc. destruct (has_name n m); rewrite ?map_app, ?app_nil_r; reflexivity. Qed.
  Lemma has_own_name m : has_name (m_name m) m = true.
  Proof. apply opt_pstr_eqb_eq. reflexivity. Qed.
  Lemma has_other_name n m : n <> m_name m -> has_name n m = false.
  Proof. intro H. destruct (has_name n m) eqn:E; [|reflexivity]. apply opt_pstr_eqb_eq in E. contradiction. Qed.
  Lemma in_alike h x l : looks_inside -> untouched h -> old x -> Forall old l -> in_list eqv h x l = existsb (alike x) l.
  Proof.
    intros L U Hx Hl. unfold in_list. induction Hl as [|y l Hy Hl IH]; [reflexivity|]. cbn [existsb]. rewrite IH. f_equal.
    unfold alike, same. destruct y as [v|a], x as [w|b]; rewrite (L h) by assumption; reflexivity.
  Qed.

  (** ** In any case *)
  Record whatever (l : list mtch) (st : hdict V) : Prop := {
    w_next : n0 <= hd_next st;
    w_keys : dkeys (hd_items st) = firsts (option_eqb pstr_eqb) [] (map m_name l);
    w_entry : forall n, match vals n l with
              | [] => dfind (hd_items st) n = None
              | HList a :: _ => dfind (hd_items st) n = Some (HList a)
              | HAtom v :: _ => dfind (hd_items st) n = Some (HAtom v) \/ exists b, n0 <= b < hd_next st /\ dfind (hd_items st) n = Some (HList b)
              end;
    w_grow : forall a, a < n0 -> exists extra, hd_lists st a = h0 a ++ extra
              /\ forall x, In x extra -> fv = false /\ exists n rest, vals n l = HList a :: rest /\ In x rest;
    w_apart : forall n n' b, n <> n' -> n0 <= b -> dfind (hd_items st) n = Some (HList b) -> dfind (hd_items st) n' = Some (HList b) ->
              (exists v r, vals n l = HAtom v :: r) -> (exists v r, vals n' l = HAtom v :: r) -> False;
    w_matches : forall n, dget (hd_matches st) n = filter (has_name n) l
  }.
  Lemma keys_found (it : dict (option pstr) (hval V)) l n e : dkeys it = firsts (option_eqb pstr_eqb) [] (map m_name l) -> dfind it n = Some e -> existsb (option_eqb pstr_eqb n) (firsts (option_eqb pstr_eqb) [] (map m_name l)) = true.
  Proof. intros E F. apply existsb_eqb_In. rewrite <- E. apply dmem_In. unfold dmem. now rewrite F. Qed.
  Lemma keys_absent (it : dict (option pstr) (hval V)) l n : dkeys it = firsts (option_eqb pstr_eqb) [] (map m_name l) -> dfind it n = None -> existsb (option_eqb pstr_eqb n) (firsts (option_eqb pstr_eqb) [] (map m_name l)) = false.
  Proof.
    intros E F. destruct (existsb _ _) eqn:X; [|reflexivity]. apply existsb_eqb_In in X. rewrite <- E in X. apply dmem_In in X. unfold dmem in X. rewrite F in X. discriminate.
  Qed.
  Lemma dfind_same (it : dict (option pstr) (hval V)) n e : dfind (dset it n e) n = Some e.
  Proof. rewrite dfind_dset, (proj2 (eqb_eq _ _) eq_refl). reflexivity. Qed.
  Lemma dfind_other (it : dict (option pstr) (hval V)) n n' e : n' <> n -> dfind (dset it n e) n' = dfind it n'.
  Proof. intro H. rewrite dfind_dset. destruct (eqb n' n) eqn:E; [apply eqb_eq in E; contradiction | reflexivity]. Qed.
  Lemma lset_same (h : lists V) a l : lset h a l a = l.
  Proof. unfold lset. rewrite Nat.eqb_refl. reflexivity. Qed.
  Lemma lset_other (h : lists V) a l b : a <> b -> lset h a l b = h b.
  Proof. intro H. unfold lset. destruct (Nat.eqb a b) eqn:E; [apply Nat.eqb_eq in E; contradiction | reflexivity]. Qed.

  (** what one step does to the items, the lists and the next address *)
  Inductive moves (st : hdict V) (m : mtch) (st' : hdict V) : Prop :=
  | mv_first_list a : dfind (hd_items st) (m_name m) = None -> val m = HList a ->
      hd_items st' = dset (hd_items st) (m_name m) (HList a) -> hd_lists st' = hd_lists st -> hd_next st' = hd_next st -> moves st m st'
  | mv_first_wrapped v : dfind (hd_items st) (m_name m) = None -> val m = HAtom v -> el = true ->
      hd_items st' = dset (hd_items st) (m_name m) (HList (hd_next st)) -> hd_lists st' = lset (hd_lists st) (hd_next st) [HAtom v] -> hd_next st' = S (hd_next st) -> moves st m st'
  | mv_first_atom v : dfind (hd_items st) (m_name m) = None -> val m = HAtom v -> el = false ->
      hd_items st' = dset (hd_items st) (m_name m) (HAtom v) -> hd_lists st' = hd_lists st -> hd_next st' = hd_next st -> moves st m st'
  | mv_nothing e : dfind (hd_items st) (m_name m) = Some e ->
      (fv = true \/ match e with HAtom _ => eqv (hd_lists st) e (val m) = true | HList a => in_list eqv (hd_lists st) (val m) (hd_lists st a) = true end) ->
      hd_items st' = hd_items st -> hd_lists st' = hd_lists st -> hd_next st' = hd_next st -> moves st m st'
  | mv_pair v : dfind (hd_items st) (m_name m) = Some (HAtom v) -> fv = false -> eqv (hd_lists st) (HAtom v) (val m) = false ->
      hd_items st' = dset (hd_items st) (m_name m) (HList (hd_next st)) -> hd_lists st' = lset (hd_lists st) (hd_next st) [HAtom v; val m] -> hd_next st' = S (hd_next st) -> moves st m st'
  | mv_append a : dfind (hd_items st) (m_name m) = Some (HList a) -> fv = false -> in_list eqv (hd_lists st) (val m) (hd_lists st a) = false ->
      hd_items st' = hd_items st -> hd_lists st' = lset (hd_lists st) a (hd_lists st a ++ [val m]) -> hd_next st' = hd_next st -> moves st m st'.
  Lemma hstep_moves st m : moves st m (hstep val eqv fv el st m).
  Proof.
    unfold hstep. destruct (dfind (hd_items st) (m_name m)) as [[v|a]|] eqn:E.
    - destruct fv eqn:F; [eapply mv_nothing; eauto; reflexivity|]. destruct (eqv (hd_lists st) (HAtom v) (val m)) eqn:Q.
      + eapply mv_nothing; eauto; reflexivity.
      + eapply mv_pair; eauto; reflexivity.
    - destruct fv eqn:F; [eapply mv_nothing; eauto; reflexivity|]. destruct (in_list eqv (hd_lists st) (val m) (hd_lists st a)) eqn:Q.
      + eapply mv_nothing; eauto; reflexivity.
      + eapply mv_append; eauto; reflexivity.
    - destruct (val m) as [v|a] eqn:Q.
      + destruct el eqn:El; [eapply mv_first_wrapped; eauto; reflexivity | eapply mv_first_atom; eauto; reflexivity].
      + eapply mv_first_list; eauto; reflexivity.
  Qed.
  Lemma hstep_matches st m : hd_matches (hstep val eqv fv el st m) = dpush (hd_matches st) (m_name m) m.
  Proof.
    unfold hstep. destruct (dfind (hd_items st) (m_name m)) as [[v|a]|]; [| |destruct (val m); [destruct el|]; reflexivity]; (destruct fv; [reflexivity|]).
    - destruct (eqv (hd_lists st) (HAtom v) (val m)); reflexivity.
    - destruct (in_list eqv (hd_lists st) (val m) (hd_lists st a)); reflexivity.
  Qed.
  Lemma hstep_values st m : hd_values (hstep val eqv fv el st m) =
    (if el then hd_values st
     else let t := dtouch (hd_values st) (m_name m) in if in_list eqv (hd_lists st) (val m) (dget t (m_name m)) then t else dpush t (m_name m) (val m)).
  Proof.
    unfold hstep. destruct (dfind (hd_items st) (m_name m)) as [[v|a]|]; [| |destruct (val m); [destruct el|]; reflexivity]; (destruct fv; [reflexivity|]).
    - destruct (eqv (hd_lists st) (HAtom v) (val m)); reflexivity.
    - destruct (in_list eqv (hd_lists st) (val m) (hd_lists st a)); reflexivity.
  Qed.

  Lemma whatever_grow_weaken l m st : (forall a, a < n0 -> exists extra, hd_lists st a = h0 a ++ extra
              /\ forall x, In x extra -> fv = false /\ exists n rest, vals n l = HList a :: rest /\ In x rest) ->
    forall a, a < n0 -> exists extra, hd_lists st a = h0 a ++ extra
              /\ forall x, In x extra -> fv = false /\ exists n rest, vals n (l ++ [m]) = HList a :: rest /\ In x rest.
  Proof.
    intros H a Ha. destruct (H a Ha) as (ex & E & F). exists ex. split; [exact E|]. intros x Hx. destruct (F x Hx) as (F1 & n & rest & F2 & F3). split; [exact F1|].
    exists n, (rest ++ (if has_name n m then [val m] else [])). rewrite vals_snoc, F2. split; [reflexivity|]. apply in_or_app; left; exact F3.
  Qed.
  Lemma holds_whatever l : (forall m, In m l -> old (val m)) -> whatever l (hrun l).
  Proof.
    induction l as [|m l IH] using rev_ind; intro O.
    - constructor; cbn; auto; try discriminate. intros a _. exists []. rewrite app_nil_r. split; [reflexivity | intros x []].
    - destruct IH as [I1 I2 I3 I4 I5 I6]; [intros x Hx; apply O, in_or_app; auto|].
      assert (old (val m)) as Om by (apply O, in_or_app; right; now left).
      rewrite fold_left_app. cbn [fold_left]. set (st := hrun l) in *.
      pose proof (I3 (m_name m)) as Hm. pose proof (hstep_moves st m) as MV. set (st' := hstep val eqv fv el st m) in *.
      assert (forall n, dget (hd_matches st') n = filter (has_name n) (l ++ [m])) as J6.
      { intro n. unfold st'. rewrite hstep_matches, dget_dpush, I6, filter_snoc, has_name_eqb. reflexivity. }
      assert (vals (m_name m) (l ++ [m]) = vals (m_name m) l ++ [val m]) as Vm by (rewrite vals_snoc, has_own_name; reflexivity).
      assert (forall n, n <> m_name m -> vals n (l ++ [m]) = vals n l) as Vo by (intros n Hn; rewrite vals_snoc, has_other_name, app_nil_r by exact Hn; reflexivity).
      assert (dkeys (hd_items st') = firsts (option_eqb pstr_eqb) [] (map m_name (l ++ [m]))) as J2.
      { rewrite map_app. cbn [map]. rewrite firsts_snoc. cbn [app]. inversion MV as [a E _ Ei|v E _ _ Ei|v E _ _ Ei|e E _ Ei|v E _ _ Ei|a E _ _ Ei]; rewrite Ei, ?dkeys_dset; unfold dmem; rewrite ?E, ?I2;
          first [rewrite (keys_absent I2 E); reflexivity | rewrite (keys_found I2 E), app_nil_r; reflexivity]. }
      assert (dfind (hd_items st) (m_name m) = None -> vals (m_name m) l = []) as Hnone.
      { intro E. rewrite E in Hm. destruct (vals (m_name m) l) as [|[v|a] r]; [reflexivity| |discriminate]. destruct Hm as [Hm|(b & _ & Hm)]; discriminate. }
      (* the entries of the other names *)
      assert (forall n, n <> m_name m -> dfind (hd_items st') n = dfind (hd_items st) n) as Fo.
      { intros n Hn. inversion MV as [a E _ Ei|v E _ _ Ei|v E _ _ Ei|e E _ Ei|v E _ _ Ei|a E _ _ Ei]; rewrite Ei, ?dfind_other by exact Hn; reflexivity. }
      assert (hd_next st <= hd_next st') as Hnext.
      { inversion MV as [a E _ _ _ Ex|v E _ _ _ _ Ex|v E _ _ _ _ Ex|e E _ _ _ Ex|v E _ _ _ _ Ex|a E _ _ _ _ Ex]; rewrite Ex; lia. }
      constructor; [lia | exact J2 | | | | exact J6].
      + intro n. destruct (option_eqb pstr_eqb n (m_name m)) eqn:En.
        * apply opt_pstr_eqb_eq in En. subst n. rewrite Vm.
          inversion MV as [a E Ev Ei El' Ex|v E Ev Ee Ei El' Ex|v E Ev Ee Ei El' Ex|e E Ev Ei El' Ex|v E Ee Ev Ei El' Ex|a E Ee Ev Ei El' Ex].
          -- rewrite (Hnone E), Ev, Ei. cbn [app]. apply dfind_same.
          -- rewrite (Hnone E), Ev, Ei. cbn [app]. right. exists (hd_next st). split; [lia | apply dfind_same].
          -- rewrite (Hnone E), Ev, Ei. cbn [app]. left. apply dfind_same.
          -- rewrite Ei. destruct (vals (m_name m) l) as [|[w|a] r]; cbn [app]; [congruence| |exact Hm]. destruct Hm as [Hm|(b & Hb & Hm)]; [left; exact Hm|right; exists b; split; [lia | exact Hm]].
          -- rewrite Ei. destruct (vals (m_name m) l) as [|[w|a] r]; cbn [app]; [congruence| |congruence]. right. exists (hd_next st). split; [lia | apply dfind_same].
          -- rewrite Ei. destruct (vals (m_name m) l) as [|[w|b] r]; cbn [app]; [congruence| |exact Hm]. destruct Hm as [Hm|(b & Hb & Hm)]; [left; exact Hm|right; exists b; split; [lia | exact Hm]].
        * assert (n <> m_name m) as Hn by (intros ->; rewrite (proj2 (opt_pstr_eqb_eq _ _) eq_refl) in En; discriminate).
          rewrite Vo, Fo by exact Hn. pose proof (I3 n) as Hn'. destruct (vals n l) as [|[w|a] r]; auto. destruct Hn' as [Hn'|(b & Hb & Hn')]; [left; exact Hn'|right; exists b; split; [lia | exact Hn']].
      + pose proof (whatever_grow_weaken m I4) as W.
        inversion MV as [a E Ev Ei El' Ex|v E Ev Ee Ei El' Ex|v E Ev Ee Ei El' Ex|e E Ev Ei El' Ex|v E Ee Ev Ei El' Ex|a E Ee Ev Ei El' Ex]; rewrite El'; try exact W;
          [intros b Hb; rewrite lset_other by lia; apply W, Hb ..|].
        intros b Hb. destruct (Nat.eq_dec a b) as [-> |Hab]; [|rewrite lset_other by exact Hab; apply W, Hb].
        rewrite lset_same. destruct (W b Hb) as (extra & Ex1 & Ex2). exists (extra ++ [val m]). rewrite Ex1, <- app_assoc. split; [reflexivity|].
        intros x Hx. apply in_app_iff in Hx as [Hx|[<-|[]]]; [apply Ex2, Hx|]. split; [exact Ee|].
        rewrite E in Hm. destruct (vals (m_name m) l) as [|[w|b'] r] eqn:Ev'; [discriminate| |].
        * destruct Hm as [Hm|(b' & Hb' & Hm)]; [discriminate|]. injection Hm as <-. lia.
        * injection Hm as <-. exists (m_name m), (r ++ [val m]). rewrite Vm. split; [reflexivity | apply in_or_app; right; now left].
      + assert (forall n b, n <> m_name m -> n0 <= b -> dfind (hd_items st') n = Some (HList b) -> (exists v r, vals n (l ++ [m]) = HAtom v :: r) ->
                 dfind (hd_items st') (m_name m) = Some (HList b) -> (exists v r, vals (m_name m) (l ++ [m]) = HAtom v :: r) -> False) as Key.
        { intros n b Hn Hb F1 A1 F2 A2. rewrite Fo in F1 by exact Hn. rewrite Vo in A1 by exact Hn.
          assert (b < hd_next st) as Hlt.
          { pose proof (I3 n) as Hn'. destruct A1 as (v & r & A1). rewrite A1 in Hn'. destruct Hn' as [Hn'|(b' & Hb' & Hn')]; [congruence|]. rewrite Hn' in F1. injection F1 as <-. lia. }
          assert (dfind (hd_items st) (m_name m) = Some (HList b) -> False) as Old.
          { intro F. apply (I5 n (m_name m) b Hn Hb F1 F A1). rewrite F in Hm. destruct (vals (m_name m) l) as [|[w|a] r] eqn:Ev'; [discriminate|eauto|].
            exfalso. destruct A2 as (v & r' & A2). rewrite Vm in A2. cbn in A2. discriminate. }
          inversion MV as [a E Ev Ei El' Ex|v E Ev Ee Ei El' Ex|v E Ev Ee Ei El' Ex|e E Ev Ei El' Ex|v E Ee Ev Ei El' Ex|a E Ee Ev Ei El' Ex]; rewrite Ei in F2; rewrite ?dfind_same in F2; try discriminate; auto;
            injection F2 as F2; try lia. rewrite Ev in Om. cbn [old] in Om. lia. }
        intros n n' b Hne Hb F1 F2 A1 A2. destruct (option_eqb pstr_eqb n (m_name m)) eqn:En; [|destruct (option_eqb pstr_eqb n' (m_name m)) eqn:En'].
        * apply opt_pstr_eqb_eq in En. subst n. apply (Key n' b); auto.
        * apply opt_pstr_eqb_eq in En'. subst n'. apply (Key n b); auto.
        * assert (n <> m_name m) as Hn by (intros ->; rewrite (proj2 (opt_pstr_eqb_eq _ _) eq_refl) in En; discriminate).
          assert (n' <> m_name m) as Hn' by (intros ->; rewrite (proj2 (opt_pstr_eqb_eq _ _) eq_refl) in En'; discriminate).
          rewrite Fo in F1, F2 by assumption. rewrite Vo in A1, A2 by assumption. apply (I5 n n' b); auto.
  Qed.

  (** ** When nothing is appended to a list that existed *)
  Record calm (l : list mtch) (st : hdict V) : Prop := {
    k_same : untouched (hd_lists st);
    k_map : forall n, mapped (hd_lists st) (vals n l) (dfind (hd_items st) n);
    k_values : el = false -> forall n, dget (hd_values st) n = firsts alike [] (vals n l)
  }.
  Lemma harmless_prefix l m : harmless (l ++ [m]) -> harmless l.
  Proof.
    intros [H|H]; [left; exact H|right]. intros n a rest E x Hx. apply (H n a (rest ++ (if has_name n m then [val m] else []))); [rewrite vals_snoc, E; reflexivity | apply in_or_app; auto].
  Qed.
  Lemma mapped_lset h vs e a0 x : mapped h vs e -> (forall b v r, vs = HAtom v :: r -> e = Some (HList b) -> a0 <> b) -> mapped (lset h a0 x) vs e.
  Proof.
    intros M D. destruct vs as [|[v|a] r]; [exact M| |exact M]. cbn [mapped] in *. destruct (el || Nat.ltb 1 (length (if fv then [HAtom v] else firsts alike [] (HAtom v :: r)))); [|exact M].
    destruct M as (b & Hb & E & Eh). exists b. split; [exact Hb|]. split; [exact E|]. rewrite lset_other; [exact Eh | eapply D; eauto].
  Qed.
  Lemma firsts_head (x : hval V) r : exists d, firsts alike [] (x :: r) = x :: d.
  Proof. cbn. eexists. reflexivity. Qed.
  Lemma firsts_old (l : list (hval V)) : Forall old l -> Forall old (firsts alike [] l).
  Proof.
    intro H. rewrite Forall_forall in *. intros x Hx. apply H. clear H. revert Hx. generalize (@nil (hval V)). induction l as [|y l IH]; intros seen Hx; [destruct Hx|].
    cbn [firsts] in Hx. destruct (existsb (alike y) seen); [right; eapply IH; eauto|]. destruct Hx as [-> |Hx]; [left; reflexivity|right; eapply IH; eauto].
  Qed.
  Lemma values_old n l : (forall m, In m l -> old (val m)) -> Forall old (vals n l).
  Proof. intro H. apply Forall_forall. intros x Hx. apply in_map_iff in Hx as (m & <- & Hm). apply filter_In in Hm as [Hm _]. auto. Qed.

  Lemma calm_step l m : looks_inside -> values_exist (l ++ [m]) -> harmless (l ++ [m]) -> whatever l (hrun l) -> calm l (hrun l) -> calm (l ++ [m]) (hstep val eqv fv el (hrun l) m).
  Proof.
    intros L [Ov Oh] Hh W [K1 K2 K3]. set (st := hrun l) in *. pose proof (hstep_moves st m) as MV. set (st' := hstep val eqv fv el st m) in *.
    destruct W as [I1 I2 I3 I4 I5 I6].
    assert (old (val m)) as Om by (apply Ov, in_or_app; right; now left).
    assert (forall x, In x l -> old (val x)) as Ol by (intros x Hx; apply Ov, in_or_app; auto).
    assert (vals (m_name m) (l ++ [m]) = vals (m_name m) l ++ [val m]) as Vm by (rewrite vals_snoc, has_own_name; reflexivity).
    assert (forall n, n <> m_name m -> vals n (l ++ [m]) = vals n l) as Vo by (intros n Hn; rewrite vals_snoc, has_other_name, app_nil_r by exact Hn; reflexivity).
    pose proof (I3 (m_name m)) as Hm. pose proof (K2 (m_name m)) as Mm.
    assert (dfind (hd_items st) (m_name m) = None -> vals (m_name m) l = []) as Hnone.
    { intro E. rewrite E in Hm. destruct (vals (m_name m) l) as [|[v|a] r]; [reflexivity| |discriminate]. destruct Hm as [Hm|(b & _ & Hm)]; discriminate. }
    assert (forall b v r n, vals n l = HAtom v :: r -> dfind (hd_items st) n = Some (HList b) -> n0 <= b < hd_next st) as Below.
    { intros b v r n E F. pose proof (I3 n) as H. rewrite E in H. destruct H as [H|(b' & Hb & H)]; [congruence|]. rewrite H in F. injection F as <-. exact Hb. }
    assert (forall n, n = m_name m \/ n <> m_name m) as Dec.
    { intro n. destruct (option_eqb pstr_eqb n (m_name m)) eqn:En; [left; apply opt_pstr_eqb_eq; exact En|right]. intros ->. rewrite (proj2 (opt_pstr_eqb_eq _ _) eq_refl) in En. discriminate. }
    constructor.
    - (* lists that existed *)
      intros b Hb. inversion MV as [a E Ev Ei El' Ex|v E Ev Ee Ei El' Ex|v E Ev Ee Ei El' Ex|e E Ev Ei El' Ex|v E Ee Ev Ei El' Ex|a E Ee Ev Ei El' Ex]; rewrite El'; try (apply K1; exact Hb).
      + rewrite lset_other by lia. apply K1, Hb.
      + rewrite lset_other by lia. apply K1, Hb.
      + destruct (Nat.eq_dec a b) as [-> |Hab]; [|rewrite lset_other by exact Hab; apply K1, Hb]. exfalso.
        rewrite E in Hm. destruct (vals (m_name m) l) as [|[w|b'] r] eqn:Ev'; [discriminate| |].
        * destruct Hm as [Hm|(b' & Hb' & Hm)]; [discriminate|]. injection Hm as <-. lia.
        * injection Hm as <-. destruct Hh as [Hh|Hh]; [congruence|]. specialize (Hh (m_name m) b (r ++ [val m])). rewrite Vm in Hh. specialize (Hh eq_refl (val m)).
          rewrite <- (in_alike L K1 Om (Oh b Hb)), <- (K1 b Hb), Ev in Hh. discriminate Hh. apply in_or_app; right; now left.
    - intro n. destruct (Dec n) as [-> |Hn].
      + rewrite Vm. inversion MV as [a E Ev Ei El' Ex|v E Ev Ee Ei El' Ex|v E Ev Ee Ei El' Ex|e E Ev Ei El' Ex|v E Ee Ev Ei El' Ex|a E Ee Ev Ei El' Ex]; rewrite Ei, El', ?dfind_same.
        * rewrite (Hnone E), Ev. reflexivity.
        * rewrite (Hnone E), Ev. cbn [app mapped]. rewrite Ee. cbn [orb]. exists (hd_next st). split; [lia|]. split; [reflexivity|]. rewrite lset_same. destruct fv; reflexivity.
        * rewrite (Hnone E), Ev. cbn [app mapped]. rewrite Ee. destruct fv; reflexivity.
        * rewrite E in *. destruct (vals (m_name m) l) as [|[w|b'] r] eqn:Ev'; [discriminate| |exact Mm]. cbn [app]. cbn [mapped] in *.
          destruct fv eqn:Fv; [exact Mm|]. destruct Ev as [Ev|Ev]; [discriminate|].
          change (HAtom w :: r ++ [val m]) with ((HAtom w :: r) ++ [val m]). rewrite firsts_snoc. cbn [app].
          destruct (firsts_head (HAtom w) r) as (d & Ed). rewrite Ed in *.
          assert (existsb (alike (val m)) (HAtom w :: d) = true) as ->; [|rewrite app_nil_r; exact Mm].
          destruct (el || Nat.ltb 1 (length (HAtom w :: d))) eqn:Q.
          -- destruct Mm as (b & Hb & Eb & Eh). injection Eb as ->. rewrite Eh in Ev. rewrite <- Ev. symmetry. apply in_alike; auto.
             rewrite <- Ed. apply firsts_old. rewrite <- Ev'. apply values_old, Ol.
          -- injection Mm as ->. apply orb_false_iff in Q as [_ Q]. destruct d; [|discriminate]. cbn [existsb]. unfold alike, same. rewrite <- (L (hd_lists st)); [rewrite Ev; reflexivity|exact K1|exact I|exact Om].
        * rewrite E in *. destruct (vals (m_name m) l) as [|[w|b'] r] eqn:Ev'; [discriminate| |discriminate]. cbn [app]. cbn [mapped] in *. rewrite Ee in *.
          change (HAtom w :: r ++ [val m]) with ((HAtom w :: r) ++ [val m]). rewrite firsts_snoc. cbn [app].
          destruct (firsts_head (HAtom w) r) as (d & Ed). rewrite Ed in *. destruct (el || Nat.ltb 1 (length (HAtom w :: d))) eqn:Q; [destruct Mm as (b & _ & Eb & _); discriminate|].
          injection Mm as <-. apply orb_false_iff in Q as [_ Q]. destruct d; [|discriminate].
          assert (existsb (alike (val m)) [HAtom v] = false) as ->.
          { cbn [existsb]. unfold alike, same. rewrite <- (L (hd_lists st)); [rewrite Ev; reflexivity|exact K1|exact I|exact Om]. }
          cbn [app length]. rewrite orb_true_r. exists (hd_next st). split; [lia|]. split; [reflexivity|]. apply lset_same.
        * rewrite E in *. destruct (vals (m_name m) l) as [|[w|b'] r] eqn:Ev'; [discriminate| |exact Mm]. cbn [app]. cbn [mapped] in *. rewrite Ee in *.
          change (HAtom w :: r ++ [val m]) with ((HAtom w :: r) ++ [val m]). rewrite firsts_snoc. cbn [app].
          destruct (firsts_head (HAtom w) r) as (d & Ed). rewrite Ed in *. destruct (el || Nat.ltb 1 (length (HAtom w :: d))) eqn:Q; [|discriminate].
          destruct Mm as (b & Hb & Eb & Eh). injection Eb as <-. rewrite Eh in *.
          assert (existsb (alike (val m)) (HAtom w :: d) = false) as ->.
          { rewrite <- Ev. symmetry. apply in_alike; auto. rewrite <- Ed. apply firsts_old. rewrite <- Ev'. apply values_old, Ol. }
          assert (el || Nat.ltb 1 (length ((HAtom w :: d) ++ [val m])) = true) as ->.
          { rewrite app_length. cbn [length]. apply orb_true_iff. right. apply Nat.ltb_lt. lia. }
          exists a. split; [exact Hb|]. split; [reflexivity|]. rewrite lset_same. reflexivity.
      + rewrite Vo by exact Hn.
        assert (dfind (hd_items st') n = dfind (hd_items st) n) as Fo.
        { inversion MV as [a E _ Ei|v E _ _ Ei|v E _ _ Ei|e E _ Ei|v E _ _ Ei|a E _ _ Ei]; rewrite Ei, ?dfind_other by exact Hn; reflexivity. }
        rewrite Fo. inversion MV as [a E Ev Ei El' Ex|v E Ev Ee Ei El' Ex|v E Ev Ee Ei El' Ex|e E Ev Ei El' Ex|v E Ee Ev Ei El' Ex|a E Ee Ev Ei El' Ex]; rewrite El'; try apply K2; apply mapped_lset; try apply K2.
        * intros b w r Ew Eb. pose proof (Below b w r n Ew Eb). lia.
        * intros b w r Ew Eb. pose proof (Below b w r n Ew Eb). lia.
        * intros b w r Ew Eb ->. pose proof (Below b w r n Ew Eb) as Hb. rewrite E in Hm. destruct (vals (m_name m) l) as [|[w'|b'] r'] eqn:Ev'; [discriminate| |].
          -- apply (I5 n (m_name m) b Hn); eauto. lia.
          -- injection Hm as <-. assert (old (@HList V b)) as C; [|cbn in C; lia]. pose proof (values_old (m_name m) Ol) as F. rewrite Ev' in F. inversion F; assumption.
    - intros El n. unfold st'. rewrite hstep_values, El. cbv zeta. rewrite dget_dtouch, (K3 El).
      assert (in_list eqv (hd_lists st) (val m) (firsts alike [] (vals (m_name m) l)) = existsb (alike (val m)) (firsts alike [] (vals (m_name m) l))) as ->.
      { apply in_alike; auto. apply firsts_old, values_old, Ol. }
      destruct (Dec n) as [-> |Hn].
      + rewrite Vm, firsts_snoc. cbn [app]. destruct (existsb (alike (val m)) _).
        * rewrite dget_dtouch, (K3 El), app_nil_r. reflexivity.
        * rewrite dget_dpush, dget_dtouch, (K3 El), (proj2 (eqb_eq _ _) eq_refl). reflexivity.
      + rewrite Vo by exact Hn. assert (eqb n (m_name m) = false) as En by (destruct (eqb n (m_name m)) eqn:En; [apply eqb_eq in En; contradiction | reflexivity]).
        destruct (existsb (alike (val m)) _); rewrite ?dget_dpush, dget_dtouch, (K3 El), ?En, ?app_nil_r; reflexivity.
  Qed.
  Lemma values_exist_prefix l m : values_exist (l ++ [m]) -> values_exist l.
  Proof. intros [H1 H2]. split; [intros x Hx; apply H1, in_or_app; auto | exact H2]. Qed.
  Lemma calm_holds l : looks_inside -> values_exist l -> harmless l -> calm l (hrun l).
  Proof.
    intro L. induction l as [|m l IH] using rev_ind; intros Ex Hh.
    - constructor; cbn; auto. intros a _; reflexivity.
    - rewrite fold_left_app. cbn [fold_left]. apply calm_step; auto.
      + apply holds_whatever. intros x Hx. apply Ex, in_or_app; auto.
      + apply IH; [eapply values_exist_prefix; eauto | eapply harmless_prefix; eauto].
  Qed.
  (** a list that existed is changed by a step only by appending to it *)
  Lemma step_grows st m a : n0 <= hd_next st -> a < n0 -> exists x, hd_lists (hstep val eqv fv el st m) a = hd_lists st a ++ x.
  Proof.
    intros Hn Ha. pose proof (hstep_moves st m) as MV.
    inversion MV as [b E Ev Ei El' Ex|v E Ev Ee Ei El' Ex|v E Ev Ee Ei El' Ex|e E Ev Ei El' Ex|v E Ee Ev Ei El' Ex|b E Ee Ev Ei El' Ex]; rewrite El'; try (exists []; rewrite app_nil_r; reflexivity).
    - exists []. rewrite app_nil_r, lset_other by lia. reflexivity.
    - exists []. rewrite app_nil_r, lset_other by lia. reflexivity.
    - destruct (Nat.eq_dec b a) as [-> |Hab]; [rewrite lset_same; eauto | exists []; rewrite app_nil_r, lset_other by exact Hab; reflexivity].
  Qed.
  Lemma untouched_harmless l : looks_inside -> values_exist l -> untouched (hd_lists (hrun l)) -> harmless l.
  Proof.
    intro L. induction l as [|m l IH] using rev_ind; intros Ex U; [right; intros n a rest E; discriminate|].
    pose proof (values_exist_prefix Ex) as Ex'. destruct Ex as [Ov Oh].
    pose proof (@holds_whatever l (proj1 Ex')) as W. rewrite fold_left_app in U. cbn [fold_left] in U.
    assert (untouched (hd_lists (hrun l))) as U'.
    { intros a Ha. destruct (w_grow W Ha) as (ex1 & E1 & _). destruct (step_grows m (w_next W) Ha) as (ex2 & E2). pose proof (U a Ha) as E. rewrite E2, E1, <- app_assoc in E.
      assert (ex1 = []) as ->; [|rewrite E1, app_nil_r; reflexivity]. apply (f_equal (@length _)) in E. rewrite !app_length in E. destruct ex1; [reflexivity | cbn in E; lia]. }
    specialize (IH Ex' U'). pose proof (calm_holds L Ex' IH) as [K1 K2 K3]. destruct IH as [IH|IH]; [left; exact IH|].
    destruct (bool_dec fv true) as [Fv|Fv]; [left; exact Fv|]. apply not_true_is_false in Fv. right. intros n a rest E x Hx.
    destruct (has_name n m) eqn:En; [|rewrite vals_snoc, En, app_nil_r in E; eapply IH; eauto].
    apply opt_pstr_eqb_eq in En. subst n. rewrite vals_snoc, has_own_name in E.
    destruct (vals (m_name m) l) as [|y r] eqn:Ey; cbn [app] in E; injection E as E1 E2; subst; [destruct Hx|].
    apply in_app_iff in Hx as [Hx|[<-|[]]]; [eapply IH; eauto|].
    pose proof (w_entry W (m_name m)) as He. rewrite Ey in He. assert (a < n0) as Ha by (pose proof (values_old (m_name m) (proj1 Ex')) as F; rewrite Ey in F; inversion F; assumption).
    assert (old (val m)) as Om by (apply Ov, in_or_app; right; now left).
    rewrite <- (in_alike L K1 Om (Oh a Ha)), <- (K1 a Ha).
    destruct (in_list eqv _ (val m) _) eqn:Q; [reflexivity|]. exfalso. specialize (U a Ha). pose proof (hstep_moves (hrun l) m) as MV.
    inversion MV as [b E Ev Ei El' Ex|v E Ev Ee Ei El' Ex|v E Ev Ee Ei El' Ex|e E Ev Ei El' Ex|v E Ee Ev Ei El' Ex|b E Ee Ev Ei El' Ex]; rewrite He in E; try discriminate; injection E as <-.
    - destruct Ev as [Ev|Ev]; congruence.
    - rewrite El', lset_same, (K1 a Ha) in U. apply (f_equal (@length _)) in U. rewrite app_length in U. cbn in U. lia.
  Qed.
End Dict.

(** ** C105 When to_dict changes nothing *)
(** [c]: the collection; [h0], [n0]: the list objects before the call.  Whatever [match.value]
    gives, whatever [==] says. *)
(** to_dict leaves every list as it is iff the values of each name whose first value (in span
    order) is a list are in that list, or only first values are asked for. *)
Theorem C105_read_only : forall V (val : mtch -> hval V) eqv fv el h0 n0 c,
  looks_inside eqv h0 n0 -> values_exist val h0 n0 (c_del c) ->
  exists l, in_span_order (c_del c) l
    /\ ((forall a, a < n0 -> hd_lists (hto_dict val eqv fv el h0 n0 c) a = h0 a) <-> harmless val eqv fv h0 l).
Proof.
  intros V val eqv fv el h0 n0 c L [E1 E2]. exists (sort_by mlt (c_del c)). split; [apply in_span_order_sort|].
  assert (values_exist val h0 n0 (sort_by mlt (c_del c))) as E by (split; [intros m Hm; apply E1; apply sort_by_in in Hm; exact Hm | exact E2]).
  split; intro H; [eapply untouched_harmless; eauto | exact (k_same (calm_holds el L E H))].
Qed.
(** Whatever happens, a list is changed by appending to it, only if it is the value of the first
    match of some name, and only later values of such names are appended. *)
Theorem C105_appended : forall V (val : mtch -> hval V) eqv fv el h0 n0 c,
  (forall m, In m (c_del c) -> old n0 (val m)) ->
  exists l, in_span_order (c_del c) l
    /\ forall a, a < n0 -> exists extra, hd_lists (hto_dict val eqv fv el h0 n0 c) a = h0 a ++ extra
       /\ forall x, In x extra -> fv = false /\ exists n rest, values_of val n l = HList a :: rest /\ In x rest.
Proof.
  intros V val eqv fv el h0 n0 c E. exists (sort_by mlt (c_del c)). split; [apply in_span_order_sort|].
  apply (w_grow (l := sort_by mlt (c_del c))). apply holds_whatever. intros m Hm. apply E. apply sort_by_in in Hm. exact Hm.
Qed.

(** ** C104 What it answers *)
(** The keys are the names, in order of first appearance, with their matches.  A name whose first
    value is a list is mapped to that very list.  When nothing is changed, any other name is mapped
    to the distinct values, and values_list holds the distinct values of every name. *)
Theorem C104_to_dict : forall V (val : mtch -> hval V) eqv fv el h0 n0 c,
  looks_inside eqv h0 n0 -> values_exist val h0 n0 (c_del c) ->
  let r := hto_dict val eqv fv el h0 n0 c in
  exists l, in_span_order (c_del c) l
    /\ dkeys (hd_items r) = firsts (option_eqb pstr_eqb) [] (map m_name l)
    /\ (forall n, dget (hd_matches r) n = filter (has_name n) l)
    /\ (forall n a rest, values_of val n l = HList a :: rest -> dfind (hd_items r) n = Some (HList a))
    /\ (harmless val eqv fv h0 l ->
          (forall n, mapped eqv fv el h0 n0 (hd_lists r) (values_of val n l) (dfind (hd_items r) n))
          /\ (el = false -> forall n, dget (hd_values r) n = firsts (alike eqv h0) [] (values_of val n l))).
Proof.
  intros V val eqv fv el h0 n0 c L [E1 E2] r. exists (sort_by mlt (c_del c)). split; [apply in_span_order_sort|].
  assert (values_exist val h0 n0 (sort_by mlt (c_del c))) as E by (split; [intros m Hm; apply E1; apply sort_by_in in Hm; exact Hm | exact E2]).
  pose proof (holds_whatever eqv fv el h0 (proj1 E)) as W. split; [apply (w_keys W)|]. split; [apply (w_matches W)|]. split.
  - intros n a rest Ev. pose proof (w_entry W n) as H. rewrite Ev in H. exact H.
  - intro H. destruct (calm_holds el L E H) as [_ K2 K3]. split; assumption.
Qed.

(** [==] on plain values and lists only looks inside the values *)
Lemma list_eqv_looks_inside fuel h0 n0 : (forall a, a < n0 -> Forall (old n0) (h0 a)) -> looks_inside (list_eqv fuel) h0 n0.
Proof.
  intros Hc h x y U. revert x y. induction fuel as [|f IH]; intros [u|a] [v|b] Hx Hy; try reflexivity. cbn [list_eqv]. cbn [old] in Hx, Hy.
  rewrite (U a Hx), (U b Hy). f_equal. pose proof (Hc a Hx) as Fa. pose proof (Hc b Hy) as Fb. revert Fa Fb. generalize (h0 a) (h0 b). clear -IH.
  induction l as [|x l IHl]; intros [|y l'] Fa Fb; try reflexivity. inversion Fa; inversion Fb; subst. cbn [combine forallb fst snd]. rewrite IHl by assumption. f_equal.
  destruct x, y; rewrite ?IH by assumption; reflexivity.
Qed.

(** A pattern with [value=[1, 2]] found twice: both matches have the same list as value.  to_dict
    appends the list to itself; from then on it is the value of these matches, and of all matches
    the pattern will find. *)
Definition td_val (m : mtch) : hval pyval := if option_eqb pstr_eqb (m_name m) (Some (s "x")) then HList 0 else HAtom (m_value m).
Definition td_lists : lists pyval := fun a => if Nat.eqb a 0 then [HAtom (VInt 1); HAtom (VInt 2)] else [].
Theorem C105_refuted :
  let c := run (empty_coll KMatches None) [OExtend [set_name (mk_match 1 0 1) (Some (s "x")); set_name (mk_match 2 1 2) (Some (s "x"))]] in
  let r := hto_dict td_val (list_eqv 5) false false td_lists 1 c in
  looks_inside (list_eqv 5) td_lists 1 /\ values_exist td_val td_lists 1 (c_del c)
  /\ hd_lists r 0 = [HAtom (VInt 1); HAtom (VInt 2); HList 0]
  /\ dfind (hd_items r) (Some (s "x")) = Some (HList 0).
Proof.
  assert (forall a, a < 1 -> Forall (old 1) (td_lists a)) as H.
  { intros a Ha. assert (a = 0) as -> by lia. repeat constructor. }
  split; [apply list_eqv_looks_inside, H|]. split; [split; [intros m Hm; unfold td_val; destruct (option_eqb _ _ _); cbn; [lia | exact I] | exact H]|].
  split; vm_compute; reflexivity.
Qed.
(** a case where nothing changes: the list is the first value, and the other value is in it *)
Example C104_example :
  let y v (id : nat) (st : Z) := set_lit (set_name (mk_match id st (st + 1)%Z) (Some (s "y"))) v in
  let val m := if Nat.eqb (m_id m) 1 then HList 0 else HAtom (m_value m) in
  let c := run (empty_coll KMatches None) [OExtend [y (VInt 2) 2%nat 5; y VNone 1%nat 0; y (VInt 1) 3%nat 7; t_val 4%nat 6 (s "z") (VInt 1); t_val 5%nat 2 (s "z") (VInt 3)]]%Z in
  let r := hto_dict val (list_eqv 5) false false td_lists 1 c in
  hd_items r = [(Some (s "y"), HList 0); (Some (s "z"), HList 1)]
  /\ hd_lists r 0 = [HAtom (VInt 1); HAtom (VInt 2)] /\ hd_lists r 1 = [HAtom (VInt 3); HAtom (VInt 1)].
Proof. split; [|split]; vm_compute; reflexivity. Qed.
Print Assumptions C105_read_only.
Print Assumptions C105_appended.
Print Assumptions C104_to_dict.
