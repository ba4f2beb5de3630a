(** Facts: the collection follows the card indexes of SpecCards.v, from every state. *)
From Verif Require Import Base BaseFacts Match Spec MatchFacts Coll CollFacts CollQuery CollSem CollSem2 SpecColl CollHist SpecFiled CollFiled SpecCards.
From Coq Require Import ZifyBool.
Set Implicit Arguments.
Unset Strict Implicit.
Open Scope Z_scope.

Lemma key_eqb_refl k : key_eqb k k = true.
Proof. destruct k; simpl; [apply pstr_eqb_refl | apply Z.eqb_refl]. Qed.
Lemma key_eqb_eq a b : key_eqb a b = true <-> a = b.
Proof.
  split; [|intros ->; apply key_eqb_refl]. destruct a, b; simpl; try discriminate.
  - intro H. apply pstr_eqb_eq in H. congruence.
  - intro H. f_equal. lia.
Qed.

(** ** Pages *)
Lemma page_app k a b : page k (a ++ b) = page k a ++ page k b.
Proof. unfold page. rewrite filter_app, map_app. reflexivity. Qed.
Lemma page_cards {K} `{Eqb K} (inj : K -> key) (m : mtch) (ks : list K) k :
  (forall a b, key_eqb (inj a) (inj b) = eqb a b) ->
  page (inj k) (map (fun k => (k, m)) (map inj ks)) = repeat m (countb (eqb k) ks).
Proof.
  intro Hi. induction ks as [|k0 ks IH]; [reflexivity|]. rewrite countb_cons. unfold page in *. cbn [map filter fst].
  rewrite Hi. destruct (eqb k k0); simpl; rewrite IH; reflexivity.
Qed.
Lemma page_remove k m cs :
  match remove_first (fun c => key_eqb k (fst c) && meq m (snd c)) cs with
  | Some cs' => remove_first (meq m) (page k cs) = Some (page k cs') /\ forall k', k' <> k -> page k' cs' = page k' cs
  | None => remove_first (meq m) (page k cs) = None
  end.
Proof.
  induction cs as [|[k0 x] cs IH]; [reflexivity|]. cbn [remove_first fst snd].
  destruct (key_eqb k k0) eqn:Ek; cbn [andb].
  - apply key_eqb_eq in Ek. subst k0. destruct (meq m x) eqn:Em.
    + split.
      * unfold page. cbn [filter fst]. rewrite key_eqb_refl. cbn [map snd remove_first]. rewrite Em. reflexivity.
      * intros k' Hk. unfold page. cbn [filter fst]. destruct (key_eqb k' k) eqn:E; [apply key_eqb_eq in E; contradiction | reflexivity].
    + destruct (remove_first _ cs) as [cs'|].
      * destruct IH as [I1 I2]. split.
        -- unfold page in *. cbn [filter fst]. rewrite key_eqb_refl. cbn [map snd remove_first]. rewrite Em, I1. reflexivity.
        -- intros k' Hk. specialize (I2 k' Hk). unfold page in *. cbn [filter fst]. destruct (key_eqb k' k); cbn [map]; rewrite I2; reflexivity.
      * unfold page in *. cbn [filter fst]. rewrite key_eqb_refl. cbn [map snd remove_first]. rewrite Em, IH. reflexivity.
  - destruct (remove_first _ cs) as [cs'|].
    + destruct IH as [I1 I2]. split.
      * unfold page in *. cbn [filter fst]. rewrite Ek. exact I1.
      * intros k' Hk. specialize (I2 k' Hk). unfold page in *. cbn [filter fst]. destruct (key_eqb k' k0); cbn [map]; rewrite I2; reflexivity.
    + unfold page in *. cbn [filter fst]. rewrite Ek. exact IH.
Qed.

(** ** One dictionary, one index *)
Definition like {K} `{Eqb K} (inj : K -> key) (od : option (mdict K)) (oc : option cards) : Prop :=
  match od, oc with
  | Some d, Some cs => forall k, dget d k = page (inj k) cs
  | None, None => True
  | _, _ => False
  end.
Lemma like_push {K} `{Eqb K} (inj : K -> key) od oc ks m :
  (forall a b, key_eqb (inj a) (inj b) = eqb a b) ->
  like inj od oc -> like inj (push_all ks m od) (option_map (fun cs => cs ++ map (fun k => (k, m)) (map inj ks)) oc).
Proof.
  intros Hi. destruct od as [d|], oc as [cs|]; simpl; try tauto. intros Hd k.
  rewrite dget_fold_push, page_app, Hd, (page_cards _ _ _ Hi). reflexivity.
Qed.
Lemma like_remove {K} `{Eqb K} (inj : K -> key) ks m :
  (forall a b, key_eqb (inj a) (inj b) = eqb a b) ->
  forall d cs, like inj (Some d) (Some cs) ->
  forall d' r cs' ok, remove_keys ks m d = (d', r) -> strike (map inj ks) m cs = (cs', ok) ->
  like inj (Some d') (Some cs') /\ r = if ok then Ok tt else Err ValueError.
Proof.
  intros Hi. induction ks as [|k0 ks IH]; intros d cs Hd d' r cs' ok; cbn [remove_keys map strike].
  - intros E1 E2. injection E1 as <- <-. injection E2 as <- <-. auto.
  - pose proof (page_remove (inj k0) m cs) as P. destruct (remove_first (fun c => _) cs) as [cs1|].
    + destruct P as [P1 P2]. rewrite <- Hd in P1. rewrite P1. apply IH. intro k. rewrite dget_dset.
      eqb_cases k k0; [subst; reflexivity|]. rewrite Hd, P2; [reflexivity|]. intro Eki.
      assert (key_eqb (inj k) (inj k0) = true) as E' by (apply key_eqb_eq; exact Eki). rewrite Hi in E'. apply eqb_eq in E'. contradiction.
    + rewrite <- Hd in P. rewrite P. intros E1 E2. injection E1 as <- <-. injection E2 as <- <-.
      split; [|reflexivity]. intro k. rewrite dget_dtouch. apply Hd.
Qed.
Lemma page_all {K} `{Eqb K} (inj : K -> key) (ks : mtch -> list K) f l k :
  (forall a b, key_eqb (inj a) (inj b) = eqb a b) -> (forall m, keys f m = map inj (ks m)) ->
  page (inj k) (all_cards f l) = occ ks k l.
Proof.
  intros Hi Hk. induction l as [|m l IH]; [reflexivity|]. unfold all_cards in *. cbn [flat_map]. rewrite page_app, occ_cons, IH.
  unfold cards_of at 1. rewrite Hk, (page_cards _ _ _ Hi). reflexivity.
Qed.

Lemma text_inj a b : key_eqb (KText a) (KText b) = eqb a b.
Proof. reflexivity. Qed.
Lemma pos_inj a b : key_eqb (KPos a) (KPos b) = eqb a b.
Proof. reflexivity. Qed.
Lemma keys_name m : keys ByName m = map KText (name_keys m).
Proof. unfold keys, name_keys. destruct (m_name m) as [[|]|]; reflexivity. Qed.

(** ** Five of them *)
Definition like1 (f : family) (c : coll) (oc : option cards) : Prop :=
  match f with
  | ByName => like KText (c_named c) oc
  | ByTag => like KText (c_tagged c) oc
  | ByStart => like KPos (c_starting c) oc
  | ByEnd => like KPos (c_ending c) oc
  | ByIndex => like KPos (c_indexed c) oc
  end.
Definition sims (c : coll) (ix : family -> option cards) : Prop := forall f, like1 f c (ix f).
Definition sim (k : kind) (c : coll) (s : world) : Prop := c_kind c = k /\ c_del c = members s /\ sims c (index s).

Lemma sims_ext c ix ix' : sims c ix -> (forall f, ix' f = ix f) -> sims c ix'.
Proof. intros H E f. rewrite E. apply H. Qed.
Lemma sims_with_del c l ix : sims c ix -> sims (with_del c l) ix.
Proof. intros H f. specialize (H f). destruct f; exact H. Qed.
Lemma sim_put k c l s : sim k c s -> sim k (with_del c l) (put s l).
Proof. intros (H1 & H2 & H3). split; [exact H1|]. split; [reflexivity|]. apply sims_with_del, H3. Qed.

Lemma sim_comes k c s m : sim k c s ->
  exists s', comes k m s s' (match snd (add_match c m) with Ok _ => RUnit | Err e => RErr e end) /\ sim k (fst (add_match c m)) s'.
Proof.
  intros (H1 & H2 & H3). unfold add_match. rewrite H1. destruct (accepts k m) eqn:E.
  - exists (World (members s) (fun f => option_map (fun cs => cs ++ cards_of f m) (index s f))). split.
    + split; [reflexivity|]. rewrite E. split; [reflexivity|]. intro f. reflexivity.
    + split; [reflexivity|]. split; [exact H2|]. intro f. specialize (H3 f). unfold cards_of. cbn [index].
      destruct f; cbn [like1 c_named c_tagged c_starting c_ending c_indexed fst] in *.
      * rewrite keys_name. apply like_push; [exact text_inj | exact H3].
      * apply like_push; [exact text_inj | exact H3].
      * apply (@like_push _ _ KPos _ _ (start_keys m) m); [exact pos_inj | exact H3].
      * apply (@like_push _ _ KPos _ _ (end_keys m) m); [exact pos_inj | exact H3].
      * apply like_push; [exact pos_inj | exact H3].
  - exists s. split.
    + split; [reflexivity|]. rewrite E. split; [reflexivity|]. intro; reflexivity.
    + split; [exact H1|]. split; assumption.
Qed.

(** ** Removal, index by index *)
Definition rem1 (f : family) (m : mtch) (c : coll) : coll * res unit :=
  match f with
  | ByName => let '(d, r) := remove_all (name_keys m) m (c_named c) in (with_named c d, r)
  | ByTag => let '(d, r) := remove_all (tag_keys m) m (c_tagged c) in (with_tagged c d, r)
  | ByStart => let '(d, r) := remove_all (start_keys m) m (c_starting c) in (with_starting c d, r)
  | ByEnd => let '(d, r) := remove_all (end_keys m) m (c_ending c) in (with_ending c d, r)
  | ByIndex => let '(d, r) := remove_all (index_keys m) m (c_indexed c) in (with_indexed c d, r)
  end.
Fixpoint rems (m : mtch) (fs : list family) (c : coll) : coll * res unit :=
  match fs with
  | [] => (c, Ok tt)
  | f :: r => let '(c', o) := rem1 f m c in match o with Ok _ => rems m r c' | Err e => (c', Err e) end
  end.
Lemma remove_match_rems c m :
  remove_match c m = let '(c', r) := rems m [ByName; ByTag; ByStart; ByEnd; ByIndex] c in
                     match r with Ok _ => (shrink_maxend c' m, Ok tt) | Err e => (c', Err e) end.
Proof.
  unfold remove_match. cbn [rems rem1].
  repeat match goal with |- context [let '(_, _) := ?x in _] => destruct x as [? [|]]; try reflexivity end.
Qed.
Lemma rem1_like f m c oc : like1 f c oc ->
  forall c' r, rem1 f m c = (c', r) ->
  c_kind c' = c_kind c /\ c_del c' = c_del c
  /\ (forall g, g <> f -> forall x, like1 g c x -> like1 g c' x)
  /\ match oc with
     | None => like1 f c' None /\ r = Ok tt
     | Some cs => let '(cs', ok) := strike (keys f m) m cs in like1 f c' (Some cs') /\ r = if ok then Ok tt else Err ValueError
     end.
Proof.
  intros H c' r E.
  assert (forall g, g <> f -> forall x, like1 g c x -> like1 g c' x) as Ho.
  { intros g Hg x Hx. destruct f; cbn [rem1] in E; destruct (remove_all _ _ _) as [d r0]; injection E as <- <-;
      destruct g; try (exfalso; apply Hg; reflexivity); exact Hx. }
  assert (c_kind c' = c_kind c /\ c_del c' = c_del c) as (Hk & Hd).
  { destruct f; cbn [rem1] in E; destruct (remove_all _ _ _) as [d r0]; injection E as <- <-; split; reflexivity. }
  split; [exact Hk|]. split; [exact Hd|]. split; [exact Ho|].
  destruct f; cbn [rem1] in E.
  - cbn [like1] in H. rewrite keys_name. unfold remove_all in E. destruct (c_named c) as [d|], oc as [cs|]; try contradiction.
    + destruct (remove_keys (name_keys m) m d) as [d' r'] eqn:Er, (strike _ m cs) as [cs' ok] eqn:Es.
      injection E as <- <-. apply (like_remove text_inj H Er Es).
    + injection E as <- <-. split; [exact I | reflexivity].
  - cbn [like1] in H. cbn [keys]. unfold remove_all in E. destruct (c_tagged c) as [d|], oc as [cs|]; try contradiction.
    + destruct (remove_keys (tag_keys m) m d) as [d' r'] eqn:Er, (strike _ m cs) as [cs' ok] eqn:Es.
      injection E as <- <-. apply (like_remove text_inj H Er Es).
    + injection E as <- <-. split; [exact I | reflexivity].
  - cbn [like1] in H. unfold remove_all in E. destruct (c_starting c) as [d|], oc as [cs|]; try contradiction.
    + destruct (remove_keys (start_keys m) m d) as [d' r'] eqn:Er, (strike _ m cs) as [cs' ok] eqn:Es.
      injection E as <- <-. apply (like_remove pos_inj H Er Es).
    + injection E as <- <-. split; [exact I | reflexivity].
  - cbn [like1] in H. unfold remove_all in E. destruct (c_ending c) as [d|], oc as [cs|]; try contradiction.
    + destruct (remove_keys (end_keys m) m d) as [d' r'] eqn:Er, (strike _ m cs) as [cs' ok] eqn:Es.
      injection E as <- <-. apply (like_remove pos_inj H Er Es).
    + injection E as <- <-. split; [exact I | reflexivity].
  - cbn [like1] in H. cbn [keys]. unfold remove_all in E. destruct (c_indexed c) as [d|], oc as [cs|]; try contradiction.
    + destruct (remove_keys (index_keys m) m d) as [d' r'] eqn:Er, (strike _ m cs) as [cs' ok] eqn:Es.
      injection E as <- <-. apply (like_remove pos_inj H Er Es).
    + injection E as <- <-. split; [exact I | reflexivity].
Qed.
Lemma set_index_same ix f cs : set_index ix f cs f = Some cs.
Proof. destruct f; reflexivity. Qed.
Lemma set_index_other ix f cs g : g <> f -> set_index ix f cs g = ix g.
Proof. destruct f, g; intro H; try reflexivity; exfalso; apply H; reflexivity. Qed.
Lemma fam_eq_dec (f g : family) : {f = g} + {f <> g}.
Proof. decide equality. Qed.
Lemma rems_like m fs : forall c ix, sims c ix ->
  forall c' r ix' ok, rems m fs c = (c', r) -> strike_all m fs ix = (ix', ok) ->
  c_kind c' = c_kind c /\ c_del c' = c_del c /\ sims c' ix' /\ r = if ok then Ok tt else Err ValueError.
Proof.
  induction fs as [|f fs IH]; intros c ix H c' r ix' ok; cbn [rems strike_all].
  - intros E1 E2. injection E1 as <- <-. injection E2 as <- <-. auto.
  - destruct (rem1 f m c) as [c1 o] eqn:E1. destruct (rem1_like (H f) E1) as (Hk & Hd & Ho & Hf).
    destruct (ix f) as [cs|] eqn:Ef.
    + destruct (strike (keys f m) m cs) as [cs' ok1]. destruct Hf as [Hf ->].
      assert (sims c1 (set_index ix f cs')) as H1.
      { intro g. destruct (fam_eq_dec g f) as [->|Hg]; [rewrite set_index_same; exact Hf|].
        rewrite set_index_other by exact Hg. apply Ho; [exact Hg | apply H]. }
      destruct ok1.
      * intros E2 E3. destruct (IH _ _ H1 _ _ _ _ E2 E3) as (K1 & K2 & K3 & K4). repeat split; congruence || assumption.
      * intros E2 E3. injection E2 as <- <-. injection E3 as <- <-. auto.
    + destruct Hf as [Hf ->]. intros E2 E3.
      assert (sims c1 ix) as H1.
      { intro g. destruct (fam_eq_dec g f) as [->|Hg]; [rewrite Ef; exact Hf|]. apply Ho; [exact Hg | apply H]. }
      destruct (IH _ _ H1 _ _ _ _ E2 E3) as (K1 & K2 & K3 & K4). repeat split; congruence || assumption.
Qed.

Lemma sim_goes k c s m : sim k c s ->
  exists s', goes m s s' (match snd (remove_match c m) with Ok _ => RUnit | Err e => RErr e end) /\ sim k (fst (remove_match c m)) s'.
Proof.
  intros (H1 & H2 & H3). rewrite remove_match_rems. unfold goes.
  destruct (rems m _ c) as [c1 r] eqn:E1, (strike_all m _ (index s)) as [ix ok] eqn:E2.
  destruct (rems_like H3 E1 E2) as (K1 & K2 & K3 & ->). destruct ok; cbn [fst snd].
  - destruct (shrink_others c1 m) as (S1 & S2 & S3 & S5 & S6).
    assert (c_kind (shrink_maxend c1 m) = k) as Sk.
    { unfold shrink_maxend. destruct (m_end m >=? c_maxend c1); [|congruence]. destruct (dget _ _); simpl; congruence. }
    assert (forall d, c_ending (shrink_maxend c1 m) = d ->
       (d = c_ending c1) \/ (exists d', d = Some d' /\ forall k0, dget d' k0 = dget (ending_dict c1) k0)) as Se.
    { intros d <-. unfold shrink_maxend. destruct (m_end m >=? c_maxend c1); [right | left; reflexivity].
      destruct (dget _ _); cbn [c_ending with_maxend with_ending]; (eexists; split; [reflexivity|]; intro; apply dget_dtouch). }
    specialize (Se _ eq_refl). pose proof (K3 ByEnd) as Ke. cbn [like1] in Ke.
    destruct (c_ending c1) as [d|] eqn:Ec; destruct (ix ByEnd) as [cs|] eqn:Ei; try contradiction.
    + exists (World (members s) ix). split; [split; [reflexivity|]; split; [reflexivity|]; left; intro; reflexivity|].
      split; [exact Sk|]. split; [rewrite S6; cbn [members]; congruence|]. intro f. specialize (K3 f).
      destruct f; cbn [like1 index] in *; try (rewrite ?S1, ?S2, ?S3, ?S5; exact K3).
      rewrite Ei. destruct Se as [-> | (d' & -> & Hd')]; [exact Ke|]. intro k0. rewrite Hd'. unfold ending_dict. rewrite Ec. apply Ke.
    + destruct Se as [Se | (d' & Se & Hd')].
      * exists (World (members s) ix). split; [split; [reflexivity|]; split; [reflexivity|]; left; intro; reflexivity|].
        split; [exact Sk|]. split; [rewrite S6; cbn [members]; congruence|]. intro f. specialize (K3 f).
        destruct f; cbn [like1 index] in *; try (rewrite ?S1, ?S2, ?S3, ?S5; exact K3).
        rewrite Ei, Se. exact I.
      * exists (World (members s) (set_index ix ByEnd (all_cards ByEnd (members s)))).
        split; [split; [reflexivity|]; split; [reflexivity|]; right; split; [reflexivity|]; intro; reflexivity|].
        split; [exact Sk|]. split; [rewrite S6; cbn [members]; congruence|]. intro f. specialize (K3 f).
        destruct f; cbn [like1 index set_index] in *; try (rewrite ?S1, ?S2, ?S3, ?S5; exact K3).
        rewrite Se. intro k0. rewrite Hd'. unfold ending_dict. rewrite Ec.
        rewrite build_ending_get. rewrite (@page_all _ _ KPos end_keys ByEnd _ k0 pos_inj) by reflexivity. rewrite K2, H2. reflexivity.
  - exists (World (members s) ix). split; [split; [reflexivity|]; split; [reflexivity|]; intro; reflexivity|].
    split; [congruence|]. split; [cbn [members]; congruence|]. exact K3.
Qed.

(** ** Several in turn *)
Definition uout (r : res unit) : out := match r with Ok _ => RUnit | Err e => RErr e end.

Lemma sim_same k c s s' : sim k c s -> unchanged s s' -> sim k c s'.
Proof. intros (H1 & H2 & H3) (U1 & U2). split; [exact H1|]. split; [congruence|]. eapply sims_ext; [exact H3 | exact U2]. Qed.
Lemma unchanged_refl s : unchanged s s.
Proof. split; [reflexivity|]. intro; reflexivity. Qed.

(** a loop of the model that does [F a] for each item and stops at the first exception *)
Lemma sim_each {A} k (P : A -> world -> world -> out -> Prop) (F : A -> coll -> coll * res unit) (L : list A -> coll -> coll * res unit) :
  (forall c, L [] c = (c, Ok tt)) ->
  (forall a r c, L (a :: r) c = match F a c with (c', Ok _) => L r c' | (c', Err e) => (c', Err e) end) ->
  (forall a c s, sim k c s -> exists s', P a s s' (uout (snd (F a c))) /\ sim k (fst (F a c)) s') ->
  forall l c s, sim k c s -> exists s', each P l s s' (uout (snd (L l c))) /\ sim k (fst (L l c)) s'.
Proof.
  intros L0 L1 HF. induction l as [|a r IH]; intros c s H.
  - rewrite L0. exists s. split; [|exact H]. cbn [snd uout]. constructor; [reflexivity | intro; reflexivity].
  - rewrite L1. destruct (HF a c s H) as (s1 & HP & H1). destruct (F a c) as [c1 [[]|e]]; cbn [fst snd uout] in *.
    + destruct (IH c1 s1 H1) as (s' & HE & H'). exists s'. split; [|exact H']. econstructor; eassumption.
    + exists s1. split; [|exact H1]. apply each_stop. exact HP.
Qed.

Lemma sim_members k c s : sim k c s -> c_del c = members s.
Proof. intros (_ & H & _). exact H. Qed.

Lemma sim_append k c s m : sim k c s ->
  exists s', comes k m (put s (members s ++ [m])) s' (uout (snd (append c m))) /\ sim k (fst (append c m)) s'.
Proof.
  intro H. unfold append, insert.
  assert (insert_nth (Z.to_nat (py_clip (zlen (c_del c)) (zlen (c_del c)))) m (c_del c) = members s ++ [m]) as ->.
  { rewrite (sim_members H). generalize (members s). intro l. unfold py_clip, zlen.
    replace (Z.to_nat _) with (length l).
    - unfold insert_nth. rewrite firstn_all, skipn_all. reflexivity.
    - destruct (Z.of_nat (length l) <? 0) eqn:E; lia. }
  apply sim_comes, sim_put, H.
Qed.
Lemma sim_insert k c s i m : sim k c s ->
  exists s', comes k m (put s (insert_nth (Z.to_nat (py_clip (zlen (members s)) i)) m (members s))) s' (uout (snd (insert c i m)))
             /\ sim k (fst (insert c i m)) s'.
Proof. intro H. unfold insert. rewrite (sim_members H). apply sim_comes, sim_put, H. Qed.

Lemma sim_delitem k c s i : sim k c s ->
  exists s', match py_pos (members s) i, py_nth (members s) i with
             | Some n, Some x => goes x (put s (remove_nth n (members s))) s' (uout (snd (delitem c i)))
             | _, _ => unchanged s s' /\ uout (snd (delitem c i)) = RErr IndexError
             end /\ sim k (fst (delitem c i)) s'.
Proof.
  intro H. unfold delitem, py_nth. rewrite (sim_members H). destruct (py_pos (members s) i) as [n|].
  - destruct (nth_error (members s) n) as [x|].
    + apply sim_goes, sim_put, H.
    + exists s. split; [split; [apply unchanged_refl | reflexivity] | exact H].
  - exists s. split; [split; [apply unchanged_refl | reflexivity] | exact H].
Qed.

Lemma member_equal_index m l : member_equal m l = match index_of (meq m) l with Some n => nth_error l n | None => None end.
Proof.
  induction l as [|x l IH]; [reflexivity|]. cbn [member_equal index_of]. destruct (meq m x); [reflexivity|].
  rewrite IH. destruct (index_of (meq m) l); reflexivity.
Qed.
Lemma index_of_lt {A} (p : A -> bool) l n : index_of p l = Some n -> (n < length l)%nat.
Proof.
  revert n. induction l as [|x l IH]; intro n; cbn [index_of]; [discriminate|]. destruct (p x).
  - intro E. injection E as <-. simpl. lia.
  - destruct (index_of p l); [|discriminate]. intro E. injection E as <-. specialize (IH _ eq_refl). simpl. lia.
Qed.
Lemma py_pos_nat {A} (l : list A) n : (n < length l)%nat -> py_pos l (Z.of_nat n) = Some n.
Proof.
  intro H. unfold py_pos, zlen. cbv zeta. destruct (Z.of_nat n <? 0) eqn:E1; [lia|].
  destruct ((0 <=? Z.of_nat n) && (Z.of_nat n <? Z.of_nat (length l))) eqn:E2; [f_equal; lia | lia].
Qed.

Lemma sim_remove k c s m : sim k c s ->
  exists s', match member_equal m (members s), remove_first (meq m) (members s) with
             | Some x, Some l' => goes x (put s l') s' (uout (snd (remove c m)))
             | _, _ => unchanged s s' /\ uout (snd (remove c m)) = RErr ValueError
             end /\ sim k (fst (remove c m)) s'.
Proof.
  intro H. unfold remove, seq_index. rewrite (sim_members H), member_equal_index, remove_first_index.
  destruct (index_of (meq m) (members s)) as [n|] eqn:E.
  - pose proof (index_of_lt E) as Hn. pose proof (py_pos_nat Hn) as Hp.
    destruct (sim_delitem (Z.of_nat n) H) as (s' & Hs & H'). exists s'. split; [|exact H'].
    unfold py_nth in Hs. rewrite Hp in Hs. destruct (nth_error (members s) n) eqn:En; [exact Hs|].
    apply nth_error_None in En. lia.
  - exists s. split; [split; [apply unchanged_refl | reflexivity] | exact H].
Qed.
Lemma sim_pop k c s i : sim k c s ->
  exists s', (match py_pos (members s) i, py_nth (members s) i with
             | Some n, Some x => exists r', goes x (put s (remove_nth n (members s))) s' r'
                                 /\ (match snd (pop c i) with Ok m => RMatch m | Err e => RErr e end) = match r' with RUnit => RMatch x | _ => r' end
             | _, _ => unchanged s s' /\ (match snd (pop c i) with Ok m => RMatch m | Err e => RErr e end) = RErr IndexError
             end) /\ sim k (fst (pop c i)) s'.
Proof.
  intro H. unfold pop. destruct (sim_delitem i H) as (s' & Hs & H'). rewrite (sim_members H).
  destruct (py_nth (members s) i) as [x|] eqn:En.
  - exists s'. destruct (delitem c i) as [c' [[]|e]]; cbn [fst snd uout] in *; (split; [|exact H']);
      (destruct (py_pos (members s) i) as [n|] eqn:Ep; [|unfold py_nth in En; rewrite Ep in En; discriminate]);
      (eexists; split; [exact Hs | reflexivity]).
  - exists s. split; [|exact H]. destruct (py_pos (members s) i); split; (apply unchanged_refl || reflexivity).
Qed.

Lemma goes_err m s s' r : goes m s s' r -> r = RUnit \/ r = RErr ValueError.
Proof. intros (_ & H). destruct (strike_all _ _ _) as [ix []]; destruct H as [-> _]; auto. Qed.

Lemma removelast_nth {A} (l : list A) x : remove_nth (length l) (l ++ [x]) = l.
Proof.
  unfold remove_nth. rewrite firstn_app, Nat.sub_diag, firstn_all. cbn [firstn]. rewrite app_nil_r.
  rewrite skipn_all2 by (rewrite app_length; simpl; lia). apply app_nil_r.
Qed.
Lemma removelast_snoc {A} (l : list A) x : removelast (l ++ [x]) = l.
Proof. apply removelast_last. Qed.
Lemma py_pos_last {A} (l : list A) x : py_pos (l ++ [x]) (-1) = Some (length l).
Proof.
  unfold py_pos, zlen. rewrite app_length. cbn [length]. cbv zeta. change (-1 <? 0) with true. cbv iota.
  match goal with |- (if ?b then _ else _) = _ => destruct b eqn:E end; [f_equal; lia | lia].
Qed.
Lemma sim_clear k : forall l c s n, sim k c s -> members s = rev l -> (length l < n)%nat ->
  exists s', each (fun m s s' r => goes m (put s (removelast (members s))) s' r) l s s' (uout (snd (clear_loop n c))) /\ sim k (fst (clear_loop n c)) s'.
Proof.
  induction l as [|x l IH]; intros c s n H E Hn; (destruct n as [|n]; [simpl in Hn; lia|]); cbn [clear_loop].
  - unfold pop. rewrite (sim_members H), E. cbn. exists s. split; [|exact H]. constructor; [reflexivity | intro; reflexivity].
  - cbn [rev] in E. destruct (sim_pop (-1) H) as (s1 & Hs & H1). unfold py_nth in Hs. rewrite E, py_pos_last, nth_error_app2, Nat.sub_diag in Hs by lia.
    cbn [nth_error] in Hs. destruct Hs as (r' & Hg & Hr). rewrite removelast_nth in Hg.
    assert (members s1 = rev l) as E1 by (apply proj1 in Hg; exact Hg).
    destruct (pop c (-1)) as [c1 [y|e]] eqn:Ep; cbn [fst snd] in *.
    + destruct (goes_err Hg) as [-> | ->]; [|discriminate].
      destruct (IH c1 s1 n H1 E1) as (s' & He & H'); [simpl in Hn; lia|]. exists s'. split; [|exact H'].
      econstructor; [|exact He]. rewrite E, removelast_snoc. exact Hg.
    + destruct (goes_err Hg) as [-> | ->]; [discriminate|]. injection Hr as ->. exists s1. split; [|exact H1].
      apply each_stop. rewrite E, removelast_snoc. exact Hg.
Qed.

(** ** reverse *)
Lemma py_nth_nat {A} (l : list A) n : py_nth l (Z.of_nat n) = nth_error l n.
Proof.
  unfold py_nth. destruct (lt_dec n (length l)) as [H|H].
  - rewrite py_pos_nat by exact H. reflexivity.
  - transitivity (@None A); [|symmetry; apply nth_error_None; lia].
    assert (py_pos l (Z.of_nat n) = None) as ->; [|reflexivity].
    unfold py_pos, zlen. cbv zeta. destruct (Z.of_nat n <? 0) eqn:E1; [lia|].
    match goal with |- (if ?b then _ else _) = _ => destruct b eqn:E end; [lia | reflexivity].
Qed.
Lemma replace_length {A} n (x : A) l : (n < length l)%nat -> length (replace_nth n x l) = length l.
Proof. intro H. unfold replace_nth. rewrite app_length, firstn_length. cbn [length]. rewrite skipn_length. lia. Qed.
Lemma sim_setitem k c s i m : sim k c s ->
  exists s', match py_pos (members s) i with
             | Some n => comes k m (put s (replace_nth n m (members s))) s' (uout (snd (setitem c i m)))
             | None => unchanged s s' /\ uout (snd (setitem c i m)) = RErr IndexError
             end /\ sim k (fst (setitem c i m)) s'.
Proof.
  intro H. unfold setitem. rewrite (sim_members H). destruct (py_pos (members s) i) as [n|].
  - apply sim_comes, sim_put, H.
  - exists s. split; [split; [apply unchanged_refl | reflexivity] | exact H].
Qed.
Lemma swap_members k i s s' r : swap_at k i s s' r -> length (members s') = length (members s).
Proof.
  intros (a & b & s1 & r1 & Ea & Eb & (C1 & _) & H2). cbn [members put] in C1.
  assert (i < length (members s))%nat as L1 by (apply nth_error_Some; congruence).
  assert (length (members s) - 1 - i < length (members s))%nat as L2 by lia.
  destruct r1.
  all: try (destruct H2 as (_ & H2 & _); rewrite H2, C1, replace_length by exact L1; reflexivity).
  destruct H2 as (C2 & _). cbn [members put] in C2. rewrite C2, C1.
  rewrite (replace_length (n := length (members s) - 1 - i)) by (rewrite replace_length; lia). apply replace_length, L1.
Qed.
Lemma sim_reverse k N : forall m i c s, sim k c s -> length (members s) = N -> (i + m = Nat.div N 2)%nat ->
  exists s', each (swap_at k) (seq i m) s s' (uout (snd (reverse_loop (Z.of_nat N) (zrange (Z.of_nat i) (Z.of_nat (i + m))) c)))
             /\ sim k (fst (reverse_loop (Z.of_nat N) (zrange (Z.of_nat i) (Z.of_nat (i + m))) c)) s'.
Proof.
  assert (2 * Nat.div N 2 <= N)%nat as HN by (pose proof (Nat.mul_div_le N 2); lia).
  induction m as [|m IH]; intros i c s H E Hi.
  - rewrite zrange_nil by lia. exists s. split; [constructor; [reflexivity | intro; reflexivity] | exact H].
  - rewrite zrange_cons by lia. cbn [seq reverse_loop].
    assert (i < N)%nat as H1 by lia. assert (N - 1 - i < N)%nat as H2 by lia.
    replace (Z.of_nat N - Z.of_nat i - 1) with (Z.of_nat (N - 1 - i)) by lia.
    rewrite !py_nth_nat, (sim_members H).
    destruct (nth_error (members s) (N - 1 - i)) as [a|] eqn:Ea; [|apply nth_error_None in Ea; lia].
    destruct (nth_error (members s) i) as [b|] eqn:Eb; [|apply nth_error_None in Eb; lia].
    destruct (sim_setitem (Z.of_nat i) a H) as (s1 & C1 & S1). rewrite py_pos_nat in C1 by lia.
    destruct (setitem c (Z.of_nat i) a) as [c1 [[]|e]]; cbn [fst snd uout] in *.
    + destruct (sim_setitem (Z.of_nat (N - 1 - i)) b S1) as (s2 & C2 & S2).
      assert (members s1 = replace_nth i a (members s)) as E1 by (apply proj1 in C1; exact C1).
      rewrite py_pos_nat in C2 by (rewrite E1, replace_length; lia).
      assert (forall r, comes k b (put s1 (replace_nth (N - 1 - i) b (members s1))) s2 r -> swap_at k i s s2 r) as Sw.
      { intros r Hr. exists a, b, s1, RUnit. rewrite E. auto. }
      destruct (setitem c1 _ b) as [c2 [[]|e]]; cbn [fst snd uout] in *.
      * specialize (Sw _ C2). pose proof (swap_members Sw) as Em.
        destruct (IH (S i) c2 s2 S2) as (s' & He & H'); [lia | lia|].
        replace (Z.of_nat i + 1) with (Z.of_nat (S i)) by lia. replace (i + S m)%nat with (S i + m)%nat by lia.
        exists s'. split; [econstructor; eassumption | exact H'].
      * exists s2. split; [apply each_stop, Sw, C2 | exact S2].
    + exists s1. split; [|exact S1]. apply each_stop. exists a, b, s1, (RErr e). rewrite E.
      repeat split; auto; try (apply C1).
Qed.

(** ** Lookups *)
Definition dict_of (f : family) (c : coll) (k : key) : list mtch :=
  match f, k with
  | ByName, KText t => dget (named_dict c) t
  | ByTag, KText t => dget (tagged_dict c) t
  | ByStart, KPos i => dget (starting_dict c) i
  | ByEnd, KPos i => dget (ending_dict c) i
  | ByIndex, KPos i => dget (indexed_dict c) i
  | _, _ => []
  end.
Definition keyed (f : family) (k : key) : Prop :=
  match f, k with
  | ByName, KText _ | ByTag, KText _ | ByStart, KPos _ | ByEnd, KPos _ | ByIndex, KPos _ => True
  | _, _ => False
  end.
Lemma unfilled_none f c oc : like1 f c oc -> (unfilled f c <-> oc = None).
Proof.
  destruct f; cbn [like1 unfilled]; unfold like;
    match goal with |- match ?x with _ => _ end -> _ => destruct x, oc end; intuition congruence.
Qed.
Lemma like1_dict f c cs : like1 f c (Some cs) -> forall k, keyed f k -> dict_of f c k = page k cs.
Proof.
  destruct f; cbn [like1]; unfold like, dict_of, named_dict, tagged_dict, starting_dict, ending_dict, indexed_dict;
    match goal with |- match ?x with _ => _ end -> _ => destruct x end; try tauto; intros H []; cbn [keyed]; try tauto; intros _; apply H.
Qed.
Lemma unfilled_dict f c : unfilled f c -> forall k, keyed f k -> dict_of f c k = page k (all_cards f (c_del c)).
Proof.
  destruct f; cbn [unfilled]; unfold dict_of, named_dict, tagged_dict, starting_dict, ending_dict, indexed_dict; intros -> []; cbn [keyed]; try tauto; intros _; symmetry.
  - rewrite build_named_get. apply (page_all _ _ text_inj). apply keys_name.
  - rewrite build_tagged_get. apply (page_all _ _ text_inj). reflexivity.
  - rewrite build_starting_get. apply (page_all (ks := start_keys) _ _ pos_inj). reflexivity.
  - rewrite build_ending_get. apply (page_all (ks := end_keys) _ _ pos_inj). reflexivity.
  - rewrite build_indexed_get. apply (page_all _ _ pos_inj). reflexivity.
Qed.
Lemma filled_like f c cs : ~ unfilled f c -> (forall k, keyed f k -> dict_of f c k = page k cs) -> like1 f c (Some cs).
Proof.
  destruct f; cbn [like1 unfilled]; unfold like, dict_of, named_dict, tagged_dict, starting_dict, ending_dict, indexed_dict;
    match goal with |- ~ ?x = None -> _ => destruct x end; try tauto; intros _ H k;
    (exact (H (KText k) I) || exact (H (KPos k) I)).
Qed.
Lemma obs_dict f c c' : obs c c' -> forall k, dict_of f c' k = dict_of f c k.
Proof. intros (_ & _ & _ & H1 & H2 & H3 & H4 & H5 & _) k. destruct f, k; cbn [dict_of]; auto. Qed.

Lemma sim_lookup k c s o : is_lookup o = true -> sim k c s ->
  exists s', looked_up o s s' /\ sim k (fst (step c o)) s'.
Proof.
  intros Hl (H1 & H2 & H3). pose proof (lookup_obs c Hl) as Ho. pose proof (lookup_grows c Hl) as Hg.
  set (c' := fst (step c o)) in *.
  assert (exists ix, (forall f, like1 f c' (ix f)) /\ forall f,
     match index s f with Some cs => ix f = Some cs
     | None => (ix f = None /\ asks f o = false) \/ (may_need f o = true /\ ix f = Some (all_cards f (members s))) end) as (ix & I1 & I2).
  { assert (forall f, { oc | like1 f c' oc /\ match index s f with Some cs => oc = Some cs
     | None => (oc = None /\ asks f o = false) \/ (may_need f o = true /\ oc = Some (all_cards f (members s))) end}) as G.
    { intro f. specialize (H3 f). destruct (Hg f) as [G1 G2].
      destruct (index s f) as [cs|] eqn:Ei.
      - exists (Some cs). split; [|reflexivity]. apply filled_like.
        + intro U. apply G1 in U. apply (unfilled_none H3) in U. discriminate.
        + intros k0 Hk. rewrite (obs_dict f Ho). apply (like1_dict H3 Hk).
      - assert ({unfilled f c'} + {~ unfilled f c'}) as [U|U].
        { destruct f; cbn [unfilled]; match goal with |- {?x = None} + {_} => destruct x end; (left; reflexivity) || (right; discriminate). }
        + exists None. split.
          * destruct f; cbn [like1 unfilled] in *; rewrite U; exact I.
          * left. split; [reflexivity|]. destruct (asks f o) eqn:Ea; [|reflexivity]. exfalso. exact (@asks_fills f c o Ea U).
        + exists (Some (all_cards f (members s))). split.
          * apply filled_like; [exact U|]. intros k0 Hk. rewrite (obs_dict f Ho), <- H2. apply unfilled_dict; [|exact Hk]. apply (unfilled_none H3). reflexivity.
          * right. split; [|reflexivity]. destruct (may_need f o) eqn:Em; [reflexivity|]. exfalso. apply U. eapply same_unfilled; [apply G2; reflexivity|]. apply (unfilled_none H3). reflexivity. }
    exists (fun f => proj1_sig (G f)). split; intro f; destruct (G f) as (oc & G1 & G2); simpl; assumption. }
  exists (World (members s) ix). split; [split; [reflexivity | exact I2]|].
  destruct Ho as (Od & (Ok1 & _) & _). split; [congruence|]. split; [cbn [members]; congruence|]. exact I1.
Qed.

Lemma reads_dict k c s f k0 : sim k c s -> ~ unfilled f c -> keyed f k0 -> reads s f k0 = dict_of f c k0.
Proof.
  intros (_ & _ & H3) U Hk. specialize (H3 f). unfold reads. destruct (index s f) as [cs|] eqn:E.
  - symmetry. apply (like1_dict H3 Hk).
  - exfalso. apply U. apply (unfilled_none H3). reflexivity.
Qed.
Lemma firsts_dedup ns : firsts_of ns = dedup pstr_eqb ns.
Proof. induction ns as [|n r IH]; simpl; [reflexivity|]. rewrite IH. reflexivity. Qed.

Lemma sim_elementary k c s o ans : is_lookup o = true -> sim k (fst (step c o)) s -> elementary o s = Some ans -> snd (step c o) = RList ans.
Proof.
  intros Hl H E. pose proof (lookup_obs c Hl) as Ho.
  assert (forall f k0, asks f o = true -> keyed f k0 -> reads s f k0 = dict_of f c k0) as R.
  { intros f k0 Ha Hk. rewrite (reads_dict H (@asks_fills f c o Ha) Hk). apply obs_dict, Ho. }
  destruct o; try discriminate; cbn [elementary] in E; injection E as <-.
  - rewrite (lookup_answer c Hl) by reflexivity. cbn [answer]. f_equal. rewrite firsts_dedup.
    destruct ns as [|n0 ns]; [reflexivity|]. unfold vname. apply flat_map_ext. intro n. symmetry. exact (R ByName (KText n) eq_refl I).
  - rewrite (R ByTag) by (exact I || reflexivity). cbn [step q_tagged snd dict_of]. rewrite dget_dtouch. reflexivity.
  - rewrite (R ByStart) by (exact I || reflexivity). cbn [step q_starting snd dict_of]. rewrite dget_dtouch. reflexivity.
  - rewrite (R ByEnd) by (exact I || reflexivity). cbn [step q_ending snd dict_of]. rewrite dget_dtouch. reflexivity.
  - rewrite (R ByIndex) by (exact I || reflexivity). cbn [step q_at_index snd dict_of]. rewrite dget_dtouch. reflexivity.
Qed.

(** ** Every call *)
Lemma unit_out_eq c r : unit_out (c, r) = (c, uout r).
Proof. destruct r as [[]|]; reflexivity. Qed.
Lemma unit_out_fst p : fst (unit_out p) = fst p.
Proof. destruct p as [c [[]|]]; reflexivity. Qed.
Lemma unit_out_snd p : snd (unit_out p) = uout (snd p).
Proof. destruct p as [c [[]|]]; reflexivity. Qed.

Lemma sim_step k c s o : sim k c s -> exists s', does k o s s' (snd (step c o)) /\ sim k (fst (step c o)) s'.
Proof.
  intro H. destruct (is_lookup o) eqn:Hl.
  - destruct (sim_lookup Hl H) as (s' & L & H'). exists s'. split; [|exact H'].
    assert (looked_up o s s' /\ match elementary o s' with Some ans => snd (step c o) = RList ans | None => True end) as G.
    { split; [exact L|]. destruct (elementary o s') eqn:E; [|exact I]. eapply sim_elementary; eassumption. }
    destruct o; try discriminate; exact G.
  - destruct o; try discriminate; cbn [step does]; rewrite ?unit_out_fst, ?unit_out_snd.
    + apply sim_append, H.
    + apply sim_insert, H.
    + apply (@sim_each _ k _ (fun m c => append c m) (fun ms c => extend c ms)); auto.
      intros a c0 s0 H0. apply sim_append, H0.
    + apply sim_remove, H.
    + apply sim_delitem, H.
    + unfold delslice. rewrite (sim_members H).
      apply (@sim_each _ k goes (fun m c => remove_match c m) (fun ms c => remove_matches c ms)); auto.
      * intros a c0 s0 H0. apply sim_goes, H0.
      * apply sim_put, H.
    + destruct (sim_pop i H) as (s' & G & H'). exists s'. destruct (pop c i) as [c' r]. cbn [fst snd] in *. split; [exact G | exact H'].
    + unfold clear. apply sim_clear; [exact H | rewrite rev_involutive; reflexivity | rewrite rev_length, (sim_members H); lia].
    + apply sim_setitem, H.
    + unfold setslice. rewrite (sim_members H). cbn [list_step fst].
      apply (@sim_each _ k (comes k) (fun m c => add_match c m) (fun ms c => add_matches c ms)); auto.
      * intros a c0 s0 H0. apply sim_comes, H0.
      * apply sim_put, H.
    + unfold reverse. rewrite (sim_members H). unfold zlen.
      replace (Z.of_nat (length (members s)) / 2) with (Z.of_nat (0 + Nat.div (length (members s)) 2)).
      2: { rewrite Nat.add_0_l, Nat2Z.inj_div. reflexivity. }
      exact (@sim_reverse k (length (members s)) (Nat.div (length (members s)) 2) 0%nat c s H eq_refl eq_refl).
Qed.

Lemma run_snoc c ops o : run c (ops ++ [o]) = fst (step (run c ops) o).
Proof. unfold run. rewrite fold_left_app. reflexivity. Qed.
