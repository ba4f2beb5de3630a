(** Facts about Coll.v: the lookup dictionaries agree with the sequence. *)
From Verif Require Import Base BaseFacts Match Spec MatchFacts Coll.
From Coq Require Import ZifyBool.
Set Implicit Arguments.
Unset Strict Implicit.
Open Scope Z_scope.

(** What a dictionary with key function [ks] should hold under [k], in sequence order:
    each member once per occurrence of [k] among its keys. *)
Definition occ {K} `{Eqb K} (ks : mtch -> list K) (k : K) (l : list mtch) : list mtch :=
  flat_map (fun m => repeat m (countb (eqb k) (ks m))) l.

Section Occ.
  Context {K : Type} `{Eqb K} (ks : mtch -> list K).
  Lemma occ_nil k : occ ks k [] = [].
  Proof. reflexivity. Qed.
  Lemma occ_cons k m l : occ ks k (m :: l) = repeat m (countb (eqb k) (ks m)) ++ occ ks k l.
  Proof. reflexivity. Qed.
  Lemma occ_app k l r : occ ks k (l ++ r) = occ ks k l ++ occ ks k r.
  Proof. unfold occ. apply flat_map_app. Qed.
  Lemma occ_perm k l r : Permutation l r -> Permutation (occ ks k l) (occ ks k r).
  Proof. intro Hp. unfold occ. apply Permutation_flat_map. exact Hp. Qed.
  Lemma occ_In k l m : In m (occ ks k l) <-> In m l /\ In k (ks m).
  Proof.
    unfold occ. rewrite in_flat_map. split.
    - intros (x & Hx & Hm). assert (m = x) as -> by (eapply repeat_spec; exact Hm). split; [exact Hx|].
      unfold countb in Hm. destruct (filter (eqb k) (ks x)) as [|y t] eqn:E; [destruct Hm|].
      assert (In y (filter (eqb k) (ks x))) as Hy by (rewrite E; left; reflexivity).
      apply filter_In in Hy as [Hy Ey]. apply eqb_eq in Ey. subst. exact Hy.
    - intros [Hm Hk]. exists m. split; [exact Hm|].
      assert (In k (filter (eqb k) (ks m))) as Hin by (apply filter_In; split; [exact Hk | apply eqb_refl]).
      unfold countb. destruct (filter (eqb k) (ks m)) as [|y t]; [destruct Hin|]. left; reflexivity.
  Qed.
  Lemma occ_filter k l : (forall m, In m l -> NoDup (ks m)) ->
    occ ks k l = filter (fun m => existsb (eqb k) (ks m)) l.
  Proof.
    intro Hn. induction l as [|m l IH]; simpl; [reflexivity|].
    rewrite countb_NoDup by (apply Hn; left; reflexivity). rewrite IH by (intros; apply Hn; right; assumption).
    destruct (existsb (eqb k) (ks m)); reflexivity.
  Qed.
End Occ.

Lemma map_repeat {A B} (f : A -> B) x n : map f (repeat x n) = repeat (f x) n.
Proof. induction n; simpl; congruence. Qed.

(** ** One dictionary *)
Definition dict_ok {K} `{Eqb K} (ks : mtch -> list K) (d : mdict K) (l : list mtch) : Prop :=
  forall k, Permutation (map mkey (dget d k)) (map mkey (occ ks k l)).

(** A built dictionary reflects the members plus some ghosts (replaced matches), all of
    which satisfy [P]; with [P] false everywhere there is none. *)
Definition odict_ok {K} `{Eqb K} (P : mtch -> Prop) (ks : mtch -> list K) (od : option (mdict K)) (l : list mtch) : Prop :=
  match od with
  | None => True
  | Some d => exists g, Forall P g /\ dict_ok ks d (g ++ l)
  end.

Section OneDict.
  Context {K : Type} `{Eqb K} (P : mtch -> Prop) (ks : mtch -> list K).

  Lemma dict_ok_perm d l l' : Permutation l l' -> dict_ok ks d l -> dict_ok ks d l'.
  Proof. intros Hp Hd k. rewrite (Hd k). apply Permutation_map, occ_perm, Hp. Qed.

  Lemma dict_ok_push d l m : dict_ok ks d l ->
    dict_ok ks (fold_left (fun d k => dpush d k m) (ks m) d) (m :: l).
  Proof.
    intros Hd k. rewrite dget_fold_push, occ_cons, !map_app. rewrite (Hd k). apply Permutation_app_comm.
  Qed.

  Lemma odict_ok_perm od l l' : Permutation l l' -> odict_ok P ks od l -> odict_ok P ks od l'.
  Proof.
    destruct od as [d|]; simpl; [|auto]. intros Hp (g & Hg & Hd). exists g. split; [exact Hg|].
    eapply dict_ok_perm; [|exact Hd]. apply Permutation_app_head, Hp.
  Qed.

  Lemma odict_ok_push od l m : odict_ok P ks od l -> odict_ok P ks (push_all (ks m) m od) (m :: l).
  Proof.
    destruct od as [d|]; simpl; [|auto]. intros (g & Hg & Hd). exists g. split; [exact Hg|].
    eapply dict_ok_perm; [|apply dict_ok_push; exact Hd]. apply Permutation_middle.
  Qed.

  (** a member becomes a ghost *)
  Lemma odict_ok_ghost od l m : P m -> odict_ok P ks od (m :: l) -> odict_ok P ks od l.
  Proof.
    destruct od as [d|]; simpl; [|auto]. intros Hm (g & Hg & Hd). exists (m :: g).
    split; [constructor; assumption|]. eapply dict_ok_perm; [|exact Hd].
    symmetry. apply Permutation_middle.
  Qed.
End OneDict.

Lemma remove_first_perm m l R :
  Permutation (map mkey l) (mkey m :: R) ->
  exists l', remove_first (meq m) l = Some l' /\ Permutation (map mkey l') R.
Proof.
  intro Hp. destruct (remove_first (meq m) l) as [l'|] eqn:E.
  - exists l'. split; [reflexivity|]. apply remove_first_Some in E as (a & x & b & -> & Hx & _ & ->).
    apply meq_mkey in Hx. rewrite map_app in Hp. simpl in Hp. rewrite <- Hx in Hp.
    rewrite map_app. symmetry in Hp. apply Permutation_cons_app_inv in Hp. symmetry; exact Hp.
  - exfalso. assert (In (mkey m) (map mkey l)) as Hin.
    { eapply Permutation_in; [symmetry; exact Hp | left; reflexivity]. }
    apply in_map_iff in Hin as (x & Hx & Hl). eapply remove_first_None in E; [|exact Hl].
    apply meq_false_mkey in E. congruence.
Qed.

Section RemoveKeys.
  Context {K : Type} `{Eqb K}.
  Lemma remove_keys_ok (keys : list K) m : forall (d : mdict K) R,
    (forall k, Permutation (map mkey (dget d k)) (repeat (mkey m) (countb (eqb k) keys) ++ R k)) ->
    exists d', remove_keys keys m d = (d', Ok tt)
      /\ (forall k, Permutation (map mkey (dget d' k)) (R k))
      /\ (forall k, In k (dkeys d') <-> In k (dkeys d)).
  Proof.
    induction keys as [|k0 keys IH]; intros d R Hd; simpl.
    - exists d. split; [reflexivity|]. split; [exact Hd | tauto].
    - destruct (@remove_first_perm m (dget d k0) (repeat (mkey m) (countb (eqb k0) keys) ++ R k0)) as (l & El & Hl).
      { rewrite (Hd k0), countb_cons, eqb_refl. reflexivity. }
      rewrite El. destruct (IH (dset d k0 l) R) as (d' & E & Hd' & Hk').
      { intro k. rewrite dget_dset. specialize (Hd k). rewrite countb_cons in Hd.
        destruct (eqb k k0) eqn:Ek; [apply eqb_eq in Ek; subst; exact Hl | exact Hd]. }
      exists d'. split; [exact E|]. split; [exact Hd'|].
      intro k. rewrite Hk', dkeys_dset_In. split; [|tauto]. intros [->|Hk]; [|exact Hk].
      apply dget_In_keys. intro En. rewrite En in El. discriminate.
  Qed.

  Lemma odict_remove P (ks : mtch -> list K) od m l :
    odict_ok P ks od (m :: l) ->
    exists od', remove_all (ks m) m od = (od', Ok tt) /\ odict_ok P ks od' l
      /\ match od with None => od' = None | Some d => exists d', od' = Some d' /\ forall k, In k (dkeys d') <-> In k (dkeys d) end.
  Proof.
    destruct od as [d|]; simpl.
    - intros (g & Hg & Hd). destruct (@remove_keys_ok (ks m) m d (fun k => map mkey (occ ks k (g ++ l)))) as (d' & E & Hd' & Hk').
      { intro k. rewrite (Hd k), !occ_app, occ_cons, !map_app, map_repeat.
        rewrite !app_assoc. apply Permutation_app_tail, Permutation_app_comm. }
      rewrite E. exists (Some d'). split; [reflexivity|]. split.
      + exists g. split; [exact Hg | exact Hd'].
      + exists d'. split; [reflexivity | exact Hk'].
    - intros _. exists None. repeat split.
  Qed.
End RemoveKeys.

(** ** Lazy construction yields the members, in sequence order *)
Lemma build_by_push {K} `{Eqb K} (ks : mtch -> list K) l : forall d k,
  dget (fold_left (fun d m => fold_left (fun d t => dpush d t m) (ks m) d) l d) k = dget d k ++ occ ks k l.
Proof.
  induction l as [|m l IH]; intros d k; simpl; [rewrite app_nil_r; reflexivity|].
  rewrite IH, dget_fold_push, <- app_assoc. reflexivity.
Qed.

Lemma build_tagged_get l k : dget (build_tagged l) k = occ tag_keys k l.
Proof. unfold build_tagged. rewrite build_by_push. reflexivity. Qed.
Lemma build_indexed_get l k : dget (build_indexed l) k = occ index_keys k l.
Proof. unfold build_indexed. rewrite build_by_push. reflexivity. Qed.

Lemma occ_single {K} `{Eqb K} (key : mtch -> K) l k :
  occ (fun m => [key m]) k l = filter (fun m => eqb k (key m)) l.
Proof.
  rewrite occ_filter.
  - apply filter_ext. intro; simpl; rewrite orb_false_r; reflexivity.
  - intros; repeat constructor; simpl; tauto.
Qed.

Lemma build_starting_get l k : dget (build_starting l) k = occ start_keys k l.
Proof.
  unfold build_starting. rewrite dget_fold_extend, pick_groupby. simpl.
  unfold start_keys. rewrite occ_single. reflexivity.
Qed.
Lemma build_ending_get l k : dget (build_ending l) k = occ end_keys k l.
Proof.
  unfold build_ending. rewrite dget_fold_extend, pick_groupby. simpl.
  unfold end_keys. rewrite occ_single. reflexivity.
Qed.

Lemma fold_named_get gs : forall (d : mdict pstr) k,
  dget (fold_left (fun d (g : option pstr * list mtch) => match fst g with Some n => dextend d n (snd g) | None => d end) gs d) k
  = dget d k ++ pick (Some k) gs.
Proof.
  induction gs as [|[k0 g] gs IH]; intros d k; simpl; [rewrite app_nil_r; reflexivity|].
  destruct k0 as [n|]; rewrite IH.
  - rewrite dget_dextend, <- app_assoc. reflexivity.
  - reflexivity.
Qed.

Lemma name_keys_NoDup m : NoDup (name_keys m).
Proof. unfold name_keys. destruct (m_name m) as [[|]|]; repeat constructor; simpl; tauto. Qed.

Lemma build_named_get l k : dget (build_named l) k = occ name_keys k l.
Proof.
  unfold build_named. rewrite fold_named_get, pick_groupby, filter_filter. simpl.
  rewrite occ_filter by (intros; apply name_keys_NoDup). apply filter_ext. intro m.
  unfold name_keys. destruct (m_name m) as [[|c r]|]; simpl; try reflexivity.
  rewrite orb_false_r. reflexivity.
Qed.

Lemma build_ending_keys l k : In k (dkeys (build_ending l)) <-> exists m, In m l /\ m_end m = k.
Proof. unfold build_ending. rewrite dkeys_fold_extend, groupby_keys. simpl. tauto. Qed.
Lemma build_named_keys l k : In k (dkeys (build_named l)) <-> exists m, In m l /\ m_name m = Some k /\ k <> [].
Proof.
  unfold build_named.
  assert (forall gs (d : mdict pstr), In k (dkeys (fold_left (fun d (g : option pstr * list mtch) => match fst g with Some n => dextend d n (snd g) | None => d end) gs d))
     <-> In (Some k) (map fst gs) \/ In k (dkeys d)) as G.
  { induction gs as [|[k0 g] gs IH]; intro d; simpl; [tauto|].
    rewrite IH. destruct k0 as [n|]; simpl.
    - unfold dextend. rewrite dkeys_dset_In. intuition congruence.
    - intuition congruence. }
  rewrite G, groupby_keys. simpl. split.
  - intros [(m & Hm & E)|[]]. apply filter_In in Hm as [Hm Hf]. exists m. repeat split; auto.
    unfold name_keys in Hf. rewrite E in Hf. destruct k; [discriminate|]. discriminate.
  - intros (m & Hm & E & Hk). left. exists m. split; [|exact E]. apply filter_In. split; [exact Hm|].
    unfold name_keys. rewrite E. destruct k; [congruence | reflexivity].
Qed.
Lemma build_by_push_keys {K} `{Eqb K} (ks : mtch -> list K) l : forall (d : mdict K) k,
  In k (dkeys (fold_left (fun d m => fold_left (fun d t => dpush d t m) (ks m) d) l d))
  <-> (exists m, In m l /\ In k (ks m)) \/ In k (dkeys d).
Proof.
  induction l as [|m l IH]; intros d k; simpl; [firstorder|].
  rewrite IH, dkeys_fold_push. firstorder congruence.
Qed.
Lemma build_tagged_keys l k : In k (dkeys (build_tagged l)) <-> exists m, In m l /\ In k (m_tags m).
Proof. unfold build_tagged. rewrite build_by_push_keys. simpl. unfold tag_keys. tauto. Qed.

(** ** The whole collection *)
Definition Dok (P : mtch -> Prop) (c : coll) (l : list mtch) : Prop :=
  odict_ok P name_keys (c_named c) l /\ odict_ok P tag_keys (c_tagged c) l
  /\ odict_ok P start_keys (c_starting c) l /\ odict_ok P end_keys (c_ending c) l
  /\ odict_ok P index_keys (c_indexed c) l.

Definition Mok (c : coll) (l : list mtch) : Prop :=
  0 <= c_maxend c /\ forall m, In m l -> m_end m <= c_maxend c.

(** The invariant: every dictionary reflects the sequence (plus ghosts), the cached
    maximum is an upper bound, every member is acceptable. *)
Definition Inv (P : mtch -> Prop) (c : coll) : Prop :=
  Dok P c (c_del c) /\ Mok c (c_del c) /\ Forall (fun m => accepts (c_kind c) m = true) (c_del c).

Definition same_env (c c' : coll) : Prop := c_kind c' = c_kind c /\ c_input c' = c_input c.
Lemma same_env_refl c : same_env c c. Proof. split; reflexivity. Qed.
Lemma same_env_trans a b c : same_env a b -> same_env b c -> same_env a c.
Proof. unfold same_env; intuition congruence. Qed.

Lemma Dok_perm P c l l' : Permutation l l' -> Dok P c l -> Dok P c l'.
Proof. intros Hp (? & ? & ? & ? & ?). repeat split; eapply odict_ok_perm; eauto. Qed.
Lemma Dok_del P c l d : Dok P c l <-> Dok P (with_del c d) l.
Proof. reflexivity. Qed.
Lemma Mok_perm c l l' : Permutation l l' -> Mok c l -> Mok c l'.
Proof. intros Hp [? Hm]. split; [assumption|]. intros m Hin. apply Hm. eapply Permutation_in; [symmetry|]; eauto. Qed.

Lemma Inv_empty P k i : Inv P (empty_coll k i).
Proof. split; [repeat split|]. split; [split; simpl; [lia|tauto] | constructor]. Qed.

Lemma add_match_ok P c m l : accepts (c_kind c) m = true -> Dok P c l -> Mok c l ->
  exists c', add_match c m = (c', Ok tt) /\ Dok P c' (m :: l) /\ Mok c' (m :: l) /\ c_del c' = c_del c /\ same_env c c'
    /\ c_maxend c <= c_maxend c' /\ (c_ending c <> None -> c_ending c' <> None).
Proof.
  intros Ha (D1 & D2 & D3 & D4 & D5) [M0 M]. unfold add_match. rewrite Ha. eexists. split; [reflexivity|]. split.
  - repeat split; simpl; apply odict_ok_push; assumption.
  - split; [split; simpl; [lia|]; intros x [<-|Hx]; [lia|]; specialize (M x Hx); lia|].
    split; [reflexivity|]. split; [split; reflexivity|]. split; [simpl; lia|].
    simpl. destruct (c_ending c); simpl; congruence.
Qed.

Lemma zmax_list_ge l x : In x l -> x <= zmax_list l.
Proof.
  assert (forall r a, a <= fold_left Z.max r a) as G.
  { induction r as [|y r IH]; intro a; simpl; [lia|]. specialize (IH (Z.max a y)). lia. }
  assert (forall r a y, In y r -> y <= fold_left Z.max r a) as G2.
  { induction r as [|z r IH]; intros a y; simpl; [tauto|]. intros [->|Hy]; [|apply IH; exact Hy].
    specialize (G r (Z.max a y)). lia. }
  destruct l as [|a r]; simpl; [tauto|]. intros [->|Hx]; [apply G | apply G2, Hx].
Qed.

Lemma dict_ok_In_key {K} `{Eqb K} (ks : mtch -> list K) d l m k :
  dict_ok ks d l -> In m l -> In k (ks m) -> In k (dkeys d).
Proof.
  intros Hd Hm Hk. apply dget_In_keys. intro En. specialize (Hd k). rewrite En in Hd.
  apply Permutation_nil in Hd. assert (In m (occ ks k l)) as Hin by (apply occ_In; auto).
  apply (in_map mkey) in Hin. rewrite Hd in Hin. destruct Hin.
Qed.

(** The dictionaries as seen through the lazy accessors. *)
Lemma named_dict_ok P c : Dok P c (c_del c) -> exists g, Forall P g /\ dict_ok name_keys (named_dict c) (g ++ c_del c).
Proof.
  intros (D & _). unfold named_dict. destruct (c_named c); [exact D|]. exists []. split; [constructor|].
  intro k. rewrite build_named_get. reflexivity.
Qed.
Lemma tagged_dict_ok P c : Dok P c (c_del c) -> exists g, Forall P g /\ dict_ok tag_keys (tagged_dict c) (g ++ c_del c).
Proof.
  intros (_ & D & _). unfold tagged_dict. destruct (c_tagged c); [exact D|]. exists []. split; [constructor|].
  intro k. rewrite build_tagged_get. reflexivity.
Qed.
Lemma starting_dict_ok P c : Dok P c (c_del c) -> exists g, Forall P g /\ dict_ok start_keys (starting_dict c) (g ++ c_del c).
Proof.
  intros (_ & _ & D & _). unfold starting_dict. destruct (c_starting c); [exact D|]. exists []. split; [constructor|].
  intro k. rewrite build_starting_get. reflexivity.
Qed.
Lemma ending_dict_ok P c l : odict_ok P end_keys (c_ending c) l -> (c_ending c = None -> Permutation (c_del c) l) ->
  exists g, Forall P g /\ dict_ok end_keys (ending_dict c) (g ++ l).
Proof.
  intros D Hl. unfold ending_dict. destruct (c_ending c); [exact D|]. exists []. split; [constructor|].
  eapply dict_ok_perm; [apply Hl; reflexivity|].
  intro k. rewrite build_ending_get. reflexivity.
Qed.
Lemma indexed_dict_ok P c : Dok P c (c_del c) -> exists g, Forall P g /\ dict_ok index_keys (indexed_dict c) (g ++ c_del c).
Proof.
  intros (_ & _ & _ & _ & D). unfold indexed_dict. destruct (c_indexed c); [exact D|]. exists []. split; [constructor|].
  intro k. rewrite build_indexed_get. reflexivity.
Qed.

Lemma dict_ok_dtouch {K} `{Eqb K} (ks : mtch -> list K) d l k : dict_ok ks d l -> dict_ok ks (dtouch d k) l.
Proof. intros Hd k'. rewrite dget_dtouch. apply Hd. Qed.

Lemma shrink_ok P c m l :
  Dok P c l -> Mok c l -> (c_ending c = None -> c_maxend c <= m_end m -> Permutation (c_del c) l) ->
  Dok P (shrink_maxend c m) l /\ Mok (shrink_maxend c m) l /\ c_del (shrink_maxend c m) = c_del c
  /\ same_env c (shrink_maxend c m) /\ c_maxend c <= c_maxend (shrink_maxend c m)
  /\ (c_ending c <> None -> c_ending (shrink_maxend c m) <> None).
Proof.
  intros (D1 & D2 & D3 & D4 & D5) [M0 M] Hl. unfold shrink_maxend.
  destruct (Z.geb_spec (m_end m) (c_maxend c)) as [Hge|Hlt].
  2: { repeat split; auto; lia. }
  destruct (@ending_dict_ok P c l D4 (fun E => Hl E Hge)) as (g & Hg & Hd).
  pose proof (@dict_ok_dtouch _ _ _ _ _ (m_end m) Hd) as Hd'.
  set (d := dtouch (ending_dict c) (m_end m)) in *.
  assert (Dok P (with_ending c (Some d)) l) as HD.
  { repeat split; auto. simpl. exists g; auto. }
  assert (c_maxend c <= zmax_list (dkeys d)) as Hmono.
  { assert (m_end m <= zmax_list (dkeys d)); [|lia]. apply zmax_list_ge. subst d. apply dkeys_dtouch_In. auto. }
  destruct (dget d (m_end m)).
  - repeat split; try apply HD; simpl; auto; try lia; try discriminate.
    intros x Hx. apply zmax_list_ge. eapply dict_ok_In_key; [exact Hd' | apply in_or_app; right; exact Hx | left; reflexivity].
  - repeat split; try apply HD; simpl; auto; try lia; try discriminate.
Qed.

Lemma remove_match_ok P c m l :
  Dok P c (m :: l) -> Mok c l -> (c_ending c = None -> c_maxend c <= m_end m -> Permutation (c_del c) l) ->
  exists c', remove_match c m = (c', Ok tt) /\ Dok P c' l /\ Mok c' l /\ c_del c' = c_del c /\ same_env c c'
    /\ c_maxend c <= c_maxend c' /\ (c_ending c <> None -> c_ending c' <> None).
Proof.
  intros (D1 & D2 & D3 & D4 & D5) HM Hl. unfold remove_match.
  destruct (@odict_remove _ _ P _ _ m l D1) as (n & En & Hn & _).
  destruct (@odict_remove _ _ P _ _ m l D2) as (t & Et & Ht & _).
  destruct (@odict_remove _ _ P _ _ m l D3) as (st & Es & Hst & _).
  destruct (@odict_remove _ _ P _ _ m l D4) as (en & Ee & Hen & Hk).
  destruct (@odict_remove _ _ P _ _ m l D5) as (ix & Ei & Hix & _).
  rewrite En. cbn [c_tagged with_named]. rewrite Et. cbn [c_starting with_tagged with_named]. rewrite Es.
  cbn [c_ending with_starting with_tagged with_named]. rewrite Ee.
  cbn [c_indexed with_ending with_starting with_tagged with_named]. rewrite Ei.
  set (c1 := with_indexed _ ix).
  assert (c_ending c1 = None -> c_ending c = None) as Hc1.
  { unfold c1; simpl. destruct (c_ending c); [|auto]. destruct Hk as (d' & -> & _). discriminate. }
  destruct (@shrink_ok P c1 m l) as (S1 & S2 & S3 & S4 & S5 & S6).
  - repeat split; assumption.
  - destruct HM. split; assumption.
  - intro E. unfold c1. simpl. apply Hl. apply Hc1. exact E.
  - eexists. split; [reflexivity|]. split; [exact S1|]. split; [exact S2|]. split; [rewrite S3; reflexivity|].
    split; [destruct S4; split; assumption|]. split; [exact S5|].
    intro Hne. apply S6. intro E. apply Hne, Hc1, E.
Qed.

(** ** The operations preserve the invariant and act as on a plain list *)
Lemma insert_nth_perm {A} n (x : A) l : Permutation (insert_nth n x l) (x :: l).
Proof. unfold insert_nth. rewrite <- Permutation_middle, firstn_skipn. reflexivity. Qed.

Lemma Forall_perm {A} (P : A -> Prop) l l' : Permutation l l' -> Forall P l -> Forall P l'.
Proof. intros Hp Hf. rewrite Forall_forall in *. intros x Hx. apply Hf. eapply Permutation_in; [symmetry|]; eauto. Qed.

Section Ops.
  Variable P : mtch -> Prop.

  Lemma insert_ok c i m : Inv P c -> accepts (c_kind c) m = true ->
    exists c', insert c i m = (c', Ok tt) /\ Inv P c' /\ same_env c c'
      /\ c_del c' = insert_nth (Z.to_nat (py_clip (zlen (c_del c)) i)) m (c_del c)
      /\ c_maxend c <= c_maxend c' /\ (c_ending c <> None -> c_ending c' <> None).
  Proof.
    intros (HD & HM & HF) Ha. unfold insert.
    set (l' := insert_nth _ m (c_del c)).
    destruct (@add_match_ok P (with_del c l') m (c_del c)) as (c' & E & D & M & Hdel & He & Hm & Hen); auto.
    assert (Permutation (m :: c_del c) l') as Hp by (symmetry; apply insert_nth_perm).
    exists c'. split; [exact E|]. rewrite Hdel. simpl. split; [|auto].
    destruct He as [Hk Hi]. simpl in *.
    split; [rewrite Hdel; eapply Dok_perm; eauto|]. split; [rewrite Hdel; eapply Mok_perm; eauto|].
    rewrite Hdel, Hk. eapply Forall_perm; [exact Hp|]. constructor; assumption.
  Qed.

  Lemma append_ok c m : Inv P c -> accepts (c_kind c) m = true ->
    exists c', append c m = (c', Ok tt) /\ Inv P c' /\ same_env c c' /\ c_del c' = c_del c ++ [m]
      /\ c_maxend c <= c_maxend c' /\ (c_ending c <> None -> c_ending c' <> None).
  Proof.
    intros HI Ha. destruct (@insert_ok c (zlen (c_del c)) m HI Ha) as (c' & E & HI' & He & Hd & Hm).
    exists c'. split; [exact E|]. split; [exact HI'|]. split; [exact He|]. split; [|exact Hm]. rewrite Hd.
    unfold insert_nth, py_clip. pose proof (zlen_nonneg (c_del c)). replace (zlen (c_del c) <? 0) with false by lia.
    rewrite Z.min_id. unfold zlen. rewrite Nat2Z.id, firstn_all, skipn_all. reflexivity.
  Qed.

  Lemma extend_ok ms : forall c, Inv P c -> Forall (fun m => accepts (c_kind c) m = true) ms ->
    exists c', extend c ms = (c', Ok tt) /\ Inv P c' /\ same_env c c' /\ c_del c' = c_del c ++ ms
      /\ c_maxend c <= c_maxend c' /\ (c_ending c <> None -> c_ending c' <> None).
  Proof.
    induction ms as [|m ms IH]; intros c HI Ha; simpl.
    - exists c. rewrite app_nil_r. split; [reflexivity|]. repeat split; try apply HI; auto; lia.
    - inversion Ha as [|? ? Hm Hms]; subst.
      destruct (append_ok HI Hm) as (c1 & E1 & HI1 & He1 & Hd1 & Hm1 & Hn1). rewrite E1.
      destruct (IH c1 HI1) as (c2 & E2 & HI2 & He2 & Hd2 & Hm2 & Hn2).
      { destruct He1 as [-> _]. exact Hms. }
      exists c2. split; [exact E2|]. split; [exact HI2|]. split; [eapply same_env_trans; eauto|].
      split; [rewrite Hd2, Hd1, <- app_assoc; reflexivity|]. split; [lia | auto].
  Qed.

  Lemma remove_nth_perm {A} n (x : A) l : nth_error l n = Some x -> Permutation l (x :: remove_nth n l).
  Proof.
    intro E. rewrite (split_nth _ _ E) at 1. unfold remove_nth. symmetry. apply Permutation_middle.
  Qed.

  Lemma delitem_ok c i : Inv P c ->
    match py_pos (c_del c) i with
    | None => delitem c i = (c, Err IndexError)
    | Some n => exists c', delitem c i = (c', Ok tt) /\ Inv P c' /\ same_env c c'
        /\ c_del c' = remove_nth n (c_del c)
        /\ c_maxend c <= c_maxend c' /\ (c_ending c <> None -> c_ending c' <> None)
    end.
  Proof.
    intros (HD & HM & HF). unfold delitem. destruct (py_pos (c_del c) i) as [n|] eqn:Ep; [|reflexivity].
    destruct (py_pos_nth _ _ Ep) as [x Ex]. rewrite Ex.
    pose proof (remove_nth_perm Ex) as Hp.
    destruct (@remove_match_ok P (with_del c (remove_nth n (c_del c))) x (remove_nth n (c_del c)))
      as (c' & E & D & M & Hdel & He & Hm & Hen).
    - apply (Dok_perm Hp) in HD. exact HD.
    - destruct HM as [M0 M]. split; [exact M0|]. intros m Hm. apply M.
      eapply Permutation_in; [symmetry; exact Hp | right; exact Hm].
    - intros _ _. reflexivity.
    - exists c'. split; [exact E|]. simpl in *. destruct He as [Hk Hi]. simpl in *. rewrite Hdel.
      split; [|repeat split; auto]. split; [rewrite Hdel; exact D|]. split; [rewrite Hdel; exact M|].
      rewrite Hdel, Hk. apply (Forall_perm Hp) in HF. inversion HF; assumption.
  Qed.

  Lemma remove_matches_ok ms : forall c l,
    Dok P c (ms ++ l) -> Mok c (ms ++ l) -> c_del c = l ->
    (c_ending c <> None \/ Forall (fun x => m_end x < c_maxend c) (removelast ms)) ->
    exists c', remove_matches c ms = (c', Ok tt) /\ Dok P c' l /\ Mok c' l /\ c_del c' = l /\ same_env c c'
      /\ c_maxend c <= c_maxend c' /\ (c_ending c <> None -> c_ending c' <> None).
  Proof.
    induction ms as [|m ms IH]; intros c l HD HM Hdel He; simpl.
    - exists c. split; [reflexivity|]. split; [exact HD|]. split; [exact HM|]. split; [exact Hdel|].
      split; [apply same_env_refl|]. split; [lia | auto].
    - destruct (@remove_match_ok P c m (ms ++ l)) as (c1 & E1 & D1 & M1 & Hd1 & He1 & Hm1 & Hn1); auto.
      + destruct HM as [M0 M]. split; [exact M0|]. intros x Hx. apply M. right. exact Hx.
      + intros En Hge. destruct He as [He|He]; [congruence|].
        destruct ms; [simpl; rewrite Hdel; reflexivity|]. cbn [removelast] in He. inversion He; subst. lia.
      + rewrite E1. destruct (IH c1 l) as (c2 & E2 & D2 & M2 & Hd2 & He2 & Hm2 & Hn2); auto.
        { congruence. }
        { destruct He as [He|He]; [left; auto | right]. destruct ms; [constructor|]. cbn [removelast] in He.
          inversion He as [|? ? _ He']; subst. eapply Forall_impl; [|exact He']. cbn beta. intros; lia. }
        exists c2. split; [exact E2|]. split; [exact D2|]. split; [exact M2|]. split; [exact Hd2|].
        split; [eapply same_env_trans; eauto|]. split; [lia | auto].
  Qed.

  Lemma delslice_ok c i j : Inv P c ->
    (c_ending c <> None \/ Forall (fun x => m_end x < c_maxend c) (removelast (py_slice (c_del c) i j))) ->
    exists c', delslice c i j = (c', Ok tt) /\ Inv P c' /\ same_env c c'
      /\ c_del c' = py_unslice (c_del c) i j
      /\ c_maxend c <= c_maxend c' /\ (c_ending c <> None -> c_ending c' <> None).
  Proof.
    intros (HD & HM & HF) He. unfold delslice.
    destruct (py_slice_unslice (c_del c) i j) as (a & b & Eu & El).
    assert (Permutation (c_del c) (py_slice (c_del c) i j ++ py_unslice (c_del c) i j)) as Hp.
    { rewrite Eu. rewrite El at 1. rewrite !app_assoc. apply Permutation_app_tail, Permutation_app_comm. }
    destruct (@remove_matches_ok (py_slice (c_del c) i j) (with_del c (py_unslice (c_del c) i j)) (py_unslice (c_del c) i j))
      as (c' & E & D & M & Hdel & Hev & Hm & Hen); auto.
    - apply (Dok_perm Hp) in HD. exact HD.
    - apply (Mok_perm Hp) in HM. exact HM.
    - exists c'. split; [exact E|]. rewrite Hdel. destruct Hev as [Hk Hi]. simpl in *.
      split; [|repeat split; auto]. split; [rewrite Hdel; exact D|]. split; [rewrite Hdel; exact M|].
      rewrite Hdel, Hk. apply (Forall_perm Hp) in HF. rewrite Forall_app in HF. apply HF.
  Qed.

  Lemma pop_ok c i : Inv P c ->
    match py_pos (c_del c) i with
    | None => pop c i = (c, Err IndexError)
    | Some n => exists c' x, nth_error (c_del c) n = Some x /\ pop c i = (c', Ok x) /\ Inv P c' /\ same_env c c'
        /\ c_del c' = remove_nth n (c_del c)
        /\ c_maxend c <= c_maxend c' /\ (c_ending c <> None -> c_ending c' <> None)
    end.
  Proof.
    intro HI. pose proof (delitem_ok i HI) as Hd. unfold pop, py_nth.
    destruct (py_pos (c_del c) i) as [n|] eqn:Ep; [|reflexivity].
    destruct (py_pos_nth _ _ Ep) as [x Ex]. rewrite Ex. destruct Hd as (c' & -> & Hd).
    exists c', x. auto.
  Qed.

  Lemma remove_ok c m : Inv P c ->
    match remove_first (meq m) (c_del c) with
    | None => remove c m = (c, Err ValueError)
    | Some l => exists c', remove c m = (c', Ok tt) /\ Inv P c' /\ same_env c c' /\ c_del c' = l
        /\ c_maxend c <= c_maxend c' /\ (c_ending c <> None -> c_ending c' <> None)
    end.
  Proof.
    intro HI. unfold remove, seq_index. rewrite remove_first_index.
    destruct (index_of (meq m) (c_del c)) as [n|] eqn:E; [|reflexivity].
    apply index_of_Some in E as (x & Ex & _ & _).
    assert (n < length (c_del c))%nat as Hn by (apply nth_error_Some; congruence).
    assert (py_pos (c_del c) (Z.of_nat n) = Some n) as Ep.
    { apply py_pos_spec. repeat split; try lia. }
    pose proof (delitem_ok (Z.of_nat n) HI) as Hd. rewrite Ep in Hd. exact Hd.
  Qed.

  Lemma clear_loop_ok n : forall c, Inv P c -> (length (c_del c) < n)%nat ->
    exists c', clear_loop n c = (c', Ok tt) /\ Inv P c' /\ same_env c c' /\ c_del c' = []
      /\ c_maxend c <= c_maxend c' /\ (c_ending c <> None -> c_ending c' <> None).
  Proof.
    induction n as [|n IH]; intros c HI Hn; [lia|]. simpl.
    pose proof (pop_ok (-1) HI) as Hp. destruct (py_pos (c_del c) (-1)) as [k|] eqn:Ep.
    - destruct Hp as (c1 & x & Ex & E1 & HI1 & He1 & Hd1 & Hm1 & Hn1). rewrite E1.
      destruct (IH c1 HI1) as (c2 & E2 & HI2 & He2 & Hd2 & Hm2 & Hn2).
      { apply remove_nth_perm in Ex. apply Permutation_length in Ex. simpl in Ex. rewrite Hd1. lia. }
      exists c2. split; [exact E2|]. split; [exact HI2|]. split; [eapply same_env_trans; eauto|].
      split; [exact Hd2|]. split; [lia|auto].
    - rewrite Hp. exists c. split; [reflexivity|]. split; [exact HI|]. split; [apply same_env_refl|].
      split; [|split; [lia|auto]]. apply py_pos_None in Ep. unfold zlen in Ep.
      destruct (c_del c); [reflexivity|]. simpl in Ep. lia.
  Qed.

  Lemma clear_ok c : Inv P c ->
    exists c', clear c = (c', Ok tt) /\ Inv P c' /\ same_env c c' /\ c_del c' = []
      /\ c_maxend c <= c_maxend c' /\ (c_ending c <> None -> c_ending c' <> None).
  Proof. intro HI. apply clear_loop_ok; [exact HI | lia]. Qed.

  (** item assignment: the replaced match becomes a ghost *)
  Lemma setitem_ok c i m : Inv P c -> accepts (c_kind c) m = true ->
    match py_pos (c_del c) i with
    | None => setitem c i m = (c, Err IndexError)
    | Some n => (forall x, nth_error (c_del c) n = Some x -> P x) ->
        exists c', setitem c i m = (c', Ok tt) /\ Inv P c' /\ same_env c c'
        /\ c_del c' = replace_nth n m (c_del c)
        /\ c_maxend c <= c_maxend c' /\ (c_ending c <> None -> c_ending c' <> None)
    end.
  Proof.
    intros (HD & HM & HF) Ha. unfold setitem. destruct (py_pos (c_del c) i) as [n|] eqn:Ep; [|reflexivity].
    intro HP. destruct (py_pos_nth _ _ Ep) as [x Ex]. specialize (HP x Ex).
    pose proof (remove_nth_perm Ex) as Hp.
    assert (Permutation (m :: remove_nth n (c_del c)) (replace_nth n m (c_del c))) as Hr.
    { unfold remove_nth, replace_nth. apply Permutation_middle. }
    destruct (@add_match_ok P (with_del c (replace_nth n m (c_del c))) m (remove_nth n (c_del c)))
      as (c' & E & D & M & Hdel & He & Hm & Hen); auto.
    - apply (Dok_perm Hp) in HD. destruct HD as (D1 & D2 & D3 & D4 & D5).
      repeat split; eapply odict_ok_ghost; eassumption.
    - apply (Mok_perm Hp) in HM. destruct HM as [M0 M]. split; [exact M0|]. intros y Hy. apply M. right; exact Hy.
    - exists c'. split; [exact E|]. rewrite Hdel. destruct He as [Hk Hi]. simpl in *.
      split; [|repeat split; auto]. split; [rewrite Hdel; eapply Dok_perm; eauto|].
      split; [rewrite Hdel; eapply Mok_perm; eauto|].
      rewrite Hdel, Hk. eapply Forall_perm; [exact Hr|]. constructor; [exact Ha|].
      apply (Forall_perm Hp) in HF. inversion HF; assumption.
  Qed.

  Lemma add_matches_ok ms : forall c l, Forall (fun m => accepts (c_kind c) m = true) ms -> Dok P c l -> Mok c l ->
    exists c', add_matches c ms = (c', Ok tt) /\ Dok P c' (ms ++ l) /\ Mok c' (ms ++ l) /\ c_del c' = c_del c /\ same_env c c'
      /\ c_maxend c <= c_maxend c' /\ (c_ending c <> None -> c_ending c' <> None).
  Proof.
    induction ms as [|m ms IH]; intros c l Ha HD HM; simpl.
    - exists c. split; [reflexivity|]. repeat (split; [first [exact HD | exact HM | reflexivity | apply same_env_refl | lia]|]). auto.
    - inversion Ha as [|? ? Hm Hms]; subst.
      destruct (add_match_ok Hm HD HM) as (c1 & E1 & D1 & M1 & Hd1 & He1 & Hm1 & Hn1). rewrite E1.
      destruct (IH c1 (m :: l)) as (c2 & E2 & D2 & M2 & Hd2 & He2 & Hm2 & Hn2); auto.
      { destruct He1 as [-> _]. exact Hms. }
      exists c2. split; [exact E2|].
      assert (Permutation (ms ++ m :: l) ((m :: ms) ++ l)) as Hp by (symmetry; apply Permutation_middle).
      split; [eapply Dok_perm; eauto|]. split; [eapply Mok_perm; eauto|]. split; [congruence|].
      split; [eapply same_env_trans; eauto|]. split; [lia|auto].
  Qed.

  Lemma Dok_ghosts c zs l : Forall P zs -> Dok P c (zs ++ l) -> Dok P c l.
  Proof.
    induction 1 as [|z zs Hz Hzs IHz]; intro HD; [exact HD|].
    apply IHz. destruct HD as (D1 & D2 & D3 & D4 & D5). repeat split; eapply odict_ok_ghost; eassumption.
  Qed.

  Lemma setslice_ok c i j ms : Inv P c -> Forall (fun m => accepts (c_kind c) m = true) ms ->
    Forall P (py_slice (c_del c) i j) ->
    exists c' a b, setslice c i j ms = (c', Ok tt) /\ Inv P c' /\ same_env c c'
      /\ c_del c = a ++ py_slice (c_del c) i j ++ b /\ c_del c' = a ++ ms ++ b
      /\ py_unslice (c_del c) i j = a ++ b
      /\ c_maxend c <= c_maxend c' /\ (c_ending c <> None -> c_ending c' <> None).
  Proof.
    intros (HD & HM & HF) Ha HP. unfold setslice.
    set (x := match i with None => 0 | Some i => py_clip (zlen (c_del c)) i end).
    set (y := match j with None => zlen (c_del c) | Some j => py_clip (zlen (c_del c)) j end).
    set (a := firstn (Z.to_nat x) (c_del c)). set (b := skipn (Z.to_nat (Z.max x y)) (c_del c)).
    assert (c_del c = a ++ py_slice (c_del c) i j ++ b) as El.
    { subst a b. unfold py_slice. fold x y.
      assert (0 <= x) by (subst x; destruct i; [apply py_clip_bounds, zlen_nonneg | lia]).
      replace (Z.to_nat (y - x)) with (Z.to_nat (Z.max x y) - Z.to_nat x)%nat by lia.
      apply firstn_skipn_nat. lia. }
    assert (Permutation (c_del c) (py_slice (c_del c) i j ++ (a ++ b))) as Hp.
    { rewrite El at 1. rewrite !app_assoc. apply Permutation_app_tail, Permutation_app_comm. }
    destruct (@add_matches_ok ms (with_del c (a ++ ms ++ b)) (a ++ b)) as (c' & E & D & M & Hdel & He & Hm & Hen); auto.
    - apply (Dok_perm Hp) in HD. exact (Dok_ghosts HP HD).
    - apply (Mok_perm Hp) in HM. destruct HM as [M0 M]. split; [exact M0|]. intros z Hz. apply M. apply in_or_app; right; exact Hz.
    - assert (Permutation (ms ++ a ++ b) (a ++ ms ++ b)) as Hq.
      { rewrite !app_assoc. apply Permutation_app_tail, Permutation_app_comm. }
      exists c', a, b. split; [exact E|]. destruct He as [Hk Hi]. simpl in *. split.
      + split; [rewrite Hdel; eapply Dok_perm; eauto|]. split; [rewrite Hdel; eapply Mok_perm; eauto|].
        rewrite Hdel, Hk. apply (Forall_perm Hp) in HF. rewrite !Forall_app in *. tauto.
      + repeat split; auto.
  Qed.
End Ops.
