(** Facts about the lookups of Coll.v: what they answer and what they leave behind. *)
From Verif Require Import Base BaseFacts Match Spec MatchFacts Coll CollFacts.
From Coq Require Import ZifyBool.
Set Implicit Arguments.
Unset Strict Implicit.
Open Scope Z_scope.

(** ** Two states no lookup can tell apart *)
Definition obs (c c' : coll) : Prop :=
  c_del c' = c_del c /\ same_env c c' /\ c_maxend c' = c_maxend c
  /\ (forall k, dget (named_dict c') k = dget (named_dict c) k)
  /\ (forall k, dget (tagged_dict c') k = dget (tagged_dict c) k)
  /\ (forall k, dget (starting_dict c') k = dget (starting_dict c) k)
  /\ (forall k, dget (ending_dict c') k = dget (ending_dict c) k)
  /\ (forall k, dget (indexed_dict c') k = dget (indexed_dict c) k)
  /\ (c_ending c <> None -> c_ending c' <> None).

Lemma obs_refl c : obs c c.
Proof. repeat split; auto. Qed.
Lemma obs_trans a b c : obs a b -> obs b c -> obs a c.
Proof.
  intros (A1 & A2 & A3 & A4 & A5 & A6 & A7 & A8 & A9) (B1 & B2 & B3 & B4 & B5 & B6 & B7 & B8 & B9).
  split; [congruence|]. split; [eapply same_env_trans; eauto|]. split; [congruence|].
  split; [intro; rewrite B4; apply A4|]. split; [intro; rewrite B5; apply A5|].
  split; [intro; rewrite B6; apply A6|]. split; [intro; rewrite B7; apply A7|].
  split; [intro; rewrite B8; apply A8|]. auto.
Qed.

Lemma obs_max_end c c' : obs c c' -> max_end c' = max_end c.
Proof. intros (_ & (_ & Hi) & Hm & _). unfold max_end. rewrite Hi, Hm. reflexivity. Qed.
Lemma obs_range_end c c' e : obs c c' -> range_end c' e = range_end c e.
Proof. intro H. unfold range_end. rewrite (obs_max_end H). reflexivity. Qed.

Lemma obs_Inv P c c' : obs c c' -> Inv P c -> Inv P c'.
Proof.
  intros (Hd & (Hk & Hi) & Hm & H1 & H2 & H3 & H4 & H5 & _) (HD & HM & HF).
  assert (forall K (EK : Eqb K) (ks : mtch -> list K) (od : option (mdict K)) (d0 d1 : mdict K),
     (od = Some d1 \/ od = None) -> (forall k, dget d1 k = dget d0 k) ->
     (exists g, Forall P g /\ dict_ok ks d0 (g ++ c_del c)) -> odict_ok P ks od (c_del c)) as G.
  { intros K EK ks od d0 d1 [->| ->] Hg (g & HPg & Hok); simpl; [|exact I].
    exists g. split; [exact HPg|]. intro k. rewrite Hg. apply Hok. }
  split; [|split].
  - rewrite Hd. split; [|split; [|split; [|split]]].
    + apply (G _ _ _ _ (named_dict c) (named_dict c')); [|exact H1|apply named_dict_ok; exact HD].
      unfold named_dict at 1. destruct (c_named c'); auto.
    + apply (G _ _ _ _ (tagged_dict c) (tagged_dict c')); [|exact H2|apply tagged_dict_ok; exact HD].
      unfold tagged_dict at 1. destruct (c_tagged c'); auto.
    + apply (G _ _ _ _ (starting_dict c) (starting_dict c')); [|exact H3|apply starting_dict_ok; exact HD].
      unfold starting_dict at 1. destruct (c_starting c'); auto.
    + apply (G _ _ _ _ (ending_dict c) (ending_dict c')); [|exact H4|apply ending_dict_ok; [apply HD|reflexivity]].
      unfold ending_dict at 1. destruct (c_ending c'); auto.
    + apply (G _ _ _ _ (indexed_dict c) (indexed_dict c')); [|exact H5|apply indexed_dict_ok; exact HD].
      unfold indexed_dict at 1. destruct (c_indexed c'); auto.
  - rewrite Hd. destruct HM as [M0 M]. split; rewrite Hm; assumption.
  - rewrite Hd, Hk. exact HF.
Qed.

(** ** Elementary lookups *)
Ltac solve_obs :=
  split; [reflexivity|]; split; [split; reflexivity|]; split; [reflexivity|];
  repeat split; try (intros; reflexivity); try (intros; apply dget_dtouch); try (simpl; congruence).

Lemma q_named1_spec c n : obs c (fst (q_named1 c n)) /\ snd (q_named1 c n) = dget (named_dict c) n.
Proof. unfold q_named1. simpl. split; [solve_obs | apply dget_dtouch]. Qed.
Lemma q_tagged_spec c n : obs c (fst (q_tagged c n)) /\ snd (q_tagged c n) = dget (tagged_dict c) n.
Proof. unfold q_tagged. simpl. split; [solve_obs | apply dget_dtouch]. Qed.
Lemma q_starting_spec c n : obs c (fst (q_starting c n)) /\ snd (q_starting c n) = dget (starting_dict c) n.
Proof. unfold q_starting. simpl. split; [solve_obs | apply dget_dtouch]. Qed.
Lemma q_ending_spec c n : obs c (fst (q_ending c n)) /\ snd (q_ending c n) = dget (ending_dict c) n.
Proof. unfold q_ending. simpl. split; [solve_obs | apply dget_dtouch]. Qed.
Lemma q_at_index_spec c n : obs c (fst (q_at_index c n)) /\ snd (q_at_index c n) = dget (indexed_dict c) n.
Proof. unfold q_at_index. simpl. split; [solve_obs | apply dget_dtouch]. Qed.
Lemma q_names_obs c : obs c (fst (q_names c)).
Proof. unfold q_names. simpl. solve_obs. Qed.
Lemma q_tags_obs c : obs c (fst (q_tags c)).
Proof. unfold q_tags. simpl. solve_obs. Qed.

#[local] Opaque q_named1 q_tagged q_starting q_ending q_at_index.

(** relative to a reference state [c0] *)
Lemma q_named1_rel c0 c n : obs c0 c -> obs c0 (fst (q_named1 c n)) /\ snd (q_named1 c n) = dget (named_dict c0) n.
Proof. intro H. destruct (q_named1_spec c n) as [A B]. split; [eapply obs_trans; eauto | rewrite B; apply H]. Qed.
Lemma q_tagged_rel c0 c n : obs c0 c -> obs c0 (fst (q_tagged c n)) /\ snd (q_tagged c n) = dget (tagged_dict c0) n.
Proof. intro H. destruct (q_tagged_spec c n) as [A B]. split; [eapply obs_trans; eauto | rewrite B; apply H]. Qed.
Lemma q_starting_rel c0 c n : obs c0 c -> obs c0 (fst (q_starting c n)) /\ snd (q_starting c n) = dget (starting_dict c0) n.
Proof. intro H. destruct (q_starting_spec c n) as [A B]. split; [eapply obs_trans; eauto | rewrite B; apply H]. Qed.
Lemma q_ending_rel c0 c n : obs c0 c -> obs c0 (fst (q_ending c n)) /\ snd (q_ending c n) = dget (ending_dict c0) n.
Proof. intro H. destruct (q_ending_spec c n) as [A B]. split; [eapply obs_trans; eauto | rewrite B; apply H]. Qed.
Lemma q_at_index_rel c0 c n : obs c0 c -> obs c0 (fst (q_at_index c n)) /\ snd (q_at_index c n) = dget (indexed_dict c0) n.
Proof. intro H. destruct (q_at_index_spec c n) as [A B]. split; [eapply obs_trans; eauto | rewrite B; apply H]. Qed.

(** ** Compound lookups as functions of the views of a reference state *)
Definition vstart (c : coll) (i : Z) := dget (starting_dict c) i.
Definition vend (c : coll) (i : Z) := dget (ending_dict c) i.
Definition vat (c : coll) (i : Z) := dget (indexed_dict c) i.
Definition vname (c : coll) (n : pstr) := dget (named_dict c) n.
Definition vtag (c : coll) (n : pstr) := dget (tagged_dict c) n.

Lemma q_named_rel c0 : forall ns c, obs c0 c ->
  obs c0 (fst (q_named_loop c ns)) /\ snd (q_named_loop c ns) = flat_map (vname c0) ns.
Proof.
  induction ns as [|n ns IH]; intros c Hc; simpl; [auto|].
  destruct (q_named1_rel n Hc) as [A B]. destruct (q_named1 c n) as [c1 l]. simpl in *.
  destruct (IH c1 A) as [A' B']. destruct (q_named_loop c1 ns) as [c2 l']. simpl in *.
  split; [exact A' | rewrite B, B'; reflexivity].
Qed.

Fixpoint prev_pure (v : Z -> list mtch) (fuel : nat) (cur : Z) : list mtch :=
  match fuel with
  | O => []
  | S f => match v cur with [] => prev_pure v f (cur - 1) | l => l end
  end.
Lemma previous_rel c0 : forall f c cur, obs c0 c ->
  obs c0 (fst (previous_loop f c cur)) /\ snd (previous_loop f c cur) = prev_pure (vend c0) f cur.
Proof.
  induction f as [|f IH]; intros c cur Hc; simpl; [auto|].
  destruct (q_ending_rel cur Hc) as [A B]. destruct (q_ending c cur) as [c1 l]. simpl in *.
  fold (vend c0 cur) in B. rewrite <- B. destruct l; [apply IH; exact A | auto].
Qed.

Fixpoint next_pure (v : Z -> list mtch) (fuel : nat) (cur : Z) : list mtch :=
  match fuel with
  | O => []
  | S f => match v cur with [] => next_pure v f (cur + 1) | l => l end
  end.
Lemma next_rel c0 : forall f c cur, obs c0 c ->
  obs c0 (fst (next_loop f c cur)) /\ snd (next_loop f c cur) = next_pure (vstart c0) f cur.
Proof.
  induction f as [|f IH]; intros c cur Hc; simpl; [auto|].
  destruct (q_starting_rel cur Hc) as [A B]. destruct (q_starting c cur) as [c1 l]. simpl in *.
  fold (vstart c0 cur) in B. rewrite <- B. destruct l; [apply IH; exact A | auto].
Qed.

Fixpoint chain_pure (v : Z -> list mtch) (input : option pstr) (pred : mtch -> bool) (seps : pstr) (is : list Z) (chain : list mtch)
  : res (list mtch) :=
  match is with
  | [] => Ok chain
  | i :: r =>
      match filter pred (v i) with
      | [] => match sep_at input seps i with
              | Err e => Err e
              | Ok true => chain_pure v input pred seps r chain
              | Ok false => Ok chain
              end
      | fl => chain_pure v input pred seps r (chain_add chain fl)
      end
  end.
Lemma chain_rel c0 pred seps : forall is c chain, obs c0 c ->
  obs c0 (fst (chain_loop pred seps is c chain))
  /\ snd (chain_loop pred seps is c chain) = chain_pure (vat c0) (c_input c0) pred seps is chain.
Proof.
  induction is as [|i is IH]; intros c chain Hc; simpl; [auto|].
  destruct (q_at_index_rel i Hc) as [A B].
  assert (c_input c = c_input c0) as Hi by apply Hc. rewrite Hi.
  destruct (q_at_index c i) as [c1 l]. simpl in *.
  fold (vat c0 i) in B. rewrite <- B. destruct (filter pred l); [|apply IH; exact A].
  destruct (sep_at (c_input c0) seps i) as [[]|]; auto.
Qed.

Lemma conflicting_rel c0 : forall is c ret, obs c0 c ->
  obs c0 (fst (conflicting_loop is c ret))
  /\ snd (conflicting_loop is c ret) = chain_add ret (flat_map (vat c0) is).
Proof.
  induction is as [|i is IH]; intros c ret Hc; simpl; [auto|].
  destruct (q_at_index_rel i Hc) as [A B]. destruct (q_at_index c i) as [c1 l]. simpl in *.
  destruct (IH c1 (chain_add ret l) A) as [A' B']. split; [exact A'|].
  rewrite B'. unfold vat at 2. rewrite <- B. unfold chain_add. rewrite fold_left_app. reflexivity.
Qed.

Fixpoint first_pos (v : Z -> list mtch) (keep : mtch -> bool) (is : list Z) (d : Z) : Z :=
  match is with
  | [] => d
  | i :: r => if existsb keep (v i) then i else first_pos v keep r d
  end.
Lemma hole_start_rel c0 keep : forall is c, obs c0 c ->
  obs c0 (fst (hole_start_loop keep is c)) /\ snd (hole_start_loop keep is c) = first_pos (vstart c0) keep is 0.
Proof.
  induction is as [|i is IH]; intros c Hc; simpl; [auto|].
  destruct (q_starting_rel i Hc) as [A B]. destruct (q_starting c i) as [c1 l]. simpl in *.
  unfold vstart at 1. rewrite <- B. destruct (existsb keep l); [auto | apply IH; exact A].
Qed.
Lemma hole_end_rel c0 keep : forall is c, obs c0 c ->
  obs c0 (fst (hole_end_loop keep is c)) /\ snd (hole_end_loop keep is c) = first_pos (vstart c0) keep is (max_end c0).
Proof.
  induction is as [|i is IH]; intros c Hc; simpl; [rewrite (obs_max_end Hc); auto|].
  destruct (q_starting_rel i Hc) as [A B]. destruct (q_starting c i) as [c1 l]. simpl in *.
  unfold vstart at 1. rewrite <- B. destruct (existsb keep l); [auto | apply IH; exact A].
Qed.

(** one position of the scan: is a separator seen while a hole is open? *)
Definition sep_close (input : option pstr) (seps : option pstr) (hole : option Z) (i : Z) : res bool :=
  match seps, hole, input with
  | Some (s0 :: sr), Some _, Some (i0 :: ir) => sep_at (Some (i0 :: ir)) (s0 :: sr) i
  | _, _, _ => Ok false
  end.
Fixpoint holes_pure (cov : Z -> bool) (input seps : option pstr) (st : Z) (is : list Z)
         (ret : list (Z * Z)) (hole : option Z) (last : Z) : res (list (Z * Z) * option Z * Z) :=
  match is with
  | [] => Ok (ret, hole, last)
  | i :: r =>
      match sep_close input seps hole i, hole with
      | Err e, _ => Err e
      | Ok true, Some h => holes_pure cov input seps st r ((h, i) :: ret) None i
      | Ok _, None => holes_pure cov input seps st r ret (if cov i then None else Some (Z.max i st)) i
      | Ok _, Some h => if cov i then holes_pure cov input seps st r ((h, i) :: ret) None i
                        else holes_pure cov input seps st r ret (Some h) i
      end
  end.
Lemma filter_nil_existsb {A} (p : A -> bool) l : (match filter p l with [] => true | _ => false end) = negb (existsb p l).
Proof. induction l as [|x l IH]; simpl; [reflexivity|]. destruct (p x); simpl; [reflexivity|exact IH]. Qed.

Lemma holes_rel c0 keep seps st : forall is c ret hole last, obs c0 c ->
  obs c0 (fst (holes_loop keep seps st is c ret hole last))
  /\ snd (holes_loop keep seps st is c ret hole last)
     = holes_pure (fun i => existsb keep (vat c0 i)) (c_input c0) seps st is ret hole last.
Proof.
  induction is as [|i is IH]; intros c ret hole last Hc; cbn [holes_loop holes_pure]; [auto|].
  destruct (q_at_index_rel i Hc) as [A B].
  assert (c_input c = c_input c0) as Hi by apply Hc. rewrite Hi.
  destruct (q_at_index c i) as [c1 l]. simpl in A, B.
  assert ((match filter keep l with [] => true | _ => false end) = negb (existsb keep (vat c0 i))) as Hf.
  { rewrite filter_nil_existsb. unfold vat. rewrite <- B. reflexivity. }
  fold (sep_close (c_input c0) seps hole i).
  destruct (sep_close (c_input c0) seps hole i) as [[|]|e]; [| |simpl; auto].
  - destruct hole as [h|]; [apply IH; exact A|].
    destruct (filter keep l); destruct (existsb keep (vat c0 i)); try discriminate; apply IH; exact A.
  - destruct hole as [h|];
    destruct (filter keep l); destruct (existsb keep (vat c0 i)); try discriminate; apply IH; exact A.
Qed.

Definition holes_fin (c0 : coll) (keep : mtch -> bool) (e : Z) (r : res (list (Z * Z) * option Z * Z)) : res (list (Z * Z)) :=
  match r with
  | Err x => Err x
  | Ok (ret, None, _) => Ok (rev ret)
  | Ok (ret, Some h, last) =>
      Ok (rev ((h, Z.min (first_pos (vstart c0) keep (zrange last (max_end c0)) (max_end c0)) e) :: ret))
  end.
Definition holes_bad (input seps : option pstr) : bool :=
  match seps, input with
  | Some (_ :: _), Some (_ :: _) => false
  | Some (_ :: _), _ => true
  | _, _ => false
  end.
Definition holes_ans (c0 : coll) (st : Z) (en : option Z) (keep : mtch -> bool) (seps : option pstr) : res (list (Z * Z)) :=
  if holes_bad (c_input c0) seps then Err AssertionError else
  let e := range_end c0 en in
  let ls := first_pos (vstart c0) keep (rev (zrange 0 st)) 0 in
  holes_fin c0 keep e (holes_pure (fun i => existsb keep (vat c0 i)) (c_input c0) seps st (zrange ls e) [] None st).
Lemma q_holes_rel c0 c st en keep seps : obs c0 c ->
  obs c0 (fst (q_holes c st en keep seps)) /\ snd (q_holes c st en keep seps) = holes_ans c0 st en keep seps.
Proof.
  intro Hc. unfold q_holes, holes_ans.
  assert (c_input c = c_input c0) as Hi by apply Hc. rewrite Hi. fold (holes_bad (c_input c0) seps).
  destruct (holes_bad (c_input c0) seps); [simpl; auto|].
  unfold hole_start. destruct (@hole_start_rel c0 keep (rev (zrange 0 st)) c Hc) as [A B].
  destruct (hole_start_loop keep (rev (zrange 0 st)) c) as [c1 ls]. simpl in A, B. subst ls.
  rewrite (obs_range_end en Hc).
  match goal with |- context [holes_loop keep seps st ?is c1 [] None st] =>
    destruct (@holes_rel c0 keep seps st is c1 [] None st A) as [A2 B2];
    destruct (holes_loop keep seps st is c1 [] None st) as [c2 r] end.
  simpl in A2, B2. subst r.
  match goal with |- context [holes_fin c0 keep _ ?r] => destruct r as [[[ret [h|]] last]|x] end; simpl; auto.
  unfold hole_end. rewrite (obs_max_end A2).
  destruct (@hole_end_rel c0 keep (zrange last (max_end c0)) c2 A2) as [A3 B3].
  destruct (hole_end_loop keep (zrange last (max_end c0)) c2) as [c3 he]. simpl in A3, B3. subst he. simpl. auto.
Qed.

(** ** What every lookup answers, as a function of the views of a reference state *)
Definition answer (c : coll) (o : op) : out :=
  match o with
  | ONamed ns => RList (flat_map (vname c) (dedup pstr_eqb ns))
  | OTagged t => RList (vtag c t)
  | OStarting i => RList (vstart c i)
  | OEnding i => RList (vend c i)
  | OAtIndex i => RList (vat c i)
  | OPrevious m => RList (prev_pure (vend c) (Z.to_nat (m_start m + 1)) (m_start m))
  | ONext m => RList (next_pure (vstart c) (Z.to_nat (c_maxend c - m_start m)) (m_start m + 1))
  | ORange i j => RList (q_range c i j)
  | OHoles i j keep seps => match holes_ans c i j keep seps with Ok l => RSpans l | Err e => RErr e end
  | OConflicting m => match remove_first (meq m) (chain_add [] (flat_map (vat c) (zrange (m_start m) (m_end m)))) with
                      | Some l => RList l | None => RErr ValueError end
  | OAtSpan sp => RList (chain_add (vat c (fst sp)) (vat c (snd sp - 1)))
  | OChainBefore p seps st pred =>
      match chain_pure (vat c) (c_input c) pred seps (rev (zrange st (Z.min (max_end c) p))) [] with
      | Ok l => RList l | Err e => RErr e end
  | OChainAfter p seps en pred =>
      match chain_pure (vat c) (c_input c) pred seps (zrange p (range_end c en)) [] with
      | Ok l => RList l | Err e => RErr e end
  | ONames => RKeys (dkeys (named_dict c))
  | OTags => RKeys (dkeys (tagged_dict c))
  | _ => RUnit
  end.

Definition is_lookup (o : op) : bool :=
  match o with
  | OAppend _ | OInsert _ _ | OExtend _ | ORemove _ | ODelitem _ | ODelslice _ _ | OPop _ | OClear
  | OSetitem _ _ | OSetslice _ _ _ | OReverse => false
  | _ => true
  end.
Definition is_keys (o : op) : bool := match o with ONames | OTags => true | _ => false end.

Lemma lookup_rel c0 c o : is_lookup o = true -> obs c0 c ->
  obs c0 (fst (step c o)) /\ (is_keys o = false -> snd (step c o) = answer c0 o).
Proof.
  destruct o; intros Hl Hc; try discriminate; simpl; clear Hl.
  - unfold q_named. destruct (@q_named_rel c0 (dedup pstr_eqb ns) c Hc) as [A B].
    destruct (q_named_loop c _); simpl in *; subst; auto.
  - destruct (q_tagged_rel t Hc) as [A B]. destruct (q_tagged c t); simpl in *; subst; auto.
  - destruct (q_starting_rel i Hc) as [A B]. destruct (q_starting c i); simpl in *; subst; auto.
  - destruct (q_ending_rel i Hc) as [A B]. destruct (q_ending c i); simpl in *; subst; auto.
  - destruct (q_at_index_rel i Hc) as [A B]. destruct (q_at_index c i); simpl in *; subst; auto.
  - unfold q_previous. match goal with |- context [previous_loop ?f c ?n] =>
      destruct (@previous_rel c0 f c n Hc) as [A B]; destruct (previous_loop f c n) end; simpl in *; subst; auto.
  - unfold q_next. assert (c_maxend c = c_maxend c0) as -> by apply Hc.
    match goal with |- context [next_loop ?f c ?n] =>
      destruct (@next_rel c0 f c n Hc) as [A B]; destruct (next_loop f c n) end; simpl in *; subst; auto.
  - split; [exact Hc|]. intros _. unfold q_range. rewrite (obs_range_end j Hc). destruct Hc as [-> _]. reflexivity.
  - destruct (q_holes_rel i j keep seps Hc) as [A B]. destruct (q_holes c i j keep seps) as [c1 r]; simpl in *; subst r. auto.
  - unfold q_conflicting.
    match goal with |- context [conflicting_loop ?is c []] =>
      destruct (@conflicting_rel c0 is c [] Hc) as [A B]; destruct (conflicting_loop is c []) as [c1 ret] end.
    simpl in *. subst ret. destruct (remove_first (meq m) _); simpl; auto.
  - unfold q_at_span. destruct (q_at_index_rel (fst sp) Hc) as [A B]. destruct (q_at_index c (fst sp)) as [c1 l1]. simpl in *.
    destruct (q_at_index_rel (snd sp - 1) A) as [A2 B2]. destruct (q_at_index c1 (snd sp - 1)) as [c2 l2]. simpl in *.
    subst. auto.
  - unfold q_chain_before. rewrite (obs_max_end Hc).
    match goal with |- context [chain_loop pred seps ?is c []] =>
      destruct (@chain_rel c0 pred seps is c [] Hc) as [A B]; destruct (chain_loop pred seps is c []) as [c1 r] end.
    simpl in *. subst r. auto.
  - unfold q_chain_after. rewrite (obs_range_end en Hc).
    match goal with |- context [chain_loop pred seps ?is c []] =>
      destruct (@chain_rel c0 pred seps is c [] Hc) as [A B]; destruct (chain_loop pred seps is c []) as [c1 r] end.
    simpl in *. subst r. auto.
  - split; [|discriminate]. eapply obs_trans; [exact Hc | apply (q_names_obs c)].
  - split; [|discriminate]. eapply obs_trans; [exact Hc | apply (q_tags_obs c)].
Qed.

Lemma lookup_answer c o : is_lookup o = true -> is_keys o = false -> snd (step c o) = answer c o.
Proof. intros H1 H2. apply (lookup_rel H1 (obs_refl c)). exact H2. Qed.
Lemma lookup_obs c o : is_lookup o = true -> obs c (fst (step c o)).
Proof. intro H1. apply (lookup_rel H1 (obs_refl c)). Qed.
Lemma lookups_obs : forall ops c, forallb is_lookup ops = true -> obs c (run c ops).
Proof.
  induction ops as [|o ops IH]; intros c H; simpl in *; [apply obs_refl|].
  apply andb_true_iff in H as [H1 H2]. eapply obs_trans; [apply lookup_obs; exact H1 | apply IH; exact H2].
Qed.
