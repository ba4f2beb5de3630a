(** * C116: the attempts of a chain, exactly *)
From Verif Require Import Base BaseFacts Match Coll Loose MatchFacts Pattern Chain ChainFacts SpecChain ChainSem PropsChain SpecAttempts Attempts.
From Coq Require Import ZifyBool.
Export Coq.Strings.String.StringSyntax.
Set Implicit Arguments.
Unset Strict Implicit.
Open Scope Z_scope.

(** the matches of a chain are those of its successive attempts, the first of which reads and puts from the
    beginning of the input *)
Theorem C116_chain_attempts : forall fuel p breaker parts n input n' ms, Forall ordinary parts ->
  chain_match fuel p breaker parts n input = Ok (n', ms) -> history breaker input parts 0 0 ms.
Proof.
  intros fuel p breaker parts n input n' ms O H. unfold chain_match in H.
  destruct (@chain_loop_history breaker input p parts O fuel n input 0 0 [] n' ms) as (rest & -> & Hh & _); auto; [lia|].
  unfold from. symmetry. unfold py_slice, py_clip. cbn [Z.ltb Z.compare]. rewrite Z.min_l by apply zlen_nonneg. rewrite Z.sub_0_r. cbn [Z.to_nat skipn].
  unfold zlen. rewrite Nat2Z.id. apply firstn_all.
Qed.

(** they are inside the input, not empty, from left to right and never overlap *)
Theorem C116_matches_in_order : forall fuel p breaker parts n input n' ms, Forall ordinary parts ->
  chain_match fuel p breaker parts n input = Ok (n', ms) ->
  StronglySorted (fun a b => m_end a <= m_start b) ms /\ Forall (fun M => 0 <= m_start M < m_end M /\ m_end M <= zlen input) ms.
Proof.
  intros fuel p breaker parts n input n' ms O H. unfold chain_match in H.
  destruct (@chain_loop_history breaker input p parts O fuel n input 0 0 [] n' ms) as (rest & -> & _ & Hs & Hb); auto; [lia|].
  unfold from. symmetry. unfold py_slice, py_clip. cbn [Z.ltb Z.compare]. rewrite Z.min_l by apply zlen_nonneg. rewrite Z.sub_0_r. cbn [Z.to_nat skipn].
  unfold zlen. rewrite Nat2Z.id. apply firstn_all.
Qed.

(** a piece found where it is put has the text that was found *)
Theorem C116_aligned_text : forall input r m m', 0 <= r -> located (from input r) m -> put input r m m' -> m_raw m' = m_raw m.
Proof.
  intros input r m m' R (I & S & E & P & L1 & L2) (P1 & P2 & P3 & P4). rewrite P4. unfold m_raw, raw_start, raw_end. rewrite I, S, E.
  unfold m_span in P1. injection P1 as -> ->. rewrite <- from_slice by lia.
  destruct (from input r) eqn:F; [change (zlen (@nil N)) with 0 in L2; lia|]. reflexivity.
Qed.

(** an attempt to which no part is lacking leaves both positions at the end of its last piece: only a failed
    attempt makes the next one put its pieces elsewhere than they are found *)
Theorem C116_misplaced_after_failure_only : forall breaker input first parts r w cur pieces r' w' cur', 
  attempt breaker input first parts r w cur pieces r' w' cur' true ->
  (concat pieces = [] -> r' = r /\ w' = w) /\ (concat pieces <> [] -> r' = w' /\ exists m, hd_error (rev (concat pieces)) = Some m /\ r' = m_end m).
Proof.
  intros breaker input first parts r w cur pieces r' w' cur' H. remember true as ok. induction H; subst.
  - simpl. split; [auto|congruence].
  - simpl. auto.
  - destruct (IHattempt eq_refl) as [I1 I2]. simpl. assert (pieces ++ concat rest <> []) as NE by (destruct pieces; [congruence|discriminate]).
    split; [intro X; contradiction|intros _]. destruct (concat rest) as [|x l] eqn:Er.
    + destruct (I1 eq_refl) as [-> ->]. split; [reflexivity|]. rewrite app_nil_r. destruct (fd_tile H) as (a & _ & _ & T).
      clear - H0 T. revert a T. induction pieces as [|q l IH]; intros a T; [congruence|]. destruct T as [_ T]. destruct l as [|q2 l].
      * exists q. simpl in *. auto.
      * destruct (IH ltac:(discriminate) _ T) as (m & M1 & M2). exists m. split; [|exact M2].
        change (rev (q :: q2 :: l)) with (rev (q2 :: l) ++ [q]). destruct (rev (q2 :: l)); [discriminate|exact M1].
    + destruct (I2 ltac:(discriminate)) as (-> & m & M1 & M2). split; [reflexivity|]. exists m. split; [|exact M2].
      rewrite rev_app_distr. destruct (rev (x :: l)); [discriminate|exact M1].
  - discriminate.
Qed.

(** a failed attempt: at most one piece in hand (nothing hidden, nothing broken), the positions stay together *)
Theorem C116_still_aligned : forall breaker input first parts r cur pieces r' w' cur' ok,
  attempt breaker input first parts r r cur pieces r' w' cur' ok -> ok = false ->
  r' = w' \/ exists m l, cur' = m :: l /\ w' = m_end m /\ r' <> m_end m.
Proof.
  intros breaker input first parts r cur pieces r' w' cur' ok H. remember r as w in H at 2. revert Heqw. induction H; intros E Ok; subst.
  - discriminate.
  - auto.
  - auto.
  - destruct cur as [|m l]; [now left|]. destruct (Z.eq_dec r (m_end m)) as [->|N]; [now left|]. right. exists m, l. auto.
Qed.

(** the chain  a [ab] c  on "abdac" (see C44_stale_text_refuted): not steady, yet covered *)
Example C116_example : Forall ordinary aab_chain /\ ~ steady aab_chain
  /\ exists n' ms, chain_match 20 chain_opts None aab_chain 0%nat (s "abdac") = Ok (n', ms) /\ map m_span ms = [(2, 5)].
Proof.
  split; [repeat (apply Forall_cons; [apply char_part_ordinary|]); constructor|]. split.
  - simpl. intros [F _]. inversion F as [|? ? X _]; subst. unfold optional in X. simpl in X. lia.
  - do 2 eexists. split; [vm_compute; reflexivity|]. reflexivity.
Qed.
Print Assumptions C116_chain_attempts.
Print Assumptions C116_matches_in_order.
