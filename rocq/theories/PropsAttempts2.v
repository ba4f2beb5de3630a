(** * C116 (continued): the account of a chain by its attempts leaves no choice *)
From Coq Require Import ZifyBool.
From Coq Require String. Export Coq.Strings.String.StringSyntax.
From Verif Require Import Base BaseFacts Match Coll Loose MatchFacts Pattern PatternFacts PropsPattern Chain SpecChain ChainFacts ChainSem PropsChain SpecAttempts Attempts PropsAttempts.
Set Implicit Arguments.
Unset Strict Implicit.
Open Scope Z_scope.

(** ** Specification *)
(** the same place and the same number *)
Definition same_place (a b : mtch) : Prop := m_span a = m_span b /\ m_index a = m_index b.
(** what is found in a text does not depend on how many objects exist already *)
Definition uniform (cp : cpart) : Prop :=
  forall n1 n2 t n1' n2' ms1 ms2 raws1 raws2, cp_match cp n1 t = Ok (n1', (ms1, raws1)) -> cp_match cp n2 t = Ok (n2', (ms2, raws2)) ->
    Forall2 same_place ms1 ms2 /\ Forall2 same_place raws1 raws2.
Definition same_piece (a b : mtch) : Prop := same_place a b /\ m_input a = m_input b /\ m_raw a = m_raw b.
(** a chain breaker looking at the places, the texts and the numbers *)
Definition plain_breaker (breaker : option (list mtch -> bool)) : Prop :=
  match breaker with Some b => forall l l', Forall2 same_piece l l' -> b l = b l' | None => True end.

(** ** Proofs *)
Lemma put_same input w a b a' b' : same_place a b -> put input w a a' -> put input w b b' -> same_piece a' b'.
Proof.
  intros [S1 S2] (A1 & A2 & A3 & A4) (B1 & B2 & B3 & B4). unfold m_span in *. injection S1 as E1 E2.
  assert (m_start a' = m_start b' /\ m_end a' = m_end b') as [Q1 Q2] by (injection A1 as -> ->; injection B1 as -> ->; lia).
  split; [split; [unfold m_span; congruence|congruence]|]. split; [congruence|]. rewrite A4, B4, Q1, Q2. reflexivity.
Qed.
Lemma puts_same input w : forall a b a' b', Forall2 same_place a b -> Forall2 (put input w) a a' -> Forall2 (put input w) b b' -> Forall2 same_piece a' b'.
Proof.
  intros a b a' b' H. revert a' b'. induction H; intros a' b' A B; inversion A; inversion B; subst; constructor; auto. eapply put_same; eauto.
Qed.
Lemma firstn_same k : forall a b, Forall2 same_place a b -> Forall2 same_place (firstn k a) (firstn k b).
Proof. induction k; intros a b H; [constructor|]. destruct H; simpl; constructor; auto. Qed.
Lemma visible_same first : forall ms ms' ps ps', Forall2 same_place ms ms' -> Forall2 same_place ps ps' -> Forall2 same_place (visible first ms ps) (visible first ms' ps').
Proof.
  intros ms ms' ps ps' M P. unfold visible.
  set (R := fun (x y : option mtch) => match x, y with Some a, Some b => same_place a b | None, None => True | _, _ => False end).
  assert (forall i, R (find (fun m => Nat.eqb (m_index m) i) ms) (find (fun m => Nat.eqb (m_index m) i) ms')) as F.
  { intro i. induction M as [|a b l l' [S1 S2] M IH]; cbn [find]; [exact Logic.I|]. rewrite <- S2. destruct (Nat.eqb (m_index a) i); [split; assumption|exact IH]. }
  assert (Forall2 R (map (fun p => find (fun m => Nat.eqb (m_index m) (m_index p)) ms) ps) (map (fun p => find (fun m => Nat.eqb (m_index m) (m_index p)) ms') ps')) as G.
  { induction P as [|a b l l' [S1 S2] P IH]; cbn [map]; constructor; auto. rewrite <- S2. apply F. }
  revert G. generalize (map (fun p => find (fun m => Nat.eqb (m_index m) (m_index p)) ms) ps) as x, (map (fun p => find (fun m => Nat.eqb (m_index m) (m_index p)) ms') ps') as y.
  intros x y G. assert (forall x y, Forall2 R x y -> Forall2 same_place (leading x) (leading y)) as L.
  { clear. induction 1 as [|[a|] [b|] l l' H G IH]; cbn [leading]; try contradiction; constructor; auto. }
  apply L. destruct first; [|exact G]. clear - G. induction G as [|[a|] [b|] l l' H G IH]; cbn [skip_none]; try contradiction; auto; constructor; auto.
Qed.
Lemma retain_same breaker : plain_breaker breaker -> forall vs vs' cur cur', Forall2 same_piece cur cur' -> Forall2 same_piece vs vs' ->
  Forall2 same_piece (retain breaker cur vs) (retain breaker cur' vs').
Proof.
  intros B vs vs' cur cur' C V. revert cur cur' C. induction V as [|a b l l' H V IH]; intros cur cur' C; cbn [retain]; [exact C|].
  assert (Forall2 same_piece (cur ++ [a]) (cur' ++ [b])) as C' by (apply Forall2_app; auto).
  assert (breaks breaker (cur ++ [a]) = breaks breaker (cur' ++ [b])) as -> by (destruct breaker as [f|]; [exact (B _ _ C')|reflexivity]).
  apply IH. destruct (breaks _ _); assumption.
Qed.
Lemma tile_nth : forall l a e k m, tile a l e -> nth_error l k = Some m -> tile a (firstn k l) (m_start m).
Proof.
  induction l as [|x r IH]; intros a e [|k] m T N; try discriminate; destruct T as [T1 T2].
  - injection N as ->. cbn [firstn tile]. auto.
  - cbn [firstn tile]. split; [exact T1|]. eapply IH; eauto.
Qed.
Lemma tile_same : forall l l' a a' e e', Forall2 same_piece l l' -> (l = [] -> a = a') -> tile a l e -> tile a' l' e' -> a = a' /\ e = e'.
Proof.
  intros l l' a a' e e' H. revert a a'. induction H as [|x y l l' [[S _] _] H IH]; intros a a' N T T'; cbn [tile] in *; [split; [auto|]; rewrite <- T, <- T'; auto|].
  destruct T as [T1 T], T' as [T1' T']. unfold m_span in S. injection S as S1 S2. split; [congruence|]. eapply IH; [|exact T|exact T']. auto.
Qed.
Lemma Forall2_firstn {A B} (R : A -> B -> Prop) k : forall l l', Forall2 R l l' -> Forall2 R (firstn k l) (firstn k l').
Proof. induction k; intros l l' H; [constructor|]. destruct H; simpl; constructor; auto. Qed.
Lemma Forall2_nth {A B} (R : A -> B -> Prop) : forall l l' k x y, Forall2 R l l' -> nth_error l k = Some x -> nth_error l' k = Some y -> R x y.
Proof. intros l l' k x y H. revert k. induction H; intros [|k] E E'; try discriminate; simpl in *; [congruence|eauto]. Qed.
Lemma nth_firstn {A} : forall k j (l : list A), (k < j)%nat -> nth_error (firstn j l) k = nth_error l k.
Proof. induction k; intros [|j] [|x l] H; try lia; try reflexivity. simpl. apply IHk. lia. Qed.
Lemma Forall2_len {A B} (R : A -> B -> Prop) l l' : Forall2 R l l' -> length l = length l'.
Proof. induction 1; simpl; congruence. Qed.
Lemma found_length input first cp r w ps vs e ps' vs' e' : uniform cp -> found input first cp r w ps vs e -> found input first cp r w ps' vs' e' ->
  ~ (length ps < length ps')%nat.
Proof.
  intros U [(n & n' & ms & raws & M & P & _ & F3) (a & A1 & A2 & T) _] [(n2 & n2' & ms2 & raws2 & M2 & P2 & _ & _) (a2 & B1 & B2 & T2) X2] L.
  destruct (U _ _ _ _ _ _ _ _ _ M M2) as [_ R]. pose proof (Forall2_len R) as RL. pose proof (Forall2_len P2) as L2. rewrite firstn_length in L2.
  destruct F3 as [(k & E & K)|[E|(m & E & NF & NE)]].
  - specialize (X2 _ E). lia.
  - lia.
  - destruct (nth_error ps' (length ps)) as [q|] eqn:Q; [|apply nth_error_None in Q; lia].
    destruct (nth_error raws2 (length ps)) as [m2|] eqn:Q2; [|apply nth_error_None in Q2; lia].
    assert (put input w m2 q) as (PQ & _). { refine (Forall2_nth P2 _ Q). rewrite nth_firstn by exact L. exact Q2. }
    destruct (Forall2_nth R E Q2) as [S _]. unfold m_span in S, PQ. injection S as S1 S2. injection PQ as Q1 _.
    apply NE. pose proof (tile_nth T2 Q) as T3.
    assert (Forall2 same_piece ps (firstn (length ps) ps')) as SP.
    { eapply puts_same; [apply (firstn_same (length ps)); exact R|exact P|]. pose proof (Forall2_firstn (length ps) P2) as P3. rewrite firstn_firstn, Nat.min_l in P3 by lia. exact P3. }
    assert (ps = [] -> a = a2) as N. { intro Z. destruct NF as [NF|NF]; [|contradiction]. rewrite A2, B2 by auto. reflexivity. }
    destruct (tile_same SP N T T3) as [_ Z]. lia.
Qed.
Lemma found_same input first cp r w ps vs e ps' vs' e' : uniform cp -> found input first cp r w ps vs e -> found input first cp r w ps' vs' e' ->
  length ps = length ps' /\ Forall2 same_piece ps ps' /\ Forall2 same_piece vs vs' /\ e = e'.
Proof.
  intros U H H'. assert (length ps = length ps') as L by (pose proof (found_length U H H'); pose proof (found_length U H' H); lia).
  destruct H as [(n & n' & ms & raws & M & P & V & _) (a & A1 & A2 & T) _], H' as [(n2 & n2' & ms2 & raws2 & M2 & P2 & V2 & _) (a2 & B1 & B2 & T2) _].
  destruct (U _ _ _ _ _ _ _ _ _ M M2) as [R1 R2]. split; [exact L|]. rewrite <- L in *.
  assert (Forall2 same_piece ps ps') as SP by (eapply puts_same; [apply (firstn_same (length ps)); exact R2|exact P|exact P2]).
  split; [exact SP|]. split; [eapply puts_same; [|exact V|exact V2]; apply visible_same; [exact R1|apply firstn_same; exact R2]|].
  assert (ps = [] -> a = a2) as N. { intro Z. rewrite A2, B2; auto. right. destruct ps'; [reflexivity|]. subst ps. discriminate. }
  exact (proj2 (tile_same SP N T T2)).
Qed.

(** ** Statements *)
(** an attempt: the number of repetitions of every part, their places, the positions for the next one, what is retained
    and whether a part is lacking are determined *)
Theorem C116_attempt_determined : forall breaker input first parts r w cur pieces r1 w1 cur1 ok cur' pieces' r2 w2 cur2 ok',
  Forall uniform parts -> plain_breaker breaker -> Forall2 same_piece cur cur' ->
  attempt breaker input first parts r w cur pieces r1 w1 cur1 ok -> attempt breaker input first parts r w cur' pieces' r2 w2 cur2 ok' ->
  Forall2 (Forall2 same_piece) pieces pieces' /\ r1 = r2 /\ w1 = w2 /\ Forall2 same_piece cur1 cur2 /\ ok = ok'.
Proof.
  intros breaker input first parts r w cur pieces r1 w1 cur1 ok cur' pieces' r2 w2 cur2 ok' U B C H. revert U cur' C pieces' r2 w2 cur2 ok'.
  induction H as [first r w cur|first cp parts r w cur rest r' w' cur1 ok F S H IH|first cp parts r w cur pieces vs e rest r' w' cur1 ok F NE S H IH|first cp parts r w cur pieces vs e F S];
    intros U cur' C pieces' r2 w2 cur2 ok' H'; inversion U as [|? ? U1 U2]; subst.
  - inversion H'; subst. auto.
  - inversion H' as [|? ? ? ? ? ? rest2 ? ? ? ? F' S' H2|? ? ? ? ? ? pieces2 vs2 e2 rest2 ? ? ? ? F' NE' S' H2|? ? ? ? ? ? pieces2 vs2 e2 F' S']; subst;
      destruct (found_same U1 F F') as (L & _ & _ & E).
    + destruct (IH U2 _ C _ _ _ _ _ H2) as (I1 & I2 & I3 & I4 & I5). auto.
    + destruct pieces2; [contradiction|discriminate].
    + exfalso. rewrite <- L in S'. simpl in S'. lia.
  - inversion H' as [|? ? ? ? ? ? rest2 ? ? ? ? F' S' H2|? ? ? ? ? ? pieces2 vs2 e2 rest2 ? ? ? ? F' NE' S' H2|? ? ? ? ? ? pieces2 vs2 e2 F' S']; subst;
      destruct (found_same U1 F F') as (L & P & V & E).
    + destruct pieces; [contradiction|discriminate].
    + subst e2. assert (Forall2 same_piece (if cp_hidden cp then cur else retain breaker cur vs) (if cp_hidden cp then cur' else retain breaker cur' vs2)) as C'
        by (destruct (cp_hidden cp); [exact C|now apply retain_same]).
      destruct (IH U2 _ C' _ _ _ _ _ H2) as (I1 & I2 & I3 & I4 & I5). auto.
    + exfalso. lia.
  - inversion H' as [|? ? ? ? ? ? rest2 ? ? ? ? F' S' H2|? ? ? ? ? ? pieces2 vs2 e2 rest2 ? ? ? ? F' NE' S' H2|? ? ? ? ? ? pieces2 vs2 e2 F' S']; subst;
      destruct (found_same U1 F F') as (L & P & V & E).
    + exfalso. simpl in L. lia.
    + exfalso. lia.
    + repeat split; auto. destruct C as [|x y ? ? [[Sp _] _] C]; [reflexivity|]. unfold m_span in Sp. injection Sp as _ Sp. exact Sp.
Qed.
Lemma concat_empty (a b : list (list mtch)) : Forall2 (Forall2 same_piece) a b -> concat a = [] -> concat b = [].
Proof. induction 1 as [|x y l l' H F IH]; cbn [concat]; [auto|]. intro E. apply app_eq_nil in E as [-> E]. inversion H; subst. auto. Qed.
Lemma Forall2_sym_piece (a b : list mtch) : Forall2 same_piece a b -> Forall2 same_piece b a.
Proof. induction 1 as [|x y l l' [[A B] [C D]] F IH]; constructor; auto. repeat split; auto. Qed.
(** the matches of the chain: how many, and where each begins and ends *)
Theorem C116_determined : forall breaker input parts r w ms ms',
  Forall uniform parts -> plain_breaker breaker ->
  history breaker input parts r w ms -> history breaker input parts r w ms' -> map m_span ms = map m_span ms'.
Proof.
  intros breaker input parts r w ms ms' U B H. revert ms'.
  induction H as [r w E|r w pieces r' w' cur ok E A N|r w pieces r' w' cur M rest E A N J H IH|r w pieces r' w' cur ok rest E A N J H IH]; intros ms' H';
    inversion H' as [? ? E'|? ? pieces2 r2 w2 cur2 ok2 E' A' N'|? ? pieces2 r2 w2 cur2 M2 rest2 E' A' N' J' H2|? ? pieces2 r2 w2 cur2 ok2 rest2 E' A' N' J' H2]; subst;
    try lia; try reflexivity;
    destruct (C116_attempt_determined U B (Forall2_nil _) A A') as (D1 & D2 & D3 & D4 & D5); subst;
    try (exfalso; apply N'; exact (concat_empty D1 N)).
  - exfalso. apply N. apply concat_empty with pieces2; [|exact N']. clear - D1. induction D1; constructor; auto. now apply Forall2_sym_piece.
  - cbn [map]. rewrite (IH _ H2). f_equal. destruct J as (f & l & J1 & J2 & J3 & _), J' as (f' & l' & J1' & J2' & J3' & _). rewrite J3, J3'.
    assert (forall a b f f', Forall2 same_piece a b -> hd_error a = Some f -> hd_error b = Some f' -> m_span f = m_span f') as X.
    { clear. intros a b f f' Q Ea Eb. destruct Q as [|x y a b [[S _] _] Q]; [discriminate|]. simpl in *. congruence. }
    pose proof (X _ _ _ _ D4 J1 J1') as X1. assert (Forall2 same_piece (rev cur) (rev cur2)) as D6 by (clear - D4; induction D4; simpl; [constructor|apply Forall2_app; auto]).
    pose proof (X _ _ _ _ D6 J2 J2') as X2. unfold m_span in X1, X2. congruence.
  - exfalso. destruct J' as [->|Z]; [|discriminate]. inversion D4; subst. destruct J as (f & ? & J1 & _). discriminate.
  - exfalso. apply N. apply concat_empty with pieces2; [|exact N']. clear - D1. induction D1; constructor; auto. now apply Forall2_sym_piece.
  - exfalso. destruct J as [->|Z]; [|discriminate]. inversion D4; subst. destruct J' as (f & ? & J1 & _). discriminate.
  - auto.
Qed.
(** patterns without processors, validators and ignored names are uniform *)
Definition always_accepts (p : popts) : Prop := (forall child m, accepted p child m) /\ po_ignore_names p = [].
Lemma produced_all p : parents_only p -> always_accepts p -> forall f occ oss j, Forall2 same_occurrence f occ -> Forall2i (produces p) j occ oss ->
  Forall (fun m => mtrue m = true) f -> map m_span (concat oss) = map m_span f /\ map m_index (concat oss) = seq j (length (concat oss)).
Proof.
  intros (C1 & C2 & C3) (AA & AI). induction f as [|o f IH]; intros occ oss j F G A.
  - inversion F; subst. inversion G; subst. repeat split.
  - inversion F as [|? a ? occ' F1 F2]; subst. inversion G as [|? ? os ? oss' G1 G2]; subst. inversion A as [|? ? A1 A2]; subst.
    destruct (IH _ _ _ F2 G2 A2) as (I1 & I2).
    destruct G1 as (P & [(T1 & _) T5 _ _ _] & P2 & P3 & P4). cbv zeta in P4.
    assert (os = [P]) as ->.
    { destruct P4 as [(_ & _ & ->)|([N|N] & _)].
      - unfold chosen. rewrite C1, C2, C3. unfold ignored. rewrite AI. destruct (m_name P); reflexivity.
      - exfalso. apply N, AA.
      - exfalso. apply Exists_exists in N as (c & _ & N). apply N, AA. }
    apply same_occurrence_len in F1 as (_ & S1 & _). cbn [concat app map length seq]. rewrite I1, I2, T1, T5, S1. repeat split.
Qed.
Lemma same_places : forall a b, map m_span a = map m_span b -> map m_index a = map m_index b -> Forall2 same_place a b.
Proof.
  induction a as [|x a IH]; intros [|y b] E F; try discriminate; cbn [map] in *; constructor.
  - split; congruence.
  - apply IH; congruence.
Qed.
Theorem C116_patterns_uniform : forall p src rstart rend hidden, no_processor p -> parents_only p -> always_accepts p -> orderly_source src ->
  uniform (CPart (pattern_matches p src) rstart rend hidden).
Proof.
  intros p src rstart rend hidden N PO AA S n1 n2 t n1' n2' ms1 ms2 raws1 raws2 H1 H2. cbn [cp_match] in *. pose proof (orderly_sound S) as S0.
  assert (exists f, finds p t src [f] /\ (forall f', finds p t src [f'] -> f' = f)
    /\ (map m_span ms1 = map m_span f /\ map m_index ms1 = seq 0 (length ms1)) /\ (map m_span raws1 = map m_span f /\ map m_index raws1 = seq 0 (length raws1))) as (f & F1 & Q & A1 & A2).
  2: assert (exists f, finds p t src [f]
    /\ (map m_span ms2 = map m_span f /\ map m_index ms2 = seq 0 (length ms2)) /\ (map m_span raws2 = map m_span f /\ map m_index raws2 = seq 0 (length raws2))) as (f' & F2 & B1 & B2).
  3:{ apply Q in F2. subst f'. assert (forall a b, map m_span a = map m_span b -> length a = length b) as L by (intros a b X; rewrite <- (map_length m_span a), X; apply map_length).
      assert (map m_span ms1 = map m_span ms2) as E1 by intuition congruence. assert (map m_span raws1 = map m_span raws2) as E2 by intuition congruence.
      split; apply same_places; auto; [rewrite (proj2 A1), (proj2 B1), (L _ _ E1)|rewrite (proj2 A2), (proj2 B2), (L _ _ E2)]; reflexivity. }
  1: rename H1 into H, n1 into n, n1' into n', ms1 into ms, raws1 into raws. 2: rename H2 into H, n2 into n, n2' into n', ms2 into ms, raws2 into raws.
  all: destruct (raws_found N H) as (found & rawss & F & -> & Q0); destruct (C41_all_or_nothing N H) as (found' & occs & outss & F' & B & D & ->);
    destruct (orderly_found S F) as (g & -> & X1 & X2); destruct (orderly_found S F') as (g' & -> & _);
    (assert (forall f', finds p t src [f'] -> f' = g) as U by (intros h Fh; clear - F Fh; destruct src; cbn [finds] in *; inversion F; inversion Fh; subst; congruence));
    (assert (g' = g) as -> by (apply U; exact F'));
    pose proof (found_advances S0 F) as A3; simpl in A3; rewrite app_nil_r in A3;
    (assert (Forall (fun m => advances t m /\ m_rawstart m = None /\ m_end m <= zlen t /\ m_parent m = None /\ mtrue m = true) g) as A
      by (rewrite Forall_forall in *; intros m Hm; destruct (X1 m Hm) as (? & ? & ?); destruct (A3 m Hm) as (? & ? & ?); repeat split; auto; match goal with X : advances _ _ |- _ => apply X end));
    inversion Q0 as [|? rs ? ? (occ & Q1 & Q2) Q3]; subst; inversion Q3; subst;
    inversion B as [|? occ' ? ? Y1 Y2]; subst; inversion Y2; subst; inversion D as [|? os ? ? (oss & D1 & ->) D2]; subst; inversion D2; subst;
    simpl; rewrite !app_nil_r; destruct (raws_numbered Q1 Q2 A) as (R1 & R2 & R3);
    (assert (Forall (fun m => mtrue m = true) g) as TT by (eapply Forall_impl; [|exact A]; cbv beta; tauto));
    destruct (produced_all PO AA Y1 D1 TT) as (V1 & V2); exists g; auto 10.
Qed.
Lemma char_part_uniform id set rep hidden : uniform (char_part id set rep hidden).
Proof. apply C116_patterns_uniform; [repeat split|repeat split| |apply char_rx_orderly]. split; [intros child m; apply validator_accepted; unfold process_validator, config_keys; destruct child, (truthy_name (m_name m)), (m_name m); reflexivity|reflexivity]. Qed.
(** so the matches of such a chain are where the account by attempts puts them, whatever the number of objects already made *)
Theorem C116_where : forall fuel p breaker parts n input n' ms ms', Forall ordinary parts -> Forall uniform parts -> plain_breaker breaker ->
  chain_match fuel p breaker parts n input = Ok (n', ms) -> history breaker input parts 0 0 ms' -> map m_span ms = map m_span ms'.
Proof.
  intros fuel p breaker parts n input n' ms ms' O U B H H'. apply C116_chain_attempts in H; [|exact O]. exact (C116_determined U B H H').
Qed.
Example C116_where_case : Forall ordinary aab_chain /\ Forall uniform aab_chain /\ plain_breaker (Some (fun l => existsb (fun m => m_start m =? 3) l))
  /\ exists n' ms, chain_match 20 chain_opts None aab_chain 0%nat (s "abdac") = Ok (n', ms) /\ history None (s "abdac") aab_chain 0 0 ms /\ map m_span ms = [(2, 5)].
Proof.
  split; [repeat (apply Forall_cons; [apply char_part_ordinary|]); constructor|]. split; [repeat (apply Forall_cons; [apply char_part_uniform|]); constructor|].
  split; [intros l l' H; induction H as [|x y l l' [[Sp _] _] H IH]; cbn [existsb]; [reflexivity|]; rewrite IH; unfold m_span in Sp; injection Sp as -> _; reflexivity|].
  do 2 eexists. split; [vm_compute; reflexivity|]. split; [|reflexivity].
  eapply C116_chain_attempts with (fuel := 20%nat) (p := chain_opts) (n := 0%nat); [repeat (apply Forall_cons; [apply char_part_ordinary|]); constructor|vm_compute; reflexivity].
Qed.
Print Assumptions C116_attempt_determined.
Print Assumptions C116_where.
