(** * C107-C110: the collection after any history whatever

    C80-C85 suppose that every match handed over is accepted and that no deletion of a slice raises.
    Here nothing is supposed: refused matches, failed deletions, [==] matches with different tags. *)
From Verif Require Import Base BaseFacts Match Spec MatchFacts Coll CollFacts CollQuery CollSem CollSem2 SpecColl
  CollHist CollUniv CollOrder CollMore SpecFiled CollFiled CollFiled2 PropsColl PropsFiled SpecDerived PropsDerived PropsTyped SpecCards CollCards.
From Coq Require Import ZifyBool.
Export Coq.Strings.String.StringSyntax.
Set Implicit Arguments.
Unset Strict Implicit.
Open Scope Z_scope.

Lemma sim_empty k input : sim k (empty_coll k input) (World [] (fun _ => None)).
Proof. split; [reflexivity|]. split; [reflexivity|]. intros []; exact I. Qed.

(** The outcomes of the calls of a history. *)
Fixpoint outcomes (c : coll) (ops : list op) : list out :=
  match ops with
  | [] => []
  | o :: r => snd (step c o) :: outcomes (fst (step c o)) r
  end.
Lemma outcomes_snoc o : forall ops c, outcomes c (ops ++ [o]) = outcomes c ops ++ [snd (step (run c ops) o)].
Proof. induction ops as [|x ops IH]; intro c; [reflexivity|]. cbn [app outcomes]. rewrite IH. reflexivity. Qed.

Lemma reach_cards k input ops :
  exists s, history k ops (outcomes (empty_coll k input) ops) s /\ sim k (run (empty_coll k input) ops) s.
Proof.
  induction ops as [|o ops (s & H1 & H2)] using rev_ind.
  - exists (World [] (fun _ => None)). split; [constructor | apply sim_empty].
  - destruct (sim_step o H2) as (s' & D & H'). exists s'. rewrite outcomes_snoc, run_snoc. split; [econstructor; eassumption | exact H'].
Qed.

(** ** C108: the whole account *)
Theorem C108_account : forall k input ops,
  exists s, history k ops (outcomes (empty_coll k input) ops) s /\ c_del (run (empty_coll k input) ops) = members s.
Proof. intros k input ops. destruct (reach_cards k input ops) as (s & H1 & H2). exists s. split; [exact H1 | apply (sim_members H2)]. Qed.

(** ** C107: contents and exceptions of every call *)
(** the first and last [j] items taken from the reversed list *)
Definition half_reversed (l l' : list mtch) (head tail : nat) : Prop :=
  length l' = length l
  /\ forall p, (p < length l)%nat ->
     nth_error l' p = if (p <? head)%nat || (length l - tail <=? p)%nat then nth_error (rev l) p else nth_error l p.

Definition call_effect (k : kind) (l : list mtch) (o : op) (l' : list mtch) (r : out) : Prop :=
  let refused m := accepts k m = false in
  match o with
  | OAppend m | OInsert _ m => l' = fst (list_step l o) /\ r = (if accepts k m then RUnit else RErr AssertionError)
  | OExtend ms =>
      (Forall (fun m => accepts k m = true) ms /\ l' = l ++ ms /\ r = RUnit)
      \/ (exists a x b, ms = a ++ x :: b /\ Forall (fun m => accepts k m = true) a /\ refused x /\ l' = l ++ a ++ [x] /\ r = RErr AssertionError)
  | OSetitem i m => l' = fst (list_step l o)
      /\ r = match py_nth l i with Some _ => if accepts k m then RUnit else RErr AssertionError | None => RErr IndexError end
  | OSetslice _ _ ms => l' = fst (list_step l o) /\ r = (if forallb (accepts k) ms then RUnit else RErr AssertionError)
  | ORemove _ | ODelitem _ | ODelslice _ _ | OPop _ =>
      (* the contents are those of a list even when the call raises *)
      l' = fst (list_step l o) /\ (r = snd (list_step l o) \/ (r = RErr ValueError /\ (length l' < length l)%nat))
  | OClear => (l' = [] /\ r = RUnit) \/ (r = RErr ValueError /\ exists n, (n < length l)%nat /\ l' = firstn n l)
  | OReverse =>
      (l' = rev l /\ r = RUnit)
      \/ (r = RErr AssertionError /\ exists j a b, (j < Nat.div (length l) 2)%nat
          /\ nth_error l j = Some b /\ nth_error l (length l - 1 - j) = Some a
          /\ ((refused a /\ half_reversed l l' (S j) j) \/ (accepts k a = true /\ refused b /\ half_reversed l l' (S j) (S j))))
  | _ => l' = l
  end.

Lemma nth_replace {A} (l : list A) n x p : (n < length l)%nat ->
  nth_error (replace_nth n x l) p = if (p =? n)%nat then Some x else nth_error l p.
Proof.
  intro H. unfold replace_nth. destruct (lt_dec p n) as [H1|H1].
  - rewrite nth_error_app1 by (rewrite firstn_length; lia).
    replace (p =? n)%nat with false by lia. revert p l H H1. clear. induction n as [|n IH]; intros p l H H1; [lia|].
    destruct l as [|y l]; [simpl in H; lia|]. destruct p as [|p]; [reflexivity|]. cbn [firstn nth_error]. apply IH; [simpl in H; lia | lia].
  - rewrite nth_error_app2 by (rewrite firstn_length; lia). rewrite firstn_length, Nat.min_l by lia.
    destruct (p =? n)%nat eqn:E.
    + replace (p - n)%nat with 0%nat by lia. reflexivity.
    + replace (p - n)%nat with (S (p - S n)) by lia. cbn [nth_error].
      replace p with (S n + (p - S n))%nat at 2 by lia. generalize (p - S n)%nat. intro q. clear.
      revert l. generalize (S n). clear n. induction n as [|n IH]; intro l; [reflexivity|]. destruct l as [|y l]; [destruct q; reflexivity|]. cbn [skipn Nat.add nth_error]. apply IH.
Qed.
Lemma nth_rev {A} (l : list A) p : (p < length l)%nat -> nth_error (rev l) p = nth_error l (length l - 1 - p).
Proof.
  intro H. destruct l as [|d l0]; [simpl in H; lia|]. set (l := d :: l0) in *.
  rewrite (nth_error_nth' (rev l) d) by (rewrite rev_length; exact H).
  rewrite (nth_error_nth' l d) by lia. rewrite rev_nth by exact H. do 2 f_equal. lia.
Qed.
Lemma nth_error_ext' {A} (a b : list A) : length a = length b -> (forall p, (p < length a)%nat -> nth_error a p = nth_error b p) -> a = b.
Proof.
  revert b. induction a as [|x a IH]; intros [|y b] HL H; try discriminate; [reflexivity|].
  pose proof (H 0%nat) as H0. simpl in H0. assert (x = y) as -> by (specialize (H0 ltac:(lia)); congruence). f_equal.
  apply IH; [simpl in HL; lia|]. intros p Hp. apply (H (S p)). simpl. lia.
Qed.
Lemma half_none l : half_reversed l l 0 0.
Proof. split; [reflexivity|]. intros p Hp. replace ((p <? 0)%nat || (length l - 0 <=? p)%nat) with false by lia. reflexivity. Qed.
Lemma half_all l l' : half_reversed l l' (Nat.div (length l) 2) (Nat.div (length l) 2) -> l' = rev l.
Proof.
  intros [H1 H2]. apply nth_error_ext'; [rewrite rev_length; exact H1|]. intros p Hp. rewrite H1 in Hp. rewrite H2 by exact Hp.
  pose proof (Nat.div_mod (length l) 2). pose proof (Nat.mod_upper_bound (length l) 2).
  destruct ((p <? length l / 2)%nat || (length l - length l / 2 <=? p)%nat) eqn:E; [reflexivity|].
  rewrite nth_rev by exact Hp. f_equal. lia.
Qed.
Lemma swap_loop k l : forall m i s s' r, each (swap_at k) (seq i m) s s' r -> half_reversed l (members s) i i -> (i + m = Nat.div (length l) 2)%nat ->
  (r = RUnit /\ half_reversed l (members s') (i + m) (i + m))
  \/ (r = RErr AssertionError /\ exists j a b, (j < Nat.div (length l) 2)%nat
          /\ nth_error l j = Some b /\ nth_error l (length l - 1 - j) = Some a
          /\ ((accepts k a = false /\ half_reversed l (members s') (S j) j) \/ (accepts k a = true /\ accepts k b = false /\ half_reversed l (members s') (S j) (S j)))).
Proof.
  induction m as [|m IH]; intros i s s' r HE Hh Hm.
  - inversion HE as [? ? U1 U2| |]; subst. left. split; [reflexivity|]. rewrite U1, Nat.add_0_r. exact Hh.
  - pose proof (Nat.mul_div_le (length l) 2) as Hd.
    assert (forall s1 r1, swap_at k i s s1 r1 ->
      exists a b, nth_error l i = Some b /\ nth_error l (length l - 1 - i) = Some a
       /\ ((r1 = RUnit /\ half_reversed l (members s1) (S i) (S i))
           \/ (r1 = RErr AssertionError /\ accepts k a = false /\ half_reversed l (members s1) (S i) i)
           \/ (r1 = RErr AssertionError /\ accepts k a = true /\ accepts k b = false /\ half_reversed l (members s1) (S i) (S i)))) as G.
    { intros s1 r1 (a & b & s0 & r0 & Ea & Eb & C1 & C2). destruct Hh as [L1 L2]. rewrite L1 in Ea.
      rewrite L2 in Ea by lia. rewrite L2 in Eb by lia.
      replace ((length l - 1 - i <? i)%nat || (length l - i <=? length l - 1 - i)%nat) with false in Ea by lia.
      replace ((i <? i)%nat || (length l - i <=? i)%nat) with false in Eb by lia.
      exists a, b. split; [exact Eb|]. split; [exact Ea|]. unfold comes in C1. cbn [members put] in C1. destruct C1 as [M1 C1].
      assert (half_reversed l (members s0) (S i) i) as H1.
      { rewrite M1. split; [rewrite replace_length by lia; exact L1|]. intros p Hp. rewrite nth_replace by lia.
        destruct (p =? i)%nat eqn:Ep.
        - assert (p = i) as -> by lia. replace ((i <? S i)%nat || (length l - i <=? i)%nat) with true by lia. rewrite nth_rev by lia. symmetry; exact Ea.
        - rewrite L2 by exact Hp. replace (p <? S i)%nat with (p <? i)%nat by lia. reflexivity. }
      assert (half_reversed l (replace_nth (length (members s) - 1 - i) b (members s0)) (S i) (S i)) as H2.
      { rewrite L1. destruct H1 as [K1 K2]. split; [rewrite replace_length by lia; exact K1|]. intros p Hp. rewrite nth_replace by lia.
        destruct (p =? length l - 1 - i)%nat eqn:Ep.
        - assert (p = length l - 1 - i)%nat as -> by lia.
          replace ((length l - 1 - i <? S i)%nat || (length l - S i <=? length l - 1 - i)%nat) with true by lia. rewrite nth_rev by lia.
          replace (length l - 1 - (length l - 1 - i))%nat with i by lia. symmetry; exact Eb.
        - rewrite K2 by exact Hp. replace (length l - S i <=? p)%nat with (length l - i <=? p)%nat by lia. reflexivity. }
      destruct (accepts k a) eqn:Aa.
      - destruct C1 as [-> _]. destruct C2 as [M2 C2]. cbn [members put] in M2. rewrite M2.
        destruct (accepts k b) eqn:Ab; destruct C2 as [-> _]; [left; auto | right; right; auto].
      - destruct C1 as [-> _]. destruct C2 as (-> & M2 & _). right; left. rewrite M2. auto. }
    cbn [seq] in HE. inversion HE as [|? ? ? s1 ? ? P1 P2|? ? ? ? e P1]; subst.
    + destruct (G _ _ P1) as (a & b & Eb & Ea & [[_ H1]|[(D & _)|(D & _)]]); try discriminate.
      destruct (IH (S i) s1 s' r P2 H1) as [[-> H]|H]; [lia | left | right; exact H].
      split; [reflexivity|]. replace (i + S m)%nat with (S i + m)%nat by lia. exact H.
    + right. destruct (G _ _ P1) as (a & b & Eb & Ea & [[D _]|[(D & H1 & H2)|(D & H1 & H2 & H3)]]); [discriminate| |].
      * split; [congruence|]. exists i, a, b. split; [lia|]. split; [exact Eb|]. split; [exact Ea|]. left. auto.
      * split; [congruence|]. exists i, a, b. split; [lia|]. split; [exact Eb|]. split; [exact Ea|]. right. auto.
Qed.

Lemma goes_members m s s' r : goes m s s' r -> members s' = members s.
Proof. intros [H _]. exact H. Qed.
Lemma each_goes ms : forall s s' r, each goes ms s s' r -> members s' = members s /\ (r = RUnit \/ r = RErr ValueError).
Proof.
  induction ms as [|m ms IH]; intros s s' r H; inversion H as [? ? U1 U2|? ? ? s1 ? ? P1 P2|? ? ? ? e P1]; subst.
  - auto.
  - destruct (IH _ _ _ P2) as [E1 E2]. split; [rewrite E1; apply (goes_members P1) | exact E2].
  - split; [apply (goes_members P1)|]. destruct (goes_err P1) as [D|D]; [discriminate | right; exact D].
Qed.
Lemma each_comes k ms : forall s s' r, each (comes k) ms s s' r ->
  members s' = members s /\ r = (if forallb (accepts k) ms then RUnit else RErr AssertionError).
Proof.
  induction ms as [|m ms IH]; intros s s' r H; inversion H as [? ? U1 U2|? ? ? s1 ? ? P1 P2|? ? ? ? e P1]; subst; cbn [forallb].
  - auto.
  - destruct (IH _ _ _ P2) as [E1 E2]. destruct P1 as [M1 P1]. split; [congruence|]. destruct (accepts k m); [exact E2|]. destruct P1; discriminate.
  - destruct P1 as [M1 P1]. split; [exact M1|]. destruct (accepts k m); destruct P1 as [P1 _]; [discriminate | cbn [andb]; congruence].
Qed.
Lemma each_appends k ms : forall s s' r, each (fun m s s' r => comes k m (put s (members s ++ [m])) s' r) ms s s' r ->
  (Forall (fun m => accepts k m = true) ms /\ members s' = members s ++ ms /\ r = RUnit)
  \/ (exists a x b, ms = a ++ x :: b /\ Forall (fun m => accepts k m = true) a /\ accepts k x = false /\ members s' = members s ++ a ++ [x] /\ r = RErr AssertionError).
Proof.
  induction ms as [|m ms IH]; intros s s' r H; inversion H as [? ? U1 U2|? ? ? s1 ? ? P1 P2|? ? ? ? e P1]; subst.
  - left. rewrite app_nil_r. auto.
  - destruct P1 as [M1 P1]. cbn [members put] in M1. destruct (accepts k m) eqn:Em; [|destruct P1; discriminate].
    destruct (IH _ _ _ P2) as [(F & E & ->)|(a & x & b & -> & F & Ex & E & ->)].
    + left. split; [constructor; assumption|]. split; [|reflexivity]. rewrite E, M1, <- app_assoc. reflexivity.
    + right. exists (m :: a), x, b. split; [reflexivity|]. split; [constructor; assumption|]. split; [exact Ex|]. split; [|reflexivity]. rewrite E, M1, <- app_assoc. reflexivity.
  - destruct P1 as [M1 P1]. cbn [members put] in M1. destruct (accepts k m) eqn:Em; destruct P1 as [P1 _]; [discriminate|].
    right. exists [], m, ms. split; [reflexivity|]. split; [constructor|]. split; [exact Em|]. split; [exact M1 | congruence].
Qed.
Lemma each_pops ms : forall s s' r, each (fun m s s' r => goes m (put s (removelast (members s))) s' r) ms s s' r -> members s = rev ms ->
  (members s' = [] /\ r = RUnit) \/ (r = RErr ValueError /\ exists n, (n < length ms)%nat /\ members s' = firstn n (rev ms)).
Proof.
  induction ms as [|m ms IH]; intros s s' r H E; inversion H as [? ? U1 U2|? ? ? s1 ? ? P1 P2|? ? ? ? e P1]; subst.
  - left. split; [rewrite U1; exact E | reflexivity].
  - apply goes_members in P1. cbn [members put] in P1. rewrite E in P1. cbn [rev] in P1. rewrite removelast_snoc in P1.
    destruct (IH _ _ _ P2 P1) as [H1|(H1 & n & Hn & H2)]; [left; exact H1|]. right. split; [exact H1|]. exists n. split; [simpl; lia|].
    rewrite H2. cbn [rev]. rewrite firstn_app, rev_length. replace (n - length ms)%nat with 0%nat by lia. cbn [firstn]. rewrite app_nil_r. reflexivity.
  - right. destruct (goes_err P1) as [D|D]; [discriminate|]. split; [exact D|]. exists (length ms). split; [simpl; lia|].
    apply goes_members in P1. cbn [members put] in P1. rewrite P1, E. cbn [rev]. rewrite removelast_snoc, firstn_app, rev_length, Nat.sub_diag.
    cbn [firstn]. rewrite app_nil_r, <- (rev_length ms), firstn_all. reflexivity.
Qed.
Lemma remove_nth_length {A} n (l : list A) : (n < length l)%nat -> (length (remove_nth n l) < length l)%nat.
Proof. intro H. unfold remove_nth. rewrite app_length, firstn_length, skipn_length. lia. Qed.
Lemma py_pos_lt {A} (l : list A) i n : py_pos l i = Some n -> (n < length l)%nat.
Proof.
  unfold py_pos, zlen. cbv zeta. destruct (i <? 0); match goal with |- (if ?b then _ else _) = _ -> _ => destruct b eqn:E end; try discriminate;
    intro H; injection H as <-; lia.
Qed.

Lemma does_effect k o s s' r : does k o s s' r -> call_effect k (members s) o (members s') r.
Proof.
  intro D. destruct o; cbn [does call_effect list_step fst snd] in *; try (apply (proj1 (proj1 D))).
  - destruct D as [M D]. cbn [members put] in M. split; [exact M|]. destruct (accepts k m); apply D.
  - destruct D as [M D]. cbn [members put] in M. split; [exact M|]. destruct (accepts k m); apply D.
  - apply each_appends in D. exact D.
  - rewrite member_equal_index in D. rewrite remove_first_index in *. destruct (index_of (meq m) (members s)) as [n|] eqn:E.
    + pose proof (index_of_lt E) as Hn. destruct (nth_error (members s) n) eqn:En; [|apply nth_error_None in En; lia].
      pose proof (goes_members D) as M. cbn [members put] in M. cbn [fst snd]. split; [exact M|].
      destruct (goes_err D) as [->| ->]; [left; reflexivity | right; split; [reflexivity|]]. rewrite M. apply remove_nth_length, Hn.
    + destruct D as [[U _] ->]. auto.
  - unfold py_nth in D. destruct (py_pos (members s) i) as [n|] eqn:E; cbn [fst snd].
    + pose proof (py_pos_lt E) as Hn. destruct (nth_error (members s) n) eqn:En; [|apply nth_error_None in En; lia].
      pose proof (goes_members D) as M. cbn [members put] in M. split; [exact M|].
      destruct (goes_err D) as [->| ->]; [left; reflexivity | right; split; [reflexivity|]]. rewrite M. apply remove_nth_length, Hn.
    + destruct D as [[U _] ->]. auto.
  - pose proof (each_goes D) as [M Hr]. cbn [members put] in M. split; [exact M|]. destruct Hr as [->| ->]; [left; reflexivity|].
    right. split; [reflexivity|]. rewrite M. destruct (py_slice_unslice (members s) i j) as (a & b & Eu & El).
    destruct (py_slice (members s) i j) as [|x sl] eqn:Es.
    { inversion D. }
    apply (f_equal (@length _)) in El, Eu. rewrite !app_length in El. rewrite app_length in Eu. simpl in El. lia.
  - unfold py_nth in D. destruct (py_pos (members s) i) as [n|] eqn:E; cbn [fst snd].
    + pose proof (py_pos_lt E) as Hn. destruct (nth_error (members s) n) as [x|] eqn:En; [|apply nth_error_None in En; lia].
      cbn [fst snd]. destruct D as (r' & D & ->). pose proof (goes_members D) as M. cbn [members put] in M. split; [exact M|].
      destruct (goes_err D) as [->| ->]; [left; reflexivity | right; split; [reflexivity|]]. rewrite M. apply remove_nth_length, Hn.
    + destruct D as [[U _] ->]. auto.
  - apply each_pops in D; [|rewrite rev_involutive; reflexivity]. rewrite rev_length, rev_involutive in D. exact D.
  - unfold py_nth. destruct (py_pos (members s) i) as [n|] eqn:E; cbn [fst snd].
    + pose proof (py_pos_lt E) as Hn. destruct (nth_error (members s) n) as [x|] eqn:En; [|apply nth_error_None in En; lia].
      destruct D as [M D]. cbn [members put] in M. split; [exact M|]. destruct (accepts k m); apply D.
    + destruct D as [[U _] ->]. auto.
  - apply each_comes in D as [M D]. cbn [members put] in M. auto.
  - apply swap_loop with (l := members s) in D; [|apply half_none | reflexivity]. destruct D as [[-> D]|D]; [left | right; exact D].
    split; [apply half_all; exact D | reflexivity].
Qed.

Theorem C107_every_call : forall k input ops o,
  let c := run (empty_coll k input) ops in
  call_effect k (c_del c) o (c_del (fst (step c o))) (snd (step c o)).
Proof.
  intros k input ops o c. destruct (reach_cards k input ops) as (s & _ & H). fold c in H.
  destruct (sim_step o H) as (s' & D & H'). rewrite (sim_members H), (sim_members H'). apply does_effect, D.
Qed.
(** what a refused match leaves, step by step: it is in the list, no lookup made before knows it, and it cannot be taken out without an exception *)
Example C107_example :
  let k := set_marker ex_b true in
  let ops := [OAppend ex_a; OStarting 0; OAppend k] in
  let c := run (empty_coll KMatches ex_input) ops in
  outcomes (empty_coll KMatches ex_input) ops = [RUnit; RList [ex_a]; RErr AssertionError]
  /\ c_del c = [ex_a; k]
  /\ snd (step c (OStarting (m_start k))) = RList [] /\ snd (step c (OEnding (m_end k))) = RList [k]
  /\ snd (step c (ORemove k)) = RErr ValueError /\ c_del (fst (step c (ORemove k))) = [ex_a]
  /\ snd (step c OReverse) = RErr AssertionError /\ c_del (fst (step c OReverse)) = [k; k]
  /\ snd (step c OClear) = RErr ValueError /\ c_del (fst (step c OClear)) = [ex_a].
Proof. cbv zeta. repeat split; vm_compute; reflexivity. Qed.

(** ** C109: when taking a match out raises *)
(** the match a call takes out of the contents [l] *)
Definition takes (l : list mtch) (o : op) : option mtch :=
  match o with
  | ODelitem i | OPop i => py_nth l i
  | ORemove m => member_equal m l
  | _ => None
  end.
Definition listed (c : coll) (o : op) : list mtch := match snd (step c o) with RList l => l | _ => [] end.
(** [x] is found by its name, its tags (as often as it has them), its start, its end and its positions *)
Definition well_filed (c : coll) (x : mtch) : Prop :=
  (forall n, m_name x = Some n -> n <> [] -> existsb (meq x) (listed c (ONamed [n])) = true)
  /\ (forall t, In t (m_tags x) -> (countb (pstr_eqb t) (m_tags x) <= countb (meq x) (listed c (OTagged t)))%nat)
  /\ existsb (meq x) (listed c (OStarting (m_start x))) = true
  /\ existsb (meq x) (listed c (OEnding (m_end x))) = true
  /\ (forall i, m_start x <= i < m_end x -> existsb (meq x) (listed c (OAtIndex i)) = true).
Definition one_of_each : list op := [ONames; OTags; OStarting 0; OEnding 0; OAtIndex 0].

Lemma countb_remove {A} (p : A -> bool) l l' : remove_first p l = Some l' -> countb p l = S (countb p l').
Proof.
  intro E. apply remove_first_Some in E as (a & x & b & -> & Hx & _ & ->). rewrite !countb_app, countb_cons, Hx. lia.
Qed.
Lemma countb_none {A} (p : A -> bool) l : remove_first p l = None -> countb p l = 0%nat.
Proof.
  intro E. rewrite remove_first_None in E. induction l as [|x l IH]; [reflexivity|]. rewrite countb_cons, (E x) by (left; reflexivity).
  rewrite IH; [reflexivity|]. intros y Hy. apply E. right. exact Hy.
Qed.
Lemma key_eqb_sym a b : key_eqb a b = key_eqb b a.
Proof.
  destruct (key_eqb a b) eqn:E.
  - apply key_eqb_eq in E. subst. symmetry. apply key_eqb_refl.
  - destruct (key_eqb b a) eqn:E'; [|reflexivity]. apply key_eqb_eq in E'. subst. rewrite key_eqb_refl in E. discriminate.
Qed.
Lemma strike_ok m ks : forall cs, snd (strike ks m cs) = true <->
  forall k, In k ks -> (countb (key_eqb k) ks <= countb (meq m) (page k cs))%nat.
Proof.
  induction ks as [|k0 ks IH]; intro cs; cbn [strike].
  - split; [intros _ k [] | reflexivity].
  - pose proof (page_remove k0 m cs) as P. destruct (remove_first _ cs) as [cs'|].
    + destruct P as [P1 P2]. apply countb_remove in P1. rewrite IH. split; intros H k Hk.
      * rewrite countb_cons. destruct (key_eqb k k0) eqn:E.
        -- apply key_eqb_eq in E. subst k. rewrite P1. destruct (existsb (key_eqb k0) ks) eqn:Ex.
           ++ apply existsb_exists in Ex as (k1 & H1 & E1). apply key_eqb_eq in E1. subst k1. specialize (H k0 H1). lia.
           ++ assert (countb (key_eqb k0) ks = 0)%nat as ->; [|lia]. clear - Ex. induction ks as [|k1 ks IH]; [reflexivity|].
              cbn [existsb] in Ex. apply orb_false_iff in Ex as [E1 E2]. rewrite countb_cons, E1, IH by exact E2. reflexivity.
        -- destruct Hk as [->|Hk]; [rewrite key_eqb_refl in E; discriminate|]. specialize (H k Hk). rewrite P2 in H; [lia|].
           intros ->. rewrite key_eqb_refl in E. discriminate.
      * specialize (H k (or_intror Hk)). rewrite countb_cons in H. destruct (key_eqb k k0) eqn:E.
        -- apply key_eqb_eq in E. subst k. lia.
        -- rewrite P2; [lia|]. intros ->. rewrite key_eqb_refl in E. discriminate.
    + cbn [snd]. split; [discriminate|]. intro H. specialize (H k0 (or_introl eq_refl)). rewrite countb_cons, key_eqb_refl in H.
      apply countb_none in P. lia.
Qed.
Lemma strike_all_ok m fs : NoDup fs -> forall ix, snd (strike_all m fs ix) = true <->
  forall f cs, In f fs -> ix f = Some cs -> snd (strike (keys f m) m cs) = true.
Proof.
  induction fs as [|f fs IH]; intros Hn ix; cbn [strike_all].
  - split; [intros _ f cs [] | reflexivity].
  - inversion Hn as [|? ? Hf Hn']; subst. destruct (ix f) as [cs0|] eqn:E0.
    + destruct (strike (keys f m) m cs0) as [cs1 ok] eqn:Es. destruct ok.
      * rewrite IH by exact Hn'. split; intros H g cs Hg Eg.
        -- destruct Hg as [<-|Hg]; [rewrite E0 in Eg; injection Eg as <-; rewrite Es; reflexivity|].
           apply H; [exact Hg|]. rewrite set_index_other by (intros ->; contradiction). exact Eg.
        -- apply H; [right; exact Hg|]. rewrite set_index_other in Eg by (intros ->; contradiction). exact Eg.
      * cbn [snd]. split; [discriminate|]. intro H. specialize (H f cs0 (or_introl eq_refl) E0). rewrite Es in H. discriminate.
    + rewrite IH by exact Hn'. split; intros H g cs Hg Eg.
      * destruct Hg as [<-|Hg]; [congruence|]. eapply H; eassumption.
      * eapply H; [right; exact Hg | exact Eg].
Qed.
Lemma all_families f : In f [ByName; ByTag; ByStart; ByEnd; ByIndex].
Proof. destruct f; simpl; tauto. Qed.
Lemma families_NoDup : NoDup [ByName; ByTag; ByStart; ByEnd; ByIndex].
Proof. repeat constructor; simpl; intuition discriminate. Qed.

(** the pages of a match, as counted by [strike], and the lookups *)
Definition filed_in (f : family) (c : coll) (x : mtch) : Prop :=
  forall k, In k (keys f x) -> (countb (key_eqb k) (keys f x) <= countb (meq x) (dict_of f c k))%nat.
Lemma existsb_countb {A} (p : A -> bool) l : existsb p l = true <-> (1 <= countb p l)%nat.
Proof.
  induction l as [|y l IH]; [simpl; split; [discriminate | unfold countb; simpl; lia]|]. rewrite countb_cons. cbn [existsb]. destruct (p y); cbn [orb].
  - split; [lia | reflexivity].
  - rewrite IH. lia.
Qed.
Lemma countb_one {A} (p : A -> bool) a : countb p [a] = if p a then 1%nat else 0%nat.
Proof. rewrite countb_cons. destruct (p a); reflexivity. Qed.
Lemma countb_text t ts : countb (key_eqb (KText t)) (map KText ts) = countb (pstr_eqb t) ts.
Proof. induction ts as [|u ts IH]; [reflexivity|]. cbn [map]. rewrite !countb_cons, IH. reflexivity. Qed.
Lemma countb_pos : forall n a i, (n = Z.to_nat i)%nat -> forall b, (countb (key_eqb (KPos a)) (map KPos (zrange b (b + i))) <= 1)%nat.
Proof.
  induction n as [|n IH]; intros a i Hi b.
  - rewrite zrange_nil by lia. unfold countb. simpl. lia.
  - rewrite zrange_cons by lia. cbn [map]. rewrite countb_cons. cbn [key_eqb].
    specialize (IH a (i - 1) ltac:(lia) (b + 1)). replace (b + 1 + (i - 1)) with (b + i) in IH by lia.
    destruct (a =? b) eqn:E; [|exact IH].
    assert (countb (key_eqb (KPos a)) (map KPos (zrange (b + 1) (b + i))) = 0)%nat as ->; [|lia].
    assert (forall l, ~ In a l -> countb (key_eqb (KPos a)) (map KPos l) = 0%nat) as G.
    { induction l as [|y l IHl]; [reflexivity|]. intro Hn. cbn [map]. rewrite countb_cons. cbn [key_eqb].
      destruct (a =? y) eqn:Ey; [exfalso; apply Hn; left; lia|]. apply IHl. intro. apply Hn. right. assumption. }
    apply G. intro Hin. apply in_zrange in Hin. lia.
Qed.
Lemma listed_dict c : (forall n, n <> [] -> listed c (ONamed [n]) = dict_of ByName c (KText n))
  /\ (forall t, listed c (OTagged t) = dict_of ByTag c (KText t))
  /\ (forall i, listed c (OStarting i) = dict_of ByStart c (KPos i))
  /\ (forall i, listed c (OEnding i) = dict_of ByEnd c (KPos i))
  /\ (forall i, listed c (OAtIndex i) = dict_of ByIndex c (KPos i)).
Proof.
  unfold listed. repeat split; intros; rewrite lookup_answer by reflexivity; cbn [answer dict_of]; try reflexivity.
  simpl. rewrite app_nil_r. reflexivity.
Qed.
Lemma well_filed_all c x : well_filed c x <-> forall f, filed_in f c x.
Proof.
  destruct (listed_dict c) as (L1 & L2 & L3 & L4 & L5). unfold well_filed. split.
  - intros (H1 & H2 & H3 & H4 & H5) f k Hk. destruct f; cbn [keys] in Hk |- *.
    + destruct (m_name x) as [[|ch r]|] eqn:En; try contradiction. destruct Hk as [<-|[]]. rewrite countb_one, key_eqb_refl.
      apply existsb_countb. rewrite <- L1 by discriminate. apply H1; [reflexivity | discriminate].
    + apply in_map_iff in Hk as (t & <- & Ht). rewrite countb_text, <- L2. apply H2, Ht.
    + destruct Hk as [<-|[]]. rewrite countb_one, key_eqb_refl. apply existsb_countb. rewrite <- L3. exact H3.
    + destruct Hk as [<-|[]]. rewrite countb_one, key_eqb_refl. apply existsb_countb. rewrite <- L4. exact H4.
    + apply in_map_iff in Hk as (i & <- & Hi). apply in_zrange in Hi.
      pose proof (@countb_pos _ i (m_end x - m_start x) eq_refl (m_start x)) as C. replace (m_start x + (m_end x - m_start x)) with (m_end x) in C by lia.
      specialize (H5 i Hi). rewrite L5 in H5. apply existsb_countb in H5. lia.
  - intro H. split; [|split; [|split; [|split]]].
    + intros n En Hn. rewrite L1 by exact Hn. apply existsb_countb. specialize (H ByName (KText n)). cbn [keys] in H. rewrite En in H.
      destruct n as [|ch r]; [contradiction|]. rewrite countb_one, key_eqb_refl in H. apply H. left. reflexivity.
    + intros t Ht. rewrite L2, <- countb_text. apply (H ByTag). apply in_map, Ht.
    + rewrite L3. apply existsb_countb. specialize (H ByStart (KPos (m_start x)) (or_introl eq_refl)). cbn [keys] in H. rewrite countb_one, key_eqb_refl in H. exact H.
    + rewrite L4. apply existsb_countb. specialize (H ByEnd (KPos (m_end x)) (or_introl eq_refl)). cbn [keys] in H. rewrite countb_one, key_eqb_refl in H. exact H.
    + intros i Hi. rewrite L5. apply existsb_countb. specialize (H ByIndex (KPos i)). cbn [keys] in H.
      assert (In i (zrange (m_start x) (m_end x))) as Hin by (apply in_zrange; exact Hi).
      eapply Nat.le_trans; [|apply H; apply in_map, Hin]. apply existsb_countb. apply existsb_exists. exists (KPos i). split; [apply in_map, Hin | apply key_eqb_refl].
Qed.
Lemma goes_iff k c s x l s' r : sim k c s -> goes x (put s l) s' r ->
  (well_filed c x -> r = RUnit) /\ ((forall f, index s f <> None) -> r = RUnit -> well_filed c x).
Proof.
  intros H G. unfold goes in G. destruct G as [_ G]. cbn [index put] in G.
  pose proof (strike_all_ok x families_NoDup (index s)) as K.
  destruct (strike_all x _ (index s)) as [ix ok]. cbn [snd] in K. destruct H as (_ & _ & H3). rewrite well_filed_all. split.
  - intro W. destruct ok; [apply G|]. exfalso. assert (false = true) as D; [|discriminate]. apply K. intros f cs _ E.
    apply strike_ok. intros k0 Hk. specialize (W f k0 Hk). specialize (H3 f). rewrite E in H3. rewrite (like1_dict H3) in W; [exact W|].
    destruct f; cbn [keys keyed] in *.
    + destruct (m_name x) as [[|]|]; try contradiction. destruct Hk as [<-|[]]. exact I.
    + apply in_map_iff in Hk as (? & <- & _). exact I.
    + destruct Hk as [<-|[]]. exact I.
    + destruct Hk as [<-|[]]. exact I.
    + apply in_map_iff in Hk as (? & <- & _). exact I.
  - intros F ->. destruct ok; [|destruct G; discriminate]. intros f k0 Hk. destruct (index s f) as [cs|] eqn:E; [|exfalso; apply (F f E)].
    pose proof (proj1 (strike_ok x (keys f x) cs) (proj1 K eq_refl f cs (all_families f) E) k0 Hk) as W.
    specialize (H3 f). rewrite E in H3. rewrite (like1_dict H3); [exact W|].
    destruct f; cbn [keys keyed] in *.
    + destruct (m_name x) as [[|]|]; try contradiction. destruct Hk as [<-|[]]. exact I.
    + apply in_map_iff in Hk as (? & <- & _). exact I.
    + destruct Hk as [<-|[]]. exact I.
    + destruct Hk as [<-|[]]. exact I.
    + apply in_map_iff in Hk as (? & <- & _). exact I.
Qed.
Lemma takes_goes k o s s' r x : does k o s s' r -> takes (members s) o = Some x ->
  exists l r', goes x (put s l) s' r' /\ r = match o, r' with OPop _, RUnit => RMatch x | _, _ => r' end.
Proof.
  intros D E. destruct o; cbn [takes does] in *; try discriminate.
  - rewrite E in D. rewrite member_equal_index in E. rewrite remove_first_index in D. destruct (index_of (meq m) (members s)); [|discriminate].
    eexists _, r. split; [exact D | reflexivity].
  - rewrite E in D. unfold py_nth in E. destruct (py_pos (members s) i); [|discriminate]. eexists _, r. split; [exact D | reflexivity].
  - rewrite E in D. unfold py_nth in E. destruct (py_pos (members s) i); [|discriminate]. destruct D as (r' & D & ->). eexists _, r'. split; [exact D | reflexivity].
Qed.

Lemma well_filed_obs c c' x : obs c c' -> (well_filed c' x <-> well_filed c x).
Proof.
  intro H. rewrite !well_filed_all. split; intros W f k Hk; specialize (W f k Hk); [rewrite <- (obs_dict f H) | rewrite (obs_dict f H)]; exact W.
Qed.
Lemma one_of_each_fills c f : ~ unfilled f (run c one_of_each).
Proof.
  assert (forall o, is_lookup o = true -> forall c0, unfilled f (fst (step c0 o)) -> unfilled f c0) as G.
  { intros o Ho c0. apply (lookup_grows c0 Ho). }
  unfold run, one_of_each. cbn [fold_left]. intro U.
  destruct f; [do 4 (apply G in U; [|reflexivity]) | do 3 (apply G in U; [|reflexivity]) | do 2 (apply G in U; [|reflexivity]) | apply G in U; [|reflexivity] | idtac];
    (eapply asks_fills; [|exact U]; reflexivity).
Qed.

Lemma sim_run k : forall ops c s, sim k c s -> exists s', sim k (run c ops) s'.
Proof.
  induction ops as [|o ops IH]; intros c s0 H; [exists s0; exact H|].
  destruct (sim_step o H) as (s' & _ & H'). exact (IH _ _ H').
Qed.
Lemma removal_any k c s o x : sim k c s -> takes (c_del c) o = Some x ->
  let c1 := run c one_of_each in
  let ok := match o with OPop _ => RMatch x | _ => RUnit end in
  (well_filed c x -> snd (step c o) = ok)
  /\ (snd (step c1 o) = ok <-> well_filed c x)
  /\ (snd (step c1 o) = RErr ValueError <-> ~ well_filed c x).
Proof.
  intros H Ht c1 ok.
  assert (obs c c1) as Ho by (apply lookups_obs; reflexivity).
  assert (takes (c_del c1) o = Some x) as Ht1 by (rewrite (proj1 Ho); exact Ht).
  destruct (sim_run one_of_each H) as (s1 & H1). fold c1 in H1.
  destruct (sim_step o H) as (t & D & _). destruct (sim_step o H1) as (t1 & D1 & _).
  rewrite (sim_members H) in Ht. rewrite (sim_members H1) in Ht1.
  destruct (takes_goes D Ht) as (l & r & G & E). destruct (takes_goes D1 Ht1) as (l1 & r1 & G1 & E1).
  destruct (goes_iff H G) as [W _]. destruct (goes_iff H1 G1) as [W1 W2]. rewrite (well_filed_obs x Ho) in W1, W2.
  assert (forall f, index s1 f <> None) as F.
  { intros f En. destruct H1 as (_ & _ & H3). specialize (H3 f). rewrite En in H3. apply (@one_of_each_fills c f). apply (unfilled_none H3). reflexivity. }
  specialize (W2 F).
  assert (snd (step c1 o) = ok <-> r1 = RUnit) as K1.
  { rewrite E1. unfold ok. destruct (goes_err G1) as [-> | ->]; destruct o; split; intro; congruence. }
  assert (snd (step c1 o) = RErr ValueError <-> r1 <> RUnit) as K2.
  { rewrite E1. destruct (goes_err G1) as [-> | ->]; destruct o; split; intro; congruence. }
  split; [|split].
  - intro Hw. rewrite E, (W Hw). unfold ok. destruct o; reflexivity.
  - rewrite K1. split; assumption.
  - rewrite K2. split; intros A B; apply A; auto.
Qed.
(** Taking a match out never raises when the match is well filed, and once each kind of lookup was
    made it raises exactly when it is not. *)
Theorem C109_removal : forall k input ops o x,
  let c := run (empty_coll k input) ops in
  let c1 := run (empty_coll k input) (ops ++ one_of_each) in
  takes (c_del c) o = Some x ->
  let ok := match o with OPop _ => RMatch x | _ => RUnit end in
  (well_filed c x -> snd (step c o) = ok)
  /\ (snd (step c1 o) = ok <-> well_filed c x)
  /\ (snd (step c1 o) = RErr ValueError <-> ~ well_filed c x).
Proof.
  intros k input ops o x c c1 Ht ok. destruct (reach_cards k input ops) as (s0 & _ & H). fold c in H.
  assert (c1 = run c one_of_each) as -> by (unfold c1, run; rewrite fold_left_app; reflexivity).
  exact (removal_any H Ht).
Qed.
Example C109_example :
  let y := set_tags ex_a [s "t"; s "t"] in
  let x := set_tags ex_a [s "t"] in
  let c := run (empty_coll KMatches ex_input) [OAppend x; OTags; OAppend y] in
  meq x y = true /\ takes (c_del c) (ODelitem 1) = Some y /\ snd (step c (ODelitem 1)) = RUnit
  /\ listed (fst (step c (ODelitem 1))) (OTagged (s "t")) = [y]
  /\ (let c' := fst (step c (ODelitem 1)) in takes (c_del c') (OPop 0) = Some x /\ snd (step c' (OPop 0)) = RMatch x
      /\ listed (fst (step c' (OPop 0))) (OTagged (s "t")) = [])
  /\ (let c' := fst (step c (ODelitem 0)) in takes (c_del c') (OPop 0) = Some y /\ snd (step c' (OPop 0)) = RMatch y)
  /\ (let c' := fst (step (fst (step c (OSetitem 0 (set_tags ex_b [s "t"])))) (ODelitem 0)) in
      c_del c' = [y] /\ snd (step c' (ODelitem 0)) = RUnit /\ listed (fst (step c' (ODelitem 0))) (OTagged (s "t")) = [y]).
Proof. cbv zeta. repeat split; vm_compute; reflexivity. Qed.

(** ** C110: the other lookups in terms of the elementary ones, after any history *)
Lemma add_input c m : c_input (fst (add_match c m)) = c_input c.
Proof. unfold add_match. destruct (accepts _ m); reflexivity. Qed.
Lemma rems_input m fs : forall c, c_input (fst (rems m fs c)) = c_input c.
Proof.
  induction fs as [|f fs IH]; intro c; [reflexivity|]. cbn [rems]. destruct (rem1 f m c) as [c1 o] eqn:E.
  assert (c_input c1 = c_input c) as E1 by (destruct f; cbn [rem1] in E; destruct (remove_all _ _ _); injection E as <- <-; reflexivity).
  destruct o; [rewrite IH; exact E1 | exact E1].
Qed.
Lemma remove_input c m : c_input (fst (remove_match c m)) = c_input c.
Proof.
  rewrite remove_match_rems. pose proof (rems_input m [ByName; ByTag; ByStart; ByEnd; ByIndex] c) as E. destruct (rems m _ c) as [c1 [[]|e]]; cbn [fst] in *; [|exact E].
  rewrite <- E. unfold shrink_maxend. destruct (m_end m >=? c_maxend c1); [|reflexivity]. destruct (dget _ _); reflexivity.
Qed.
Lemma insert_input c i m : c_input (fst (insert c i m)) = c_input c.
Proof. unfold insert. rewrite add_input. reflexivity. Qed.
Lemma delitem_input c i : c_input (fst (delitem c i)) = c_input c.
Proof. unfold delitem. destruct (py_pos _ _); [|reflexivity]. destruct (nth_error _ _); [|reflexivity]. rewrite remove_input. reflexivity. Qed.
Lemma setitem_input c i m : c_input (fst (setitem c i m)) = c_input c.
Proof. unfold setitem. destruct (py_pos _ _); [|reflexivity]. rewrite add_input. reflexivity. Qed.
Lemma pop_input c i : c_input (fst (pop c i)) = c_input c.
Proof. unfold pop. destruct (py_nth _ _); [|reflexivity]. pose proof (delitem_input c i) as E. destruct (delitem c i) as [c1 [[]|e]]; exact E. Qed.
Lemma step_input c o : c_input (fst (step c o)) = c_input c.
Proof.
  destruct (is_lookup o) eqn:Hl; [apply (lookup_obs c Hl)|].
  destruct o; try discriminate; clear Hl; cbn [step]; rewrite ?unit_out_fst.
  - apply insert_input.
  - apply insert_input.
  - revert c. induction ms as [|m ms IH]; intro c; [reflexivity|]. cbn [extend]. unfold append.
    pose proof (insert_input c (zlen (c_del c)) m) as E. destruct (insert c _ m) as [c1 [[]|e]]; cbn [fst] in *; [rewrite IH; exact E | exact E].
  - unfold remove. destruct (seq_index c m); [apply delitem_input | reflexivity].
  - apply delitem_input.
  - unfold delslice. transitivity (c_input (with_del c (py_unslice (c_del c) i j))); [|reflexivity].
    generalize (with_del c (py_unslice (c_del c) i j)). generalize (py_slice (c_del c) i j). induction l as [|m l IH]; intro c0; [reflexivity|].
    cbn [remove_matches]. pose proof (remove_input c0 m) as E. destruct (remove_match c0 m) as [c1 [[]|e]]; cbn [fst] in *; [rewrite IH; exact E | exact E].
  - pose proof (pop_input c i) as E. destruct (pop c i). exact E.
  - unfold clear. generalize (S (length (c_del c))). intro n. revert c. induction n as [|n IH]; intro c; [reflexivity|]. cbn [clear_loop].
    pose proof (pop_input c (-1)) as E. destruct (pop c (-1)) as [c1 [m|[]]]; cbn [fst] in *; try exact E. rewrite IH. exact E.
  - apply setitem_input.
  - unfold setslice. cbv zeta. match goal with |- c_input (fst (add_matches (with_del c ?x) ms)) = _ => transitivity (c_input (with_del c x)); [|reflexivity]; generalize (with_del c x) end.
    induction ms as [|m ms IH]; intro c0; [reflexivity|]. cbn [add_matches].
    pose proof (add_input c0 m) as E. destruct (add_match c0 m) as [c1 [[]|e]]; cbn [fst] in *; [rewrite IH; exact E | exact E].
  - unfold reverse. generalize (zrange 0 (zlen (c_del c) / 2)). generalize (zlen (c_del c)). intros n is. revert c. induction is as [|i is IH]; intro c; [reflexivity|].
    cbn [reverse_loop]. destruct (py_nth (c_del c) (n - i - 1)) as [a|]; [|reflexivity]. destruct (py_nth (c_del c) i) as [b|]; [|reflexivity].
    pose proof (setitem_input c i a) as E. destruct (setitem c i a) as [c1 [[]|e]]; cbn [fst] in *; [|exact E].
    pose proof (setitem_input c1 (n - i - 1) b) as E1. destruct (setitem c1 _ b) as [c2 [[]|e]]; cbn [fst] in *; [rewrite IH; congruence | congruence].
Qed.
Lemma run_input k input ops : c_input (run (empty_coll k input) ops) = input.
Proof. induction ops as [|o ops IH] using rev_ind; [reflexivity|]. rewrite run_snoc, step_input. exact IH. Qed.

Definition some_match (c : coll) (o : op) : bool := match listed c o with [] => false | _ => true end.
Definition upto_max (c : coll) (en : option Z) : Z := match en with None => max_end c | Some e => Z.min (max_end c) e end.

(** What the other lookups answer, in terms of [starting], [ending] and [at_index]. *)
Definition derived_lookups (input : option pstr) (c : coll) : Prop :=
  (forall m, exists r, snd (step c (OPrevious m)) = RList r
     /\ ((nowhere (fun i => some_match c (OEnding i)) 0 (m_start m + 1) /\ r = [])
         \/ exists i, greatest (fun i => some_match c (OEnding i)) 0 (m_start m + 1) i /\ r = listed c (OEnding i)))
  /\ (forall m, exists r top, snd (step c (ONext m)) = RList r /\ top <= max_end c
     /\ ((nowhere (fun i => some_match c (OStarting i)) (m_start m + 1) (top + 1) /\ r = [])
         \/ exists i, least (fun i => some_match c (OStarting i)) (m_start m + 1) (top + 1) i /\ r = listed c (OStarting i)))
  /\ (forall m, snd (step c (OConflicting m))
      = match remove_first (meq m) (distinct [] (flat_map (fun i => listed c (OAtIndex i)) (zrange (m_start m) (m_end m)))) with
        | Some r => RList r
        | None => RErr ValueError
        end)
  /\ (forall sp, snd (step c (OAtSpan sp))
      = RList (listed c (OAtIndex (fst sp)) ++ distinct (listed c (OAtIndex (fst sp))) (listed c (OAtIndex (snd sp - 1)))))
  /\ (forall st en, exists r, snd (step c (ORange st en)) = RList r
        /\ in_span_order (filter (fun m => (m_start m <? upto_max c en) && (m_end m >? st)) (c_del c)) r)
  /\ (forall p seps en pred, exists r,
        walked (fun i => filter pred (listed c (OAtIndex i))) (separator input seps) (zrange p (upto_max c en)) r
        /\ snd (step c (OChainAfter p seps en pred)) = match r with Ok l => RList (distinct [] l) | Err x => RErr x end)
  /\ (forall p seps st pred, exists r,
        walked (fun i => filter pred (listed c (OAtIndex i))) (separator input seps) (rev (zrange st (Z.min (max_end c) p))) r
        /\ snd (step c (OChainBefore p seps st pred)) = match r with Ok l => RList (distinct [] l) | Err x => RErr x end)
  /\ (forall st en keep seps,
        holes_of input seps (fun i => existsb keep (listed c (OAtIndex i))) (fun i => existsb keep (listed c (OStarting i)))
          st (upto_max c en) (snd (step c (OHoles st en keep seps)))).
Lemma derived_any input c : c_input c = input -> derived_lookups input c.
Proof.
  intros Hin. destruct (listed_dict c) as (_ & _ & L3 & L4 & L5). cbn [dict_of] in L3, L4, L5.
  assert (forall i, listed c (OStarting i) = vstart c i) as V3 by exact L3.
  assert (forall i, listed c (OEnding i) = vend c i) as V4 by exact L4.
  assert (forall i, listed c (OAtIndex i) = vat c i) as V5 by exact L5.
  split; [|split; [|split; [|split; [|split; [|split; [|split]]]]]].
  - intro m. rewrite lookup_answer by reflexivity. cbn [answer]. eexists. split; [reflexivity|].
    destruct (@prev_spec (vend c) (fun i => some_match c (OEnding i))) with (n := Z.to_nat (m_start m + 1)) (cur := m_start m) as [H|(i & H1 & H2)]; [|lia|left; exact H|right].
    + intro i. unfold some_match. rewrite V4. reflexivity.
    + exists i. split; [exact H1|]. rewrite V4. exact H2.
  - intro m. rewrite lookup_answer by reflexivity. cbn [answer]. eexists _, (c_maxend c). split; [reflexivity|]. split.
    { unfold max_end. destruct (c_input c) as [[|]|]; lia. }
    destruct (@next_spec (vstart c) (fun i => some_match c (OStarting i))) with (n := Z.to_nat (c_maxend c - m_start m)) (cur := m_start m + 1) (b := c_maxend c + 1) as [H|(i & H1 & H2)]; [|lia|left; exact H|right].
    + intro i. unfold some_match. rewrite V3. reflexivity.
    + exists i. split; [exact H1|]. rewrite V3. exact H2.
  - intro m. rewrite lookup_answer by reflexivity. cbn [answer]. rewrite chain_add_distinct. cbn [app].
    rewrite (flat_map_ext (vat c) (fun i => listed c (OAtIndex i))); [reflexivity|]. intro i. symmetry. apply V5.
  - intro sp. rewrite lookup_answer by reflexivity. cbn [answer]. rewrite chain_add_distinct, !V5. reflexivity.
  - intros st en. rewrite lookup_answer by reflexivity. cbn [answer]. eexists. split; [reflexivity|]. unfold q_range. rewrite sort_by_filter; [apply in_span_order_sort|intros; eapply mlt_le_trans; eauto|apply mlt_asym].
  - intros p seps en pred. rewrite (@lookup_answer c _) by reflexivity. cbn [answer]. rewrite Hin. change (range_end c en) with (upto_max c en).
    rewrite (@chain_pure_ext (vat c) (fun i => listed c (OAtIndex i)) input pred seps) by (intro; symmetry; apply V5).
    destruct (@walk_spec (fun i => listed c (OAtIndex i)) input pred seps (zrange p (upto_max c en)) []) as (r & R1 & R2). exists r. split; [exact R1|].
    rewrite R2. destruct r as [l|x]; [|reflexivity]. cbn [res_map]. rewrite chain_add_distinct. reflexivity.
  - intros p seps st pred. rewrite (@lookup_answer c _) by reflexivity. cbn [answer]. rewrite Hin.
    rewrite (@chain_pure_ext (vat c) (fun i => listed c (OAtIndex i)) input pred seps) by (intro; symmetry; apply V5).
    match goal with |- context [chain_pure _ _ _ _ ?is []] => destruct (@walk_spec (fun i => listed c (OAtIndex i)) input pred seps is []) as (r & R1 & R2) end.
    exists r. split; [exact R1|]. rewrite R2. destruct r as [l|x]; [|reflexivity]. cbn [res_map]. rewrite chain_add_distinct. reflexivity.
  - intros st en keep seps. rewrite <- Hin. apply holes_any; intro i; [rewrite V3 | rewrite V5]; reflexivity.
Qed.
Theorem C110_derived : forall k input ops, derived_lookups input (run (empty_coll k input) ops).
Proof. intros. apply derived_any, run_input. Qed.
(** after a refused match: it is in the list, but not in the card index by position that was in use before *)
Example C110_example :
  let k := set_marker ex_b true in
  let c := run (empty_coll KMatches ex_input) [OAppend ex_a; OAtIndex 0; OAppend k] in
  c_del c = [ex_a; k] /\ snd (step c (ONext ex_a)) = RList [k] /\ snd (step c (OPrevious (mk_match 9 6 7))) = RList [k]
  /\ snd (step c (OConflicting k)) = RErr ValueError /\ snd (step c (OHoles 0 None (fun _ => true) None)) = RSpans [(3, 10)].
Proof. cbv zeta. repeat split; vm_compute; reflexivity. Qed.

Print Assumptions C107_every_call.
Print Assumptions C108_account.
Print Assumptions C109_removal.
Print Assumptions C110_derived.
