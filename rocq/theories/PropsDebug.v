(** * C136, C137: log levels, definition locations and switches *)
From Coq Require Import Permutation Lia ZifyBool.
From Verif Require Import Base BaseFacts Topo Rules RulesFacts PropsRules Debug.
Set Implicit Arguments.
Unset Strict Implicit.
Open Scope string_scope. Open Scope list_scope. Open Scope nat_scope.

(** ** C136: log levels *)
(** [logged] is [plain], all rules having a level, or stops with AttributeError earlier, the rules so far having a level *)
Definition cut (level : nat -> option Z) (logged plain : list nat * res unit) : Prop :=
  (logged = plain /\ Forall (fun r => level r <> None) (fst plain))
  \/ (exists l2, fst plain = fst logged ++ l2 /\ snd logged = Err AttributeError /\ Forall (fun r => level r <> None) (fst logged)
       /\ exists r, In r l2 /\ level r = None).
Lemma has_all (level : nat -> option Z) l : forallb (fun r => has (level r)) l = true <-> Forall (fun r : nat => level r <> None) l.
Proof.
  rewrite forallb_forall, Forall_forall. split; intros H r Hr; specialize (H r Hr); destruct (level r : option Z); cbn in *; congruence.
Qed.
Lemma lacks_one (level : nat -> option Z) l : forallb (fun r => has (level r)) l = false -> exists r, In r l /\ level r = None.
Proof.
  induction l as [|x l IH]; cbn; [discriminate|]. destruct (level x) as [n|] eqn:E; cbn; [intro H; destruct (IH H) as (r & A & B); eauto|]. intros _. eauto.
Qed.
Lemma cut_layers env level rules g cyc : forall layers, cut level (logged_layers env level rules g layers cyc) (run_layers env rules g layers cyc).
Proof.
  induction layers as [|layer t IH]; cbn [logged_layers run_layers]; [left; split; [reflexivity|constructor]|].
  replace (forallb (fun c => match rindex env rules c with Some _ => true | None => false end) layer)
    with (forallb (fun c => has (rindex env rules c)) layer) by reflexivity.
  destruct (forallb _ layer); [|left; split; [reflexivity|constructor]]. set (group := map _ _). clearbody group.
  destruct (run_layers env rules g t cyc) as [l r]. destruct (logged_layers env level rules g t cyc) as [l' r'].
  destruct (forallb (fun r => has (level r)) group) eqn:E.
  - apply has_all in E. destruct IH as [[Q F]|(l2 & Q & R & F & X)]; cbn [fst snd] in *.
    + injection Q as -> ->. left. split; [reflexivity|]. apply Forall_app. auto.
    + right. exists l2. cbn [fst snd]. subst l r'. rewrite app_assoc. split; [reflexivity|]. split; [reflexivity|]. split; [apply Forall_app; auto|exact X].
  - right. exists (group ++ l). cbn [fst snd app]. split; [reflexivity|]. split; [reflexivity|]. split; [constructor|].
    destruct (lacks_one E) as (x & A & B). exists x. split; [apply in_or_app; auto|exact B].
Qed.
Lemma cut_group env level perm rules g : cut level (logged_group env level perm rules g) (run_group env perm rules g).
Proof.
  unfold logged_group, run_group. destruct (dup_class env [] g); [left; split; [reflexivity|constructor]|].
  destruct (toposort perm (group_graph env g)) as [layers rest]. apply cut_layers.
Qed.
Lemma cut_groups env level perm rules : forall gs, cut level (logged_groups env level perm rules gs) (run_groups env perm rules gs).
Proof.
  induction gs as [|g t IH]; cbn [logged_groups run_groups]; [left; split; [reflexivity|constructor]|].
  destruct (cut_group env level perm rules g) as [[Q F]|(l2 & Q & R & F & x & X & Y)].
  - rewrite Q. destruct (run_group env perm rules g) as [l [[]|e]]; [|left; split; [reflexivity|exact F]]. cbn [fst] in F.
    destruct (run_groups env perm rules t) as [l1 r1]. destruct (logged_groups env level perm rules t) as [l1' r1'].
    destruct IH as [[Q' F']|(l2 & Q' & R & F' & X)]; cbn [fst snd] in *.
    + injection Q' as -> ->. left. split; [reflexivity|]. apply Forall_app. auto.
    + right. exists l2. cbn [fst snd]. subst l1 r1'. rewrite app_assoc. split; [reflexivity|]. split; [reflexivity|]. split; [apply Forall_app; auto|exact X].
  - destruct (logged_group env level perm rules g) as [l' r']. cbn [fst snd] in *. subst r'. destruct (run_group env perm rules g) as [l [[]|e]]; cbn [fst] in Q; subst l.
    + destruct (run_groups env perm rules t) as [l1 r1]. right. exists (l2 ++ l1). cbn [fst snd]. rewrite app_assoc. split; [reflexivity|]. split; [reflexivity|]. split; [exact F|].
      exists x. split; [apply in_or_app; auto|exact Y].
    + right. exists l2. cbn [fst snd]. split; [reflexivity|]. split; [reflexivity|]. split; [exact F|]. eauto.
Qed.
Lemma exec_prefix {St R} (bh : behav St R) : forall l1 l2 st st' ret, exec bh (l1 ++ l2) st = (st', Ok ret) -> exists st1 ret1, exec bh l1 st = (st1, Ok ret1).
Proof.
  induction l1 as [|r t IH]; intros l2 st st' ret H; cbn [exec app] in *; [eauto|]. destruct (execute_rule bh r st) as [st1 [o|e]]; [|discriminate].
  destruct (exec bh (t ++ l2) st1) as [st2 [ret2|e]] eqn:E; [|discriminate]. destruct (IH _ _ _ _ E) as (st3 & ret3 & ->). eauto.
Qed.
Lemma plain_order env perm rules : fst (execute_all_rules env perm recorder rules []) = fst (schedule env perm rules).
Proof. unfold execute_all_rules. destruct (schedule env perm rules) as [l fin]. rewrite exec_recorder. reflexivity. Qed.

(** Rules no level is given to: logging changes nothing *)
Theorem C136_no_level_given_partial : forall {St R} env perm (bh : behav St R) (class_level : nat -> option Z) d rules st,
  execute_logged env (fun r => rule_level None (class_level (r_class env r)) d) perm bh rules st = execute_all_rules env perm bh rules st
  /\ forall r, rule_level None (class_level (r_class env r)) d = Some (match class_level (r_class env r) with Some n => n | None => d end).
Proof.
  intros St R env perm bh class_level d rules st. set (level := fun r => rule_level None (class_level (r_class env r)) d).
  assert (L : forall r, level r = Some (match class_level (r_class env r) with Some n => n | None => d end)) by (intro r; unfold level, rule_level; destruct (class_level (r_class env r)); reflexivity).
  split; [|exact L]. unfold execute_logged, execute_all_rules, schedule.
  destruct (cut_groups env level perm rules (map snd (groupby (r_prio env) (sorted_rules env rules)))) as [[-> _]|(l2 & _ & _ & _ & r & _ & X)]; [reflexivity|].
  rewrite L in X. discriminate.
Qed.
(** A rule object a level is given to, its class not defining one: executing the rules fails, with AttributeError unless
    something else fails first, and the rule is never considered: the rules run are the first ones of the order, up to
    before the layer of the rule at the latest *)
Theorem C136_level_given : forall {St R} env perm (bh : behav St R) (given class_level : nat -> option Z) d rules r n,
  iteration_order perm -> class_prio env -> instances_local env rules ->
  In r rules -> given r = Some n -> class_level (r_class env r) = None ->
  let level := fun r => rule_level (given r) (class_level (r_class env r)) d in
  forall st, exists e run rest,
    snd (execute_logged env level perm bh rules st) = Err e
    /\ (forall st' ret, execute_all_rules env perm bh rules st = (st', Ok ret) -> e = AttributeError)
    /\ fst (execute_all_rules env perm recorder rules []) = run ++ rest
    /\ fst (execute_logged env level perm recorder rules []) = run
    /\ ~ In r run
    /\ fst (execute_logged env level perm bh rules st) = fst (exec bh run st).
Proof.
  intros St R env perm bh given class_level d rules r n Hp Hc Hl Hr Hg Hn level st.
  assert (Lr : level r = None) by (unfold level, rule_level; rewrite Hg, Hn; reflexivity). clearbody level.
  rewrite plain_order. unfold execute_logged, execute_all_rules.
  pose proof (cut_groups env level perm rules (map snd (groupby (r_prio env) (sorted_rules env rules)))) as C. fold (schedule env perm rules) in C.
  assert (COV : forall l, schedule env perm rules = (l, Ok tt) -> In r l).
  { intros l E. pose proof (schedule_nodup Hc E) as N. destruct (schedule_order Hp Hl N E) as (P & _). eapply Permutation_in; [symmetry; exact P|exact Hr]. }
  destruct (logged_groups env level perm rules _) as [l' r']. destruct (schedule env perm rules) as [l fin]. rewrite exec_recorder. cbn [fst snd app].
  assert (NI : forall k, Forall (fun r => level r <> None) k -> ~ In r k) by (intros k F X; rewrite Forall_forall in F; exact (F r X Lr)).
  unfold cut in C. cbn [fst snd] in C. destruct C as [[Q F]|(l2 & Q & -> & F & _)].
  - injection Q as -> ->. specialize (NI _ F). destruct fin as [[]|e]; [destruct (NI (COV l eq_refl))|].
    destruct (exec bh l st) as [st' [ret|e']] eqn:E; [exists e, l, []|exists e', l, []]; rewrite app_nil_r; (split; [reflexivity|]); (split; [intros ? ? H; discriminate|]); repeat (split; [reflexivity|]); (split; [exact NI|rewrite E; reflexivity]).
  - subst l. specialize (NI _ F). destruct (exec bh l' st) as [st1 [ret1|e']] eqn:E; [exists AttributeError, l', l2|exists e', l', l2]; (split; [reflexivity|]); (split; [|repeat (split; [reflexivity|]); (split; [exact NI|rewrite E; reflexivity])]); intros st' ret H; [reflexivity|]. exfalso. destruct (exec bh (l' ++ l2) st) as [st2 [ret2|e2]] eqn:E2; [|discriminate].
    destruct (exec_prefix E2) as (a & b & X). congruence.
Qed.
(** Full statement refuted: [rebulk.rules(MyRule(log_level=10))] runs MyRule with that level *)
Theorem C136_level_given_refuted : exists env level rules,
  level 0 = rule_level (Some 10%Z) None 5%Z /\ In 0 rules
  /\ execute_logged env level (fun l => l) recorder rules [] = ([1], Err AttributeError)
  /\ execute_all_rules env (fun l => l) recorder rules [] = ([1; 0; 2], Ok [])
  /\ rule_level (Some 10%Z) (Some 7%Z) 5%Z = Some 7%Z.
Proof.
  exists (REnv (fun r => r) (fun r => match r with 0 => 0%Z | 1 => 8%Z | _ => (-8)%Z end) (fun _ => [])),
    (fun r => match r with 0 => rule_level (Some 10%Z) None 5%Z | _ => rule_level None None 5%Z end), [0; 1; 2].
  repeat split; vm_compute; auto.
Qed.
Example C136_case : let env := REnv (fun r => r) (fun r => match r with 0 => 0%Z | 1 => 8%Z | _ => (-8)%Z end) (fun _ => []) in
  class_prio env /\ instances_local env [0; 1; 2] /\ iteration_order (fun l : list nat => l).
Proof. cbv zeta. split; [|split]; [intros a b E; cbn in E; subst; reflexivity|intros a i _ []|intro l; reflexivity]. Qed.

(** ** C137: definition locations and switches *)
Definition inside (own : pstr) (f : frame) : Prop := fr_package f = Some (Some own).
(** With debugging, the location is the innermost place of the stack outside the package, and there is none only if the
    whole stack is inside; without, there is no location *)
Theorem C137_location : forall own stack,
  defined_at false own stack = Ok None
  /\ (forall r, defined_at true own stack = r <->
        (exists a f b, stack = a ++ f :: b /\ Forall (inside own) a /\ ~ inside own f
           /\ r = Ok (Some (Location (fr_line f) (match fr_package f with Some p => p | None => None end) (fr_name f) (fr_file f))))
        \/ (Forall (inside own) stack /\ r = Err AttributeError)).
Proof.
  intros own stack. split; [reflexivity|]. unfold defined_at. induction stack as [|f t IH]; intro r; cbn [leave_package].
  - split; [intros <-; right; split; [constructor|reflexivity]|]. intros [(a & f & b & X & _)|[_ ->]]; [destruct a; discriminate|reflexivity].
  - assert (D : inside own f \/ ~ inside own f).
    { unfold inside. destruct (fr_package f) as [[p|]|]; try (right; discriminate). destruct (pstr_eqb p own) eqn:E; [apply pstr_eqb_eq in E; subst; auto|].
      right. intro X. injection X as ->. rewrite pstr_eqb_refl in E. discriminate. }
    destruct D as [D|D].
    + unfold inside in D. rewrite D, pstr_eqb_refl. rewrite IH. split.
      * intros [(a & g & b & -> & A & B & ->)|[A ->]]; [left; exists (f :: a), g, b; repeat split; [constructor; assumption|exact B]|right; split; [constructor; assumption|reflexivity]].
      * intros [(a & g & b & E & A & B & ->)|[A ->]].
        -- destruct a as [|f' a]; cbn in E; injection E as -> ->; [destruct (B D)|]. inversion A; subst. left. exists a, g, b. auto.
        -- inversion A; subst. auto.
    + assert (match fr_package f with Some (Some p) => if pstr_eqb p own then leave_package own t else Some f | _ => Some f end = Some f) as ->.
      { unfold inside in D. destruct (fr_package f) as [[p|]|]; try reflexivity. destruct (pstr_eqb p own) eqn:E; [apply pstr_eqb_eq in E; subst; destruct (D eq_refl)|reflexivity]. }
      split.
      * intros <-. left. exists [], f, t. repeat split; [constructor|exact D].
      * intros [(a & g & b & E & A & B & ->)|[A ->]].
        -- destruct a as [|f' a]; cbn in E; injection E as -> ->; [reflexivity|]. inversion A; subst. contradiction.
        -- inversion A; subst. contradiction.
Qed.
Example C137_location_case :
  let f p l := Frame l p (Some (s "m")) (s "m.py") in
  defined_at true (s "rebulk") [f (Some (Some (s "rebulk"))) 1%Z; f (Some (Some (s "rebulk"))) 2%Z; f (Some (Some (s "rebulk.test"))) 3%Z; f None 4%Z]
  = Ok (Some (Location 3%Z (Some (s "rebulk.test")) (Some (s "m")) (s "m.py"))).
Proof. reflexivity. Qed.

(** a text written like [w], small letters, some of them perhaps capital *)
Definition cased (c l : char) : Prop := c = l \/ (c = l - 32 /\ 97 <= l <= 122)%N.
(** what is known of Python's tables: ASCII letters and digits are not blank; among the characters only the ASCII
    letters and digits lower to ASCII letters of the words, alone *)
Definition word_char (l : char) : Prop := In l (s "1trueyson").
Record python_tables (space : char -> bool) (lower : char -> pstr) : Prop := {
  pt_space : forall c l, word_char l -> cased c l -> space c = false;
  pt_lower : forall c l, word_char l -> cased c l -> lower c = [l];
  pt_other : forall c, (forall l, word_char l -> ~ cased c l) -> exists x r, lower c = x :: r /\ exists y, In y (x :: r) /\ ~ word_char y
}.
Lemma drop_spec {A} (f : A -> bool) l : exists a, l = a ++ drop_while f l /\ Forall (fun x => f x = true) a /\ (forall x r, drop_while f l = x :: r -> f x = false).
Proof.
  induction l as [|x l (a & E & F & G)]; [exists []; repeat split; [constructor|discriminate]|]. cbn [drop_while]. destruct (f x) eqn:Ex.
  - exists (x :: a). split; [cbn; f_equal; exact E|]. split; [constructor; assumption|exact G].
  - exists []. repeat split; [constructor|]. intros y r H. injection H as <- _. exact Ex.
Qed.
Lemma drop_none {A} (f : A -> bool) a l : Forall (fun x => f x = true) a -> (forall x r, l = x :: r -> f x = false) -> drop_while f (a ++ l) = l.
Proof.
  intros F G. induction F as [|x a Fx F IH]; cbn; [|rewrite Fx; exact IH]. destruct l as [|x r]; [reflexivity|]. cbn. rewrite (G x r eq_refl). reflexivity.
Qed.
Lemma strip_spec space v : exists a b, v = a ++ strip space v ++ b /\ Forall (fun x => space x = true) a /\ Forall (fun x => space x = true) b.
Proof.
  destruct (drop_spec space v) as (a & E & F & _). destruct (drop_spec space (rev (drop_while space v))) as (b & E' & F' & _).
  exists a, (rev b). split; [|split; [exact F|apply Forall_rev, F']]. rewrite E at 1. f_equal. unfold strip. rewrite <- rev_app_distr, <- E', rev_involutive. reflexivity.
Qed.
Lemma strip_known space a x b : Forall (fun x => space x = true) a -> Forall (fun x => space x = true) b -> x <> [] -> Forall (fun c => space c = false) x ->
  strip space (a ++ x ++ b) = x.
Proof.
  intros A B N X. unfold strip. rewrite drop_none; [|exact A|].
  - rewrite rev_app_distr, drop_none; [apply rev_involutive|apply Forall_rev, B|]. intros c r E. apply Forall_rev in X. rewrite E in X. inversion X; assumption.
  - intros c r E. destruct x as [|c' x]; [congruence|]. injection E as <- _. inversion X; assumption.
Qed.
Lemma cased_dec c : (exists l, word_char l /\ cased c l) \/ (forall l, word_char l -> ~ cased c l).
Proof.
  unfold word_char. generalize (s "1trueyson"). induction p as [|l p IH]; [right; intros l []|].
  destruct IH as [(m & A & B)|IH]; [left; exists m; split; [right; exact A|exact B]|].
  assert (cased c l \/ ~ cased c l) as [D|D]; [|left; exists l; split; [left; reflexivity|exact D]|].
  - unfold cased. destruct (N.eq_dec c l) as [|H1]; [auto|]. destruct (N.eq_dec c (l - 32)) as [H2|H2]; [|right; intros [X|[X _]]; contradiction].
    destruct ((97 <=? l) && (l <=? 122))%N eqn:E; [left; right; split; [exact H2|]; lia|right; intros [X|[_ [X Y]]]; [contradiction|]; lia].
  - right. intros m [<-|Hm]; [exact D|apply IH, Hm].
Qed.
Lemma lower_word space lower : python_tables space lower -> forall x w, Forall word_char w -> (flat_map lower x = w <-> Forall2 cased x w).
Proof.
  intros T. induction x as [|c x IH]; intros w W; cbn [flat_map].
  - split; [intros <-; constructor|intro H; inversion H; reflexivity].
  - destruct (cased_dec c) as [(l & Hl & C)|No].
    + rewrite (pt_lower T Hl C). cbn [app]. split.
      * intros <-. inversion W; subst. constructor; [exact C|]. apply IH; [assumption|reflexivity].
      * intro H. inversion H as [|? l' ? w' C' F]; subst. inversion W as [|? ? W1 W2]; subst.
        pose proof (pt_lower T W1 C') as E1. pose proof (pt_lower T Hl C) as E2. rewrite E1 in E2. injection E2 as <-. f_equal. apply IH; assumption.
    + split.
      * intros E. exfalso. destruct (pt_other T No) as (y0 & r & Ey & y & Hy & Ny). apply Ny. rewrite Forall_forall in W. apply W. rewrite <- E, Ey. apply in_or_app. auto.
      * intro H. exfalso. inversion H as [|? l' ? w' C' F]; subst. inversion W; subst. eapply No; eassumption.
Qed.
(** The switch of the declared-keys check: blanks around do not count, capitals neither, and the value is one of four *)
Theorem C137_switch : forall space lower, python_tables space lower -> forall value,
  truthy_env space lower value = true <->
  exists v a x b w, value = Some v /\ v = a ++ x ++ b /\ Forall (fun c => space c = true) a /\ Forall (fun c => space c = true) b
    /\ In w [s "1"; s "true"; s "yes"; s "on"] /\ Forall2 cased x w.
Proof.
  intros space lower T value. unfold truthy_env. rewrite existsb_exists.
  assert (W : forall w, In w [s "1"; s "true"; s "yes"; s "on"] -> Forall word_char w /\ w <> []).
  { intros w Hw. split; [|repeat (destruct Hw as [<-|Hw]; [discriminate|]); destruct Hw]. repeat (destruct Hw as [<-|Hw]; [repeat constructor; vm_compute; tauto|]). destruct Hw. }
  split.
  - intros (w & Hw & E). apply pstr_eqb_eq in E. destruct value as [v|].
    + destruct (strip_spec space v) as (a & b & Ev & A & B). exists v, a, (strip space v), b, w. repeat split; try assumption.
      apply (lower_word T); [apply W, Hw|exact E].
    + cbn in E. subst w. destruct (W _ Hw) as [_ N]. congruence.
  - intros (v & a & x & b & w & -> & -> & A & B & Hw & F). destruct (W w Hw) as [Ww Nw]. exists w. split; [exact Hw|]. apply pstr_eqb_eq.
    assert (X : Forall (fun c => space c = false) x).
    { clear -T Ww F. induction F as [|c l x w C F IH]; [constructor|]. inversion Ww; subst. constructor; [eapply (pt_space T); eassumption|apply IH; assumption]. }
    rewrite strip_known; [|assumption|assumption|intros ->; apply Nw; inversion F; reflexivity|exact X]. apply (lower_word T); assumption.
Qed.
(** The switch of the regex module: exactly four values, and the module must be there *)
Theorem C137_regex : forall value importable,
  regex_enabled value importable = true <-> importable = true /\ (value = Some (s "1") \/ value = Some (s "true") \/ value = Some (s "True") \/ value = Some (s "Y")).
Proof.
  intros value importable. unfold regex_enabled. destruct value as [v|]; [|split; [discriminate|intros [_ [H|[H|[H|H]]]]; discriminate]].
  rewrite andb_true_iff, existsb_exists. split.
  - intros [(w & Hw & E) ->]. apply pstr_eqb_eq in E. subst w. split; [reflexivity|]. repeat (destruct Hw as [<-|Hw]; [tauto|]). destruct Hw.
  - intros [-> H]. split; [|reflexivity]. exists v. rewrite pstr_eqb_refl. split; [|reflexivity]. cbn. destruct H as [H|[H|[H|H]]]; injection H as ->; tauto.
Qed.
(** ASCII tables meet the hypotheses; the two switches do not understand the same words *)
Definition ascii_space (c : char) : bool := (c =? 32)%N || ((9 <=? c) && (c <=? 13))%N.
Definition ascii_lower (c : char) : pstr := if ((65 <=? c) && (c <=? 90))%N then [(c + 32)%N] else [c].
Example C137_tables : python_tables ascii_space ascii_lower.
Proof.
  assert (V : forall l, word_char l -> l = 49%N \/ (97 <= l <= 122)%N).
  { intros l H. unfold word_char in H. cbn in H. repeat (destruct H as [<-|H]; [vm_compute; intuition congruence|]). destruct H. }
  constructor.
  - intros c l Hl C. apply V in Hl. unfold ascii_space. destruct C as [->|[-> C]]; lia.
  - intros c l Hl C. apply V in Hl. unfold ascii_lower. destruct C as [->|[-> C]].
    + destruct ((65 <=? l)%N && (l <=? 90)%N)%bool eqn:E; [lia|reflexivity].
    + destruct ((65 <=? l - 32)%N && (l - 32 <=? 90)%N)%bool eqn:E; [|lia]. f_equal. lia.
  - intros c No. unfold ascii_lower. destruct ((65 <=? c)%N && (c <=? 90)%N)%bool eqn:E; eexists; exists []; (split; [reflexivity|]); eexists; (split; [left; reflexivity|]); intro H.
    + apply (No _ H). right. lia.
    + apply (No _ H). left. reflexivity.
Qed.
Example C137_case : truthy_env ascii_space ascii_lower (Some (s " Yes ")) = true /\ truthy_env ascii_space ascii_lower (Some (s "Y")) = false
  /\ regex_enabled (Some (s "Y")) true = true /\ regex_enabled (Some (s "yes")) true = false /\ truthy_env ascii_space ascii_lower None = false.
Proof. repeat split; reflexivity. Qed.
Print Assumptions C136_level_given.
Print Assumptions C137_location.
Print Assumptions C137_switch.
