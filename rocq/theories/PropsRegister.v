(** * Properties C68, C69: loading rules, building Rebulk objects *)
From Verif Require Import Base BaseFacts Spec Match Loose PropsLoose PropsTyped Rules Rebulk RebulkFacts PropsRebulk Register.
From Coq Require Import Permutation Sorting.Sorted.
Set Implicit Arguments.
Unset Strict Implicit.
Open Scope nat_scope.
Open Scope list_scope.

(** ** C68 Loading rules *)
(** what must be called, in order, when a list of arguments is loaded: the members of a module
    defined in it, sorted by name; a class *)
Inductive entry := EGiven (r : nat) | ECall (call : nat -> res nat).
Inductive in_name_order (m : pymodule) : list (pstr * member) -> Prop :=
| name_order l : Permutation l (filter (member_of m) (md_members m)) ->
    StronglySorted (fun a b => ~ str_before (fst b) (fst a)) l -> in_name_order m l.
Inductive entries : list loadable -> list entry -> Prop :=
| entries_nil : entries [] []
| entries_module m ls l es : in_name_order m l -> entries ls es -> entries (LModule m :: ls) (map (fun nm => ECall (mb_call (snd nm))) l ++ es)
| entries_class c ls es : entries ls es -> entries (LClass c :: ls) (ECall c :: es)
| entries_inst r ls es : entries ls es -> entries (LInstance r :: ls) (EGiven r :: es).
(** the rule objects obtained; the exception ending it, if any.  [n]: objects made so far *)
Inductive obtained : nat -> list entry -> list nat -> res unit -> Prop :=
| obtained_nil n : obtained n [] [] (Ok tt)
| obtained_given n r es rs x : obtained n es rs x -> obtained n (EGiven r :: es) (r :: rs) x
| obtained_call n c r es rs x : c n = Ok r -> obtained (S n) es rs x -> obtained n (ECall c :: es) (r :: rs) x
| obtained_raise n c e es : c n = Err e -> obtained n (ECall c :: es) [] (Err e).

Lemma StronglySorted_impl A (P Q : A -> A -> Prop) l : (forall a b, P a b -> Q a b) -> StronglySorted P l -> StronglySorted Q l.
Proof. intros H S. induction S as [|x l S IH F]; constructor; [exact IH|]. eapply Forall_impl; [|exact F]. auto. Qed.
Lemma load_members_ok l : forall st es' rest,
  (forall st', exists rs, load rest st' = (RSt (rs_rules st' ++ rs) (rs_count (fst (load rest st'))), snd (load rest st')) /\ obtained (rs_count st') es' rs (snd (load rest st'))) ->
  exists rs, (match load_members l st with (st', Ok _) => load rest st' | (st', Err e) => (st', Err e) end)
             = (RSt (rs_rules st ++ rs) (rs_count (fst (match load_members l st with (st', Ok _) => load rest st' | (st', Err e) => (st', Err e) end))),
                snd (match load_members l st with (st', Ok _) => load rest st' | (st', Err e) => (st', Err e) end))
    /\ obtained (rs_count st) (map (fun nm => ECall (mb_call (snd nm))) l ++ es') rs
         (snd (match load_members l st with (st', Ok _) => load rest st' | (st', Err e) => (st', Err e) end)).
Proof.
  induction l as [|[n m] l IH]; intros st es' rest H; simpl; [apply H|].
  unfold load_class. destruct (mb_call m (rs_count st)) as [r|e] eqn:E.
  - specialize (IH (RSt (rs_rules st ++ [r]) (S (rs_count st))) es' rest H) as (rs & E1 & O).
    exists (r :: rs). simpl in *. split.
    + rewrite E1 at 1. rewrite <- app_assoc. reflexivity.
    + econstructor; [exact E | exact O].
  - exists []. simpl. rewrite app_nil_r. split; [destruct st; reflexivity | constructor; exact E].
Qed.
(** Whatever is loaded, the rules already registered stay in front, and the new ones follow in
    the order of the arguments (of a module: the members defined in it, by name; members
    imported from elsewhere are left out).  When a call raises, the rules obtained before stay
    registered. *)
Theorem C95_loading : forall ls st,
  exists es rs, entries ls es /\ obtained (rs_count st) es rs (snd (load ls st))
    /\ rs_rules (fst (load ls st)) = rs_rules st ++ rs.
Proof.
  assert (forall ls, exists es, entries ls es /\ forall st, exists rs,
            load ls st = (RSt (rs_rules st ++ rs) (rs_count (fst (load ls st))), snd (load ls st))
            /\ obtained (rs_count st) es rs (snd (load ls st))) as G.
  { induction ls as [|a ls (es & He & IH)].
    - exists []. split; [constructor|]. intro st. exists []. simpl. rewrite app_nil_r. split; [destruct st; reflexivity | constructor].
    - destruct a as [m|c|r].
      + eexists. split.
        * econstructor; [|exact He]. econstructor.
          -- apply sort_by_perm with (lt := fun a b => pstr_lt (fst a) (fst b)).
          -- eapply StronglySorted_impl; [|apply sort_by_sorted with (lt := fun a b : pstr * member => pstr_lt (fst a) (fst b))].
             ++ intros a b H Hb. apply pstr_lt_before in Hb. unfold le in H. congruence.
             ++ intros x y z H1 H2. destruct (pstr_lt (fst z) (fst x)) eqn:E; [|reflexivity].
                destruct (pstr_lt_total H1) as [Eq|L1]; [rewrite Eq in H2; congruence|]. rewrite (pstr_lt_trans E L1) in H2. discriminate.
             ++ intros x y H. destruct (pstr_lt (fst y) (fst x)) eqn:E; [|reflexivity]. pose proof (pstr_lt_trans H E) as X. rewrite pstr_lt_irrefl in X. discriminate.
        * intro st. exact (load_members_ok (sort_by (fun a b => pstr_lt (fst a) (fst b)) (filter (member_of m) (md_members m))) st IH).
      + exists (ECall c :: es). split; [constructor; exact He|]. intro st. simpl. unfold load_class. destruct (c (rs_count st)) as [r|e] eqn:E.
        * destruct (IH (RSt (rs_rules st ++ [r]) (S (rs_count st)))) as (rs & E1 & O). exists (r :: rs). simpl in *. rewrite E1 at 1. rewrite <- app_assoc.
          split; [reflexivity|]. econstructor; [exact E | exact O].
        * exists []. simpl. rewrite app_nil_r. split; [destruct st; reflexivity | constructor; exact E].
      + exists (EGiven r :: es). split; [constructor; exact He|]. intro st. simpl.
        destruct (IH (RSt (rs_rules st ++ [r]) (rs_count st))) as (rs & E1 & O). exists (r :: rs). simpl in *. rewrite E1 at 1. rewrite <- app_assoc.
        split; [reflexivity | constructor; exact O]. }
  intros ls st. destruct (G ls) as (es & He & H). destruct (H st) as (rs & E & O). exists es, rs. split; [exact He|]. split; [exact O|].
  rewrite E. reflexivity.
Qed.
Lemma name_order_unique m l1 l2 : NoDup (map fst (md_members m)) -> in_name_order m l1 -> in_name_order m l2 -> l1 = l2.
Proof.
  intros N [l1' P1 S1] [l2' P2 S2].
  assert (Permutation l1' l2') as P by (etransitivity; [exact P1 | symmetry; exact P2]).
  assert (NoDup (map fst l1')) as N1.
  { eapply Permutation_NoDup; [symmetry; apply Permutation_map, P1|]. clear -N. induction (md_members m) as [|x l IH]; simpl; [constructor|].
    simpl in N. inversion N as [|? ? Hx Hl]; subst. destruct (member_of m x); [|auto]. simpl. constructor; [|auto].
    intro H. apply Hx. apply in_map_iff in H as (y & Hy & Hin). apply filter_In in Hin as [Hin _]. apply in_map_iff. eauto. }
  clear P1 P2 N. revert l2' P S2. induction S1 as [|x l1' S1 IH F]; intros l2' P S2; [apply Permutation_nil in P; auto|].
  destruct l2' as [|y l2']; [symmetry in P; apply Permutation_nil in P; discriminate|].
  assert (x = y) as <-.
  { assert (In x (y :: l2')) as Hx by (eapply Permutation_in; [exact P | left; reflexivity]).
    assert (In y (x :: l1')) as Hy by (eapply Permutation_in; [symmetry; exact P | left; reflexivity]).
    destruct Hx as [Hx|Hx]; [auto|]. destruct Hy as [Hy|Hy]; [auto|]. exfalso.
    inversion S2 as [|? ? _ F2]; subst. rewrite Forall_forall in F, F2. specialize (F _ Hy). specialize (F2 _ Hx). simpl in F, F2.
    assert (fst x = fst y) as E.
    { destruct (pstr_lt (fst x) (fst y)) eqn:E1; [exfalso; apply F2, pstr_lt_before, E1|]. destruct (pstr_lt_total E1) as [E2|E2]; [exact E2|].
      exfalso. apply F, pstr_lt_before, E2. }
    simpl in N1. inversion N1 as [|? ? Hn _]; subst. apply Hn. rewrite E. apply in_map, Hy. }
  f_equal. apply IH; [simpl in N1; inversion N1; assumption | apply Permutation_cons_inv in P; exact P | inversion S2; assumption].
Qed.
(** this fixes the result *)
Theorem C95_determined : forall n es rs1 x1 rs2 x2, obtained n es rs1 x1 -> obtained n es rs2 x2 -> rs1 = rs2 /\ x1 = x2.
Proof.
  intros n es rs1 x1 rs2 x2 H. revert rs2 x2. induction H as [n|n r es rs x H IH|n c r es rs x E H IH|n c e es E]; intros rs2 x2 H2; inversion H2; subst; try (split; congruence); try congruence.
  - destruct (IH _ _ H6) as [-> ->]. auto.
  - match goal with H' : c n = Ok ?r' |- _ => assert (r = r') as <- by congruence end.
    match goal with H' : obtained _ es _ _ |- _ => destruct (IH _ _ H') as [-> ->] end. auto.
Qed.
(** "a module containing Rule classes only": each class defined in it is instantiated, once,
    and nothing else is called *)
Theorem C68_module_classes_partial : forall m st (instance : member -> nat),
  (forall n mb, In (n, mb) (md_members m) -> mb_module mb = Some (md_name m) -> mb_is_class mb = true) ->
  (forall mb k, mb_is_class mb = true -> mb_call mb k = Ok (instance mb)) ->
  exists rs, load_module m st = (RSt (rs_rules st ++ rs) (rs_count st + length rs), Ok tt)
    /\ Permutation rs (map (fun nm => instance (snd nm))
         (filter (fun nm => mb_is_class (snd nm) && match mb_module (snd nm) with Some n => pstr_eqb n (md_name m) | None => false end) (md_members m))).
Proof.
  intros m st inst H1 H2. unfold load_module.
  set (l := sort_by (fun a b => pstr_lt (fst a) (fst b)) (filter (member_of m) (md_members m))).
  assert (Permutation l (filter (member_of m) (md_members m))) as P by apply sort_by_perm.
  assert (forall nm, In nm l -> mb_is_class (snd nm) = true) as Hl.
  { intros [n mb] Hin. apply (Permutation_in _ P), filter_In in Hin as [Hi Hm]. apply (H1 n mb Hi). unfold member_of in Hm. simpl in Hm.
    destruct (mb_module mb) as [n'|]; [|discriminate]. f_equal. apply pstr_eqb_eq, Hm. }
  exists (map (fun nm => inst (snd nm)) l). split.
  - clear P. revert st Hl. generalize l as l'. clear l. induction l' as [|[n mb] l' IH]; intros [rs c] Hl; simpl; [rewrite app_nil_r, Nat.add_0_r; reflexivity|].
    pose proof (Hl (n, mb) (or_introl eq_refl)) as Hc. simpl in Hc. unfold load_class. simpl. rewrite (H2 mb c Hc), IH by (intros; apply Hl; right; assumption).
    simpl. rewrite <- app_assoc. f_equal. f_equal. lia.
  - rewrite P. apply Permutation_map. match goal with |- Permutation _ (filter ?f ?l') => replace (filter f l') with (filter (member_of m) l'); [reflexivity|] end.
    apply filter_ext_in'. intros [n mb] Hin. unfold member_of. cbn [snd].
    destruct (mb_module mb) as [n'|] eqn:E; [|symmetry; apply andb_false_r]. destruct (pstr_eqb n' (md_name m)) eqn:En; [|symmetry; apply andb_false_r].
    rewrite (H1 n mb Hin); [reflexivity|]. rewrite E. f_equal. apply pstr_eqb_eq, En.
Qed.
(** Loading a module registers only its classes: refuted.  A function defined in the module is
    called, and what it returns (here 99) is registered; one which needs an argument makes the
    loading fail, after the members before it have been registered. *)
Definition module68 (members : list (pstr * member)) : pymodule := PyModule (s "my_rules") members.
Definition rule_class (r : nat) : member := Member (Some (s "my_rules")) true (fun _ => Ok r).
Definition imported (r : nat) : member := Member (Some (s "rebulk.rules")) true (fun _ => Ok r).
Definition helper : member := Member (Some (s "my_rules")) false (fun _ => Ok 99).
Definition helper_with_argument : member := Member (Some (s "my_rules")) false (fun _ => Err TypeError).
Theorem C68_helper_functions_refuted :
  load [LModule (module68 [(s "Rule", imported 5); (s "RuleB", rule_class 2); (s "RuleA", rule_class 1); (s "helper", helper)])] (RSt [] 0)
    = (RSt [1; 2; 99] 3, Ok tt)
  /\ load [LModule (module68 [(s "RuleB", rule_class 2); (s "RuleA", rule_class 1); (s "helper", helper_with_argument)])] (RSt [] 0)
    = (RSt [1; 2] 2, Err TypeError).
Proof. split; reflexivity. Qed.
Example C68_witness :
  load [LInstance 7; LModule (module68 [(s "Rule", imported 5); (s "RuleB", rule_class 2); (s "RuleA", rule_class 1)]); LClass (fun n => Ok (100 + n))] (RSt [8] 4)
    = (RSt [8; 7; 1; 2; 106] 7, Ok tt).
Proof. reflexivity. Qed.

(** ** C69 Building Rebulk objects *)
Section C69.
  Context {Ctx : Type}.
  (** the calls made on the object [a] since it was last reset, and the rules the reset made *)
  Fixpoint latest (a : nat) (calls : list (nat * rcall Ctx)) : option (list nat) * list (rcall Ctx) :=
    match calls with
    | [] => (None, [])
    | (b, call) :: t =>
        match latest a t with
        | (Some fresh, l) => (Some fresh, l)
        | (None, l) => if Nat.eqb b a then match call with CReset fresh => (Some fresh, l) | _ => (None, call :: l) end
                       else (None, l)
        end
    end.
  Definition patterns_of (l : list (rcall Ctx)) : list (pat Ctx) := flat_map (fun c => match c with CPattern ps => ps | _ => [] end) l.
  Definition rules_of (l : list (rcall Ctx)) : list nat := flat_map (fun c => match c with CRules rs => rs | _ => [] end) l.
  Definition children_of (l : list (rcall Ctx)) : list nat := flat_map (fun c => match c with CRebulk rs => rs | _ => [] end) l.
  Lemma own_after calls : forall (h : rheap) a,
    let o := rrun h calls a in
    match latest a calls with
    | (None, l) => ro_disabled o = ro_disabled (h a) /\ ro_patterns o = ro_patterns (h a) ++ patterns_of l
                   /\ ro_rules o = ro_rules (h a) ++ rules_of l /\ ro_children o = ro_children (h a) ++ children_of l
    | (Some fresh, l) => ro_disabled o = (fun _ => false) /\ ro_patterns o = patterns_of l /\ ro_rules o = fresh ++ rules_of l /\ ro_children o = children_of l
    end.
  Proof.
    induction calls as [|[b call] calls IH]; intros h a; simpl.
    - rewrite !app_nil_r. auto.
    - unfold rrun in *. cbn [fold_left]. specialize (IH (rstep h (b, call)) a). cbv zeta in IH. destruct (latest a calls) as [[fresh|] l]; [exact IH|].
      destruct IH as (I1 & I2 & I3 & I4). destruct (Nat.eqb b a) eqn:E.
      + apply Nat.eqb_eq in E. subst b.
        assert (forall o, rset h a o a = o) as Hs by (intro o; unfold rset; rewrite Nat.eqb_refl; reflexivity).
        unfold rstep in I1, I2, I3, I4.
        destruct call; rewrite Hs in I1, I2, I3, I4; simpl in I1, I2, I3, I4; simpl; rewrite ?app_assoc; auto.
      + assert (rstep h (b, call) a = h a) as Hs by (unfold rstep, rset; rewrite Nat.eqb_sym, E; reflexivity).
        rewrite Hs in I1, I2, I3, I4. auto.
  Qed.
  (** What an object holds after any history of calls on any objects: what was registered on it,
      in call order, since it was made or last reset; nothing else changes it. *)
  Theorem C96_registration : forall (h : rheap) calls a disabled with_default fresh0,
    h a = init_obj disabled with_default fresh0 ->
    let o := rrun h calls a in
    match latest a calls with
    | (None, l) => ro_disabled o = disabled /\ ro_patterns o = patterns_of l
                   /\ ro_rules o = (if with_default then fresh0 else []) ++ rules_of l /\ ro_children o = children_of l
    | (Some fresh, l) => ro_disabled o = (fun _ => false) /\ ro_patterns o = patterns_of l /\ ro_rules o = fresh ++ rules_of l /\ ro_children o = children_of l
    end.
  Proof.
    intros h calls a disabled wd fresh0 E o. pose proof (own_after calls h a) as H. cbv zeta in H. fold o in H.
    rewrite E in H. simpl in H. exact H.
  Qed.
  (** What is used by [matches]: own patterns and rules, then those of each enabled child in
      turn that were not met before — as they are when [matches] is called, whether they were
      registered on the child before or after it was added. *)
  Definition active (h : rheap) (ctx : Ctx) (a : nat) : list nat := filter (fun b => negb (ro_disabled (h b) ctx)) (ro_children (h a)).
  Lemma fold_extend_heap {A} (eq : A -> A -> bool) (g : nat -> list A) (off : nat -> bool) : (forall x, eq x x = true) -> forall cs acc,
    fold_left (fun l c => if off c then l else extend_safe eq (fun _ => true) l (g c)) cs acc
    = acc ++ firsts eq acc (flat_map g (filter (fun c => negb (off c)) cs)).
  Proof.
    intros R. induction cs as [|c cs IH]; intro acc; simpl; [now rewrite app_nil_r|]. rewrite IH. destruct (off c); simpl; [reflexivity|].
    destruct (@C23_extend_safe A eq R (fun _ => true) acc (g c)) as (-> & _). rewrite new_elements_firsts, firsts_app, <- app_assoc. reflexivity.
  Qed.
  Theorem C96_effective : forall env (h : rheap) calls ctx a,
    let h' := rrun h calls in
    heap_patterns h' ctx a = ro_patterns (h' a) ++ firsts (@pat_eq Ctx) (ro_patterns (h' a)) (flat_map (fun b => ro_patterns (h' b)) (active h' ctx a))
    /\ heap_rules env h' ctx a = ro_rules (h' a) ++ firsts (rule_eq env) (ro_rules (h' a)) (flat_map (fun b => ro_rules (h' b)) (active h' ctx a)).
  Proof.
    intros env h calls ctx a h'. split.
    - apply (@fold_extend_heap _ (@pat_eq Ctx) (fun b => ro_patterns (h' b)) (fun b => ro_disabled (h' b) ctx)). intro x. apply Nat.eqb_refl.
    - apply (@fold_extend_heap _ (rule_eq env) (fun b => ro_rules (h' b)) (fun b => ro_disabled (h' b) ctx)). intro x. apply Nat.eqb_refl.
  Qed.
  Lemma rrun_latest (h : rheap) calls calls' : (forall b, latest b calls = latest b calls') -> forall b, rrun h calls b = rrun h calls' b.
  Proof.
    intros H b. pose proof (own_after calls h b) as H1. pose proof (own_after calls' h b) as H2. cbv zeta in H1, H2. rewrite <- H in H2.
    destruct (rrun h calls b) as [d p r c], (rrun h calls' b) as [d' p' r' c']. simpl in *.
    destruct (latest b calls) as [[fresh|] l]; destruct H1 as (-> & -> & -> & ->), H2 as (-> & -> & -> & ->); reflexivity.
  Qed.
  Theorem C96_interleaving_irrelevant : forall env (h : rheap) calls calls' ctx a,
    (forall b, latest b calls = latest b calls') ->
    heap_patterns (rrun h calls) ctx a = heap_patterns (rrun h calls') ctx a
    /\ heap_rules env (rrun h calls) ctx a = heap_rules env (rrun h calls') ctx a.
  Proof.
    intros env h calls calls' ctx a H. pose proof (rrun_latest h H) as E. unfold heap_patterns, heap_rules. rewrite <- !(E a).
    assert (forall A (g g' : nat -> list A -> list A), (forall b l, g b l = g' b l) -> forall cs acc, fold_left (fun l b => g b l) cs acc = fold_left (fun l b => g' b l) cs acc) as F.
    { intros A g g' Hg. induction cs as [|c cs IH]; intro acc; simpl; [reflexivity|]. rewrite Hg. apply IH. }
    split.
    - apply (F _ (fun b ps => if ro_disabled (rrun h calls b) ctx then ps else extend_safe (@pat_eq Ctx) (fun _ => true) ps (ro_patterns (rrun h calls b)))
                 (fun b ps => if ro_disabled (rrun h calls' b) ctx then ps else extend_safe (@pat_eq Ctx) (fun _ => true) ps (ro_patterns (rrun h calls' b)))).
      intros b l. rewrite E. reflexivity.
    - apply (F _ (fun b ps => if ro_disabled (rrun h calls b) ctx then ps else extend_safe (rule_eq env) (fun _ => true) ps (ro_rules (rrun h calls b)))
                 (fun b ps => if ro_disabled (rrun h calls' b) ctx then ps else extend_safe (rule_eq env) (fun _ => true) ps (ro_rules (rrun h calls' b)))).
      intros b l. rewrite E. reflexivity.
  Qed.
  (** the heap objects are those of Rebulk.v: [a] with its children as they are now *)
  Definition view (h : rheap) (a : nat) : rb Ctx :=
    let shallow b := Rb (ro_disabled (h b)) (ro_patterns (h b)) (ro_rules (h b)) [] [] in
    Rb (ro_disabled (h a)) (ro_patterns (h a)) (ro_rules (h a)) [] (map shallow (ro_children (h a))).
  Lemma view_effective env (h : rheap) ctx a :
    effective_patterns ctx (view h a) = heap_patterns h ctx a /\ effective_rules env ctx (view h a) = heap_rules env h ctx a.
  Proof.
    unfold effective_patterns, effective_rules, heap_patterns, heap_rules, view. simpl. split.
    - generalize (ro_patterns (h a)) as acc. induction (ro_children (h a)) as [|b l IH]; intro acc; simpl; [reflexivity|]. rewrite IH. reflexivity.
    - generalize (ro_rules (h a)) as acc. induction (ro_children (h a)) as [|b l IH]; intro acc; simpl; [reflexivity|]. rewrite IH. reflexivity.
  Qed.
End C69.
(** [reset] "Reset all defaults": refuted, it is a new construction without arguments.  The
    patterns, the rules, the children and the disabled callback are gone, and the default rules
    are there even on an object made with default_rules=False. *)
Definition pat69 (n : nat) : pat unit := Pat n (fun _ => false) (fun _ => fun next _ => Ok (next, ([], []))) (PInfo None [] [] false false [] false ShFunctional).
Theorem C69_reset_refuted :
  let h0 : rheap := fun a => init_obj (fun _ => Nat.eqb a 1) false [] in
  let calls := [(1, CPattern [pat69 10]); (1, CRules [20]); (1, CRebulk [2])] in
  let o := rrun h0 calls 1 in
  let o' := rrun h0 (calls ++ [(1, CReset [30; 31])]) 1 in
  (map (@pt_id unit) (ro_patterns o), ro_rules o, ro_children o, ro_disabled o tt) = ([10], [20], [2], true)
  /\ (map (@pt_id unit) (ro_patterns o'), ro_rules o', ro_children o', ro_disabled o' tt) = ([], [30; 31], [], false).
Proof. split; reflexivity. Qed.
(** patterns added to a child after it was added; two objects that are children of each other *)
Example C69_witness :
  let h0 : rheap := fun a => init_obj (fun _ => false) true [100 + a; 200 + a] in
  let calls := [(1, CPattern [pat69 10]); (1, CRebulk [2]); (2, CRules [20]); (2, CPattern [pat69 11; pat69 10]); (2, CRebulk [1]); (1, CPattern [pat69 12])] in
  let env := REnv (fun r => r mod 100) (fun _ => 0%Z) (fun _ => []) in
  map (@pt_id unit) (heap_patterns (rrun h0 calls) tt 1) = [10; 12; 11]
  /\ map (@pt_id unit) (heap_patterns (rrun h0 calls) tt 2) = [11; 10; 12]
  /\ heap_rules env (rrun h0 calls) tt 1 = [101; 201; 102; 20].
Proof. repeat split; vm_compute; reflexivity. Qed.

Print Assumptions C95_loading. Print Assumptions C68_module_classes_partial. Print Assumptions C96_registration.
Print Assumptions C96_effective. Print Assumptions C96_interleaving_irrelevant.
