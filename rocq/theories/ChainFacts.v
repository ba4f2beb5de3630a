(** * Facts about the chain model *)
From Verif Require Import Base BaseFacts Match Coll Loose MatchFacts RulesFacts Pattern Chain SpecChain.
Set Implicit Arguments.
Unset Strict Implicit.
Open Scope Z_scope.

(** ** Sorting and grouping by index *)
Lemma insert_by_In {A} (lt : A -> A -> bool) x l y : In y (insert_by lt x l) <-> y = x \/ In y l.
Proof.
  induction l as [|z l IH]; simpl; [intuition congruence|]. destruct (lt x z); simpl; [intuition congruence|]. rewrite IH. intuition congruence.
Qed.
Lemma sort_by_In {A} (lt : A -> A -> bool) l y : In y (sort_by lt l) <-> In y l.
Proof.
  unfold sort_by. assert (forall l acc, In y (fold_left (fun acc x => insert_by lt x acc) l acc) <-> In y l \/ In y acc) as H.
  { clear l. induction l as [|x l IH]; intro acc; simpl; [intuition|]. rewrite IH, insert_by_In. intuition congruence. }
  rewrite H. simpl. intuition.
Qed.
Lemma groupby_In {A K} `{Eqb K} (key : A -> K) l k g : In (k, g) (groupby key l) ->
  g <> [] /\ forall x, In x g -> In x l /\ key x = k.
Proof.
  revert k g. induction l as [|x l IH]; simpl; [intuition|]. intros k g.
  destruct (groupby key l) as [|[k' g'] t] eqn:E.
  - intros [H0|[]]. injection H0 as <- <-. split; [discriminate|]. intros y [<-|[]]; auto.
  - destruct (eqb (key x) k') eqn:Ek.
    + apply eqb_eq in Ek. intros [H0|H0].
      * injection H0 as <- <-. split; [discriminate|]. destruct (IH k' g' (or_introl eq_refl)) as [_ Hg].
        intros y [<-|Hy]; [auto|]. destruct (Hg y Hy); auto.
      * destruct (IH k g (or_intror H0)) as [Hn Hg]. split; auto. intros y Hy. destruct (Hg y Hy); auto.
    + intros [H0|H0].
      * injection H0 as <- <-. split; [discriminate|]. intros y [<-|[]]; auto.
      * destruct (IH k g H0) as [Hn Hg]. split; auto. intros y Hy. destruct (Hg y Hy); auto.
Qed.
Lemma group_by_index_In ms i g : In (i, g) (group_by_index ms) -> g <> [] /\ forall x, In x g -> In x ms /\ m_index x = i.
Proof.
  intro H. apply groupby_In in H as [H1 H2]. split; auto. intros x Hx. destruct (H2 x Hx) as [H3 H4]. apply sort_by_In in H3. auto.
Qed.
Lemma dfind_In {K V} `{Eqb K} (d : dict K V) k v : dfind d k = Some v -> In (k, v) d.
Proof.
  induction d as [|[k' v'] d IH]; simpl; [discriminate|]. destruct (eqb k k') eqn:E; [|auto].
  apply eqb_eq in E. intro H0. injection H0 as <-. subst. auto.
Qed.
Lemma visible_In ms i g : dfind (group_by_index ms) i = Some g -> forall x, In x g -> In x ms /\ m_index x = i.
Proof. intros H x Hx. apply dfind_In in H. apply group_by_index_In in H as [_ H]. auto. Qed.

Lemma truncate_In first rend ms input x : In x (truncate_repeater first rend ms input) -> In x ms.
Proof.
  assert (forall r m, In x (contiguous input m r) -> In x (m :: r)) as C.
  { induction r as [|m' r IH]; intros m; simpl; [auto|]. destruct (separated _ _ _); simpl; [intuition|]. intros [H|H]; auto.
    right. apply IH in H. exact H. }
  destruct ms as [|m r]; cbn [truncate_repeater]; [auto|]. destruct (_ && _); [intros []|]. cbv zeta. destruct rend as [e|]; [|apply C].
  intro H. apply filter_In in H as [H _]. now apply C.
Qed.

Lemma part_matches_ok first cp n text n' ms raws : part_matches first cp n text = Ok (n', (ms, raws)) ->
  exists ms0 raws0, cp_match cp n text = Ok (n', (ms0, raws0)) /\ ms = truncate_repeater first (cp_end cp) ms0 text
    /\ raws = truncate_repeater first (cp_end cp) raws0 text /\ validate_repeater (cp_start cp) raws = true.
Proof.
  unfold part_matches. destruct (cp_match cp n text) as [[k [ms0 raws0]]|e]; [|discriminate].
  destruct (validate_repeater _ _) eqn:E; [|discriminate]. intro H. injection H as <- <- <-. eauto 8.
Qed.

(** ** Rests of the input *)
Lemma rest_eq {A} (l : list A) o : 0 <= o -> py_slice l (Some o) None = skipn (Z.to_nat o) l.
Proof.
  intro H. unfold py_slice, py_clip. destruct (o <? 0) eqn:E; [lia|].
  rewrite firstn_all2 by (rewrite skipn_length; unfold zlen; lia).
  unfold zlen. destruct (Z.le_gt_cases o (Z.of_nat (length l))).
  - now rewrite Z.min_l by lia.
  - rewrite Z.min_r by lia. rewrite !skipn_all2 by lia. reflexivity.
Qed.
Lemma rest_shorter {A} (l : list A) o : 0 < o -> 0 < zlen l -> zlen (py_slice l (Some o) None) < zlen l.
Proof. intros. rewrite rest_eq by lia. unfold zlen in *. rewrite skipn_length. lia. Qed.

(** ** Progress *)

Lemma shift_raw_end input off m : m_rawend m = None ->
  raw_end (shift input off m) = (if option_eqb pstr_eqb (m_input m) (Some input) then m_end m else m_end m + off).
Proof. destruct m. unfold raw_end. simpl. now intros ->. Qed.

Section Progress.
  Variable breaker : option (list mtch -> bool).
  Variable input : pstr.

  Lemma next_groups_progress hidden visible : forall groups st st' lo hi,
    next_groups breaker hidden input visible groups st = Ok st' -> lo <= hi ->
    (forall i g x, In (i, g) groups -> In x g -> hi < raw_end x) -> (forall i g, In (i, g) groups -> g <> []) ->
    (forall i g x, dfind visible i = Some g -> In x g -> hi < raw_end x) ->
    Forall (fun m => lo < raw_end m) (cs_current st) -> 
    Forall (fun m => lo < raw_end m) (cs_current st') /\ cs_next st' = cs_next st
    /\ ((groups = [] /\ st' = st)
        \/ (cs_found st' = true /\ hi < cs_offset st' /\ cs_text st' = py_slice input (Some (cs_offset st')) None)).
  Proof.
    induction groups as [|[i g] r IH]; intros st st' lo hi H L G Gn V C; cbn [next_groups] in H.
    - injection H as <-. auto.
    - set (off := match rev g with x :: _ => raw_end x | [] => cs_offset st end) in *.
      assert (hi < off) as Hoff.
      { unfold off. destruct (rev g) as [|x t] eqn:E.
        - exfalso. apply (Gn i g); [left; reflexivity|]. apply (f_equal (@rev _)) in E. rewrite rev_involutive in E. exact E.
        - apply (G i g); [now left|]. apply in_rev. rewrite E. now left. }
      assert (exists cur, next_groups breaker hidden input visible r (CState (cs_next st) true (py_slice input (Some off) None) off cur) = Ok st'
              /\ Forall (fun m => lo < raw_end m) cur) as (cur & H1 & C1).
      { destruct hidden; [eauto|]. 
        destruct (breaker_allows _ _) as [b|e]; [|discriminate]. eexists; split; [exact H|]. destruct b; [|exact C].
        apply Forall_app. split; [exact C|]. destruct (dfind visible i) as [l|] eqn:E; [|constructor].
        apply Forall_forall. intros x Hx. specialize (V _ _ _ E Hx). lia. }
      assert (forall i g, In (i, g) r -> g <> []) as Gn' by (intros; eapply Gn; right; eauto).
      assert (forall i g x, In (i, g) r -> In x g -> hi < raw_end x) as G' by (intros ? ? ? Hin; apply (G i0 g0); now right).
      destruct (IH _ _ lo hi H1 L G' Gn' V C1) as (K1 & K2 & K3). split; [exact K1|]. split; [exact K2|].
      right. destruct K3 as [[-> ->]|K3]; [simpl; auto|exact K3].
  Qed.

  (** the state during an attempt started at [o0] *)
  Record attempt (o0 : Z) (st : cstate) : Prop := {
    at_offset : o0 <= cs_offset st;
    at_found : cs_found st = true -> o0 < cs_offset st;
    at_current : Forall (fun m => o0 < raw_end m) (cs_current st);
    at_any : cs_current st <> [] -> cs_found st = true;
    at_text : (cs_found st = false /\ cs_offset st = 0 /\ cs_text st = input) \/ zlen (cs_text st) < zlen input
  }.

  Lemma to_next_part_progress first cp o0 st n' ms raws st' : 0 <= o0 -> 0 < zlen input -> proper cp -> attempt o0 st ->
    part_matches first cp (cs_next st) (cs_text st) = Ok (n', (ms, raws)) ->
    to_next_part breaker cp input ms raws (CState n' (cs_found st) (cs_text st) (cs_offset st) (cs_current st)) = Ok st' ->
    attempt o0 st'.
  Proof.
    intros O L P A H H1. apply part_matches_ok in H as (ms0 & raws0 & E & -> & -> & _).
    apply P in E as [Pm Pr]. unfold to_next_part in H1. cbn [cs_offset] in H1.
    assert (forall l, Forall (advances (cs_text st)) l -> forall x, In x (map (shift input (cs_offset st)) (truncate_repeater first (cp_end cp) l (cs_text st))) ->
            cs_offset st < raw_end x) as X.
    { intros l Hl x Hx. apply in_map_iff in Hx as (y & <- & Hy). apply truncate_In in Hy.
      rewrite Forall_forall in Hl. destruct (Hl _ Hy) as (I1 & I2 & I3). rewrite shift_raw_end by exact I2. rewrite I1. simpl.
      destruct (at_text A) as [(_ & O1 & ->)|Lt].
      - rewrite pstr_eqb_refl. lia.
      - destruct (pstr_eqb _ _) eqn:Eq; [|lia]. apply (list_eqb_spec _ N.eqb_eq) in Eq. rewrite Eq in Lt. lia. }
    pose proof (X _ Pm) as Xm. pose proof (X _ Pr) as Xr. clear X.
    apply next_groups_progress with (lo := o0) (hi := cs_offset st) in H1.
    - destruct H1 as (K1 & K2 & K3). destruct K3 as [[_ ->]|(K3 & K4 & K5)].
      + destruct A. constructor; auto.
      + pose proof (at_offset A). constructor; auto; try lia; try congruence. right. rewrite K5. apply rest_shorter; lia.
    - apply (at_offset A).
    - intros i g x Hg Hx. apply group_by_index_In in Hg as [_ Hg]. destruct (Hg x Hx). now apply Xr.
    - intros i g Hg. now apply group_by_index_In in Hg as [Hg _].
    - intros i g x Hg Hx. destruct (visible_In Hg Hx). now apply Xm.
    - apply (at_current A).
  Qed.

  Lemma run_parts_progress o0 : 0 <= o0 -> 0 < zlen input -> forall parts first st st' valid, Forall proper parts -> attempt o0 st ->
    run_parts breaker input first parts st = Ok (st', valid) -> attempt o0 st'.
  Proof.
    intros O L. induction parts as [|cp r IH]; intros first st st' valid P A H; cbn [run_parts] in H.
    - injection H as <- <-. exact A.
    - inversion P as [|? ? P1 P2]; subst.
      destruct (part_matches first cp (cs_next st) (cs_text st)) as [[n' [ms raws]]|e] eqn:E.
      + destruct (to_next_part _ _ _ _ _ _) as [st1|] eqn:E1; [|discriminate].
        eapply IH; [exact P2| |exact H]. eapply to_next_part_progress; eauto.
      + destruct e; try discriminate. injection H as <- <-. destruct A as [A1 A2 A3 A4 A5]. destruct (cs_current st) as [|m l] eqn:Ec.
        * constructor; auto; rewrite Ec; auto.
        * assert (cs_found st = true) as F by (apply A4; discriminate). inversion A3 as [|? ? A6 _]; subst.
          constructor; simpl; auto; try lia.
  Qed.


  Lemma next_groups_convergent hidden visible : forall groups st, next_groups breaker hidden input visible groups st <> Err Diverges.
  Proof.
    induction groups as [|[i g] r IH]; intros st; cbn [next_groups]; [discriminate|]. destruct hidden; [apply IH|].
    destruct (breaker_allows _ _) as [b|e] eqn:E; [apply IH|]. unfold breaker_allows in E. destruct breaker; [|discriminate].
    destruct (existsb _ _); congruence.
  Qed.
  Lemma run_parts_convergent : forall parts first st, Forall convergent parts -> run_parts breaker input first parts st <> Err Diverges.
  Proof.
    induction parts as [|cp r IH]; intros first st P; cbn [run_parts]; [discriminate|]. inversion P as [|? ? P1 P2]; subst.
    destruct (part_matches _ _ _ _) as [[n' [ms raws]]|e] eqn:E.
    - unfold to_next_part. destruct (next_groups _ _ _ _ _ _) eqn:E1; [now apply IH|]. intro H. injection H as ->.
      exact (next_groups_convergent E1).
    - assert (e <> Diverges) as N.
      { intros ->. unfold part_matches in E. pose proof (P1 (cs_next st) (cs_text st)). destruct (cp_match _ _ _) as [[? [? ?]]|]; [|congruence].
        destruct (validate_repeater _ _); discriminate. }
      destruct e; congruence.
  Qed.

  Lemma append_all_convergent : forall add cs, append_all cs add <> Err Diverges.
  Proof. induction add as [|c r IH]; intro cs; simpl; [discriminate|]. unfold append_child. destruct (m_marker c); [discriminate|apply IH]. Qed.
  Lemma chain_children_convergent main : forall cur cs, chain_children main cur cs <> Err Diverges.
  Proof.
    induction cur as [|m r IH]; intro cs; cbn [chain_children]; [discriminate|]. destruct (append_all _ _) eqn:E.
    - destruct (mem _ _ _); [apply IH|]. unfold append_child. destruct (m_marker _); [discriminate|apply IH].
    - intro H. injection H as ->. exact (append_all_convergent E).
  Qed.
  Lemma build_convergent p id cur : build_chain_match p id cur input <> Err Diverges.
  Proof.
    unfold build_chain_match. destruct cur; [discriminate|]. cbv zeta. destruct (chain_children _ _ _) eqn:E; [discriminate|].
    intro H. injection H as ->. exact (chain_children_convergent E).
  Qed.

  Lemma chain_loop_terminates p parts : Forall proper parts -> Forall convergent parts -> forall fuel n text offset acc,
    0 <= offset -> (offset = 0 /\ text = input \/ zlen text < zlen input) -> zlen input - offset < Z.of_nat fuel ->
    chain_loop fuel p breaker parts input n text offset acc <> Err Diverges.
  Proof.
    intros P C. induction fuel as [|f IH]; intros n text offset acc O T F; cbn [chain_loop].
    - destruct (offset <? zlen input) eqn:E; [lia|discriminate].
    - destruct (offset <? zlen input) eqn:E; [|discriminate].
      destruct (run_parts _ _ _ _ _) as [[st valid]|e] eqn:R.
      + apply (@run_parts_progress offset) in R; auto; [|lia| ].
        2:{ constructor; simpl; auto; try lia; try congruence. intuition. }
        destruct (cs_found st) eqn:Fo; [|discriminate]. cbn [negb].
        destruct R as [R1 R2 R3 R4 R5]. specialize (R2 Fo).
        assert (cs_offset st = 0 /\ cs_text st = input \/ zlen (cs_text st) < zlen input) as T' by (destruct R5 as [[? _]|?]; [congruence|auto]).
        destruct (cs_current st) as [|m0 l0] eqn:Ec; [apply IH; auto; lia|]. destruct valid; [|apply IH; auto; lia].
        destruct (build_chain_match _ _ _ _) as [m|e] eqn:B; [apply IH; auto; lia|].
        intro H. injection H as ->. exact (build_convergent B).
      + intro H. injection H as ->. exact (run_parts_convergent C R).
  Qed.

  Lemma chain_loop_mono p parts : forall fuel fuel' n text offset acc r, chain_loop fuel p breaker parts input n text offset acc = r ->
    r <> Err Diverges -> (fuel <= fuel')%nat -> chain_loop fuel' p breaker parts input n text offset acc = r.
  Proof.
    induction fuel as [|f IH]; intros fuel' n text offset acc r H N L.
    - cbn [chain_loop] in H. destruct fuel'; cbn [chain_loop]; destruct (offset <? zlen input); congruence.
    - destruct fuel' as [|f']; [lia|]. cbn [chain_loop] in *. destruct (offset <? zlen input); [|exact H].
      destruct (run_parts _ _ _ _ _) as [[st valid]|e]; [|exact H]. destruct (negb _); [exact H|].
      assert (f <= f')%nat by lia. destruct (cs_current st); [eauto|]. destruct valid; [|eauto]. destruct (build_chain_match _ _ _ _); [eauto|exact H].
  Qed.
End Progress.
