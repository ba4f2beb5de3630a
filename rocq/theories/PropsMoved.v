(** * C129: pieces of a chain, whatever its parts *)
From Verif Require Import Base BaseFacts Match Coll Loose MatchFacts Pattern PatternFacts PropsPattern Chain ChainFacts ChainSem PropsChain SpecMoved.
Export Coq.Strings.String.StringSyntax.
From Coq Require Import ZifyBool.
Set Implicit Arguments.
Unset Strict Implicit.
Open Scope Z_scope.

Lemma shift_moved input w : forall m, moved input w m (shift input w m).
Proof.
  fix IH 1. intro m. destruct m as [id st en lit nm tg mk pv fm sv inp rs re ix pt par ch].
  assert (moved_parent input w par (match par with Some p => Some (shift input w p) | None => None end)) as P.
  { destruct par as [q|]; constructor. apply IH. }
  assert (Forall2 (moved input w) ch (map (shift input w) ch)) as C.
  { induction ch as [|c ch IHc]; cbn [map]; constructor; [apply IH | exact IHc]. }
  cbn [shift m_input].
  apply Moved with (d := if option_eqb pstr_eqb inp (Some input) then 0 else w); cbn [m_start m_end m_input m_parent m_children]; try reflexivity.
  - destruct (option_eqb pstr_eqb inp (Some input)) eqn:E.
    + left. split; [|reflexivity]. destruct inp as [t|]; [|discriminate]. cbn [option_eqb] in E. apply pstr_eqb_eq in E. congruence.
    + right. split; [|reflexivity]. intros ->. cbn [option_eqb] in E. rewrite pstr_eqb_refl in E. discriminate.
  - destruct (option_eqb pstr_eqb inp (Some input)); lia.
  - destruct (option_eqb pstr_eqb inp (Some input)); lia.
  - repeat split.
  - exact P.
  - exact C.
Qed.
Lemma slice_suffix (t : pstr) i : exists before, t = before ++ py_slice t (Some i) None.
Proof.
  unfold py_slice. cbv zeta. exists (firstn (Z.to_nat (py_clip (zlen t) i)) t).
  rewrite (firstn_all2 (skipn _ _)); [symmetry; apply firstn_skipn|]. rewrite skipn_length. unfold zlen. lia.
Qed.

Section Pieces.
  Variable input : pstr.
  Variable all : list cpart.
  Notation P := (piece input all).
  Definition suffix (t : pstr) : Prop := exists before, input = before ++ t.
  Definition fine (st : cstate) : Prop := suffix (cs_text st) /\ Forall P (cs_current st).

  Lemma next_groups_pieces breaker hidden visible : forall groups st st',
    (hidden = false -> forall i g x, dfind visible i = Some g -> In x g -> P x) -> fine st ->
    next_groups breaker hidden input visible groups st = Ok st' -> fine st'.
  Proof.
    induction groups as [|[i g] r IH]; intros st st' V F E; cbn [next_groups] in E; [injection E as <-; exact F|].
    pose proof (slice_suffix input) as S. destruct hidden.
    - refine (IH _ _ V _ E). split; [apply S | apply F].
    - destruct (breaker_allows _ _) as [b|e]; [|discriminate]. refine (IH _ _ V _ E). split; [apply S|]. cbn [cs_current].
      destruct b; [|apply F]. apply Forall_app. split; [apply F|]. apply Forall_forall. intros x Hx.
      destruct (dfind visible i) as [g'|] eqn:Eg; [|contradiction]. exact (V eq_refl i g' x Eg Hx).
  Qed.
  Definition agree (b b' : list mtch -> bool) : Prop := forall l, Forall P l -> b l = b' l.
  Lemma next_groups_agree b b' hidden visible : agree b b' -> forall groups st,
    (hidden = false -> forall i g x, dfind visible i = Some g -> In x g -> P x) -> fine st ->
    next_groups (Some b) hidden input visible groups st = next_groups (Some b') hidden input visible groups st.
  Proof.
    intro A. induction groups as [|[i g] r IH]; intros st V F; cbn [next_groups]; [reflexivity|].
    pose proof (slice_suffix input) as S. destruct hidden.
    - apply IH; [exact V|]. split; [apply S | apply F].
    - assert (Forall P (cs_current st ++ match dfind visible i with Some l => l | None => [] end)) as Q.
      { apply Forall_app. split; [apply F|]. apply Forall_forall. intros x Hx.
        destruct (dfind visible i) as [g'|] eqn:Eg; [|contradiction]. exact (V eq_refl i g' x Eg Hx). }
      unfold breaker_allows. destruct (existsb m_marker _); [reflexivity|]. rewrite (A _ Q).
      apply IH; [exact V|]. split; [apply S|]. cbn [cs_current]. destruct (negb _); [exact Q | apply F].
  Qed.
  Lemma part_visible first cp n text n' ms raws w : In cp all -> suffix text ->
    part_matches first cp n text = Ok (n', (ms, raws)) ->
    cp_hidden cp = false -> forall i g x, dfind (group_by_index (map (shift input w) ms)) i = Some g -> In x g -> P x.
  Proof.
    intros Hin [before S] E Hh i g x Eg Hx. apply part_matches_ok in E as (ms0 & raws0 & E & -> & _ & _).
    destruct (visible_In Eg Hx) as [Hm _]. apply in_map_iff in Hm as (m & <- & Hm). apply truncate_In in Hm.
    exists cp, n, before, text, n', ms0, raws0, m, w. repeat (split; [assumption|]). apply shift_moved.
  Qed.
  Lemma run_parts_pieces breaker : forall parts first st st' ok, incl parts all -> fine st ->
    run_parts breaker input first parts st = Ok (st', ok) -> fine st'.
  Proof.
    induction parts as [|cp r IH]; intros first st st' ok I F E; cbn [run_parts] in E; [injection E as <- _; exact F|].
    assert (incl r all) as I' by (intros x Hx; apply I; right; exact Hx).
    destruct (part_matches first cp (cs_next st) (cs_text st)) as [[n' [ms raws]]|e] eqn:Ep.
    - destruct (to_next_part _ _ _ _ _ _) as [st1|e] eqn:E1; [|discriminate]. refine (IH _ _ _ _ I' _ E).
      unfold to_next_part in E1. refine (next_groups_pieces _ _ E1); [|exact F].
      apply (part_visible (first := first) (n := cs_next st) (text := cs_text st) (n' := n') (raws := raws)); [apply I; left; reflexivity | apply F | exact Ep].
    - destruct e; try discriminate. injection E as <- _. destruct (cs_current st) eqn:Ec; [exact F|]. split; [apply F|]. cbn [cs_current]. apply F || (rewrite <- Ec; apply F).
  Qed.
  Lemma run_parts_agree b b' : agree b b' -> forall parts first st, incl parts all -> fine st ->
    run_parts (Some b) input first parts st = run_parts (Some b') input first parts st.
  Proof.
    intro A. induction parts as [|cp r IH]; intros first st I F; cbn [run_parts]; [reflexivity|].
    assert (incl r all) as I' by (intros x Hx; apply I; right; exact Hx).
    destruct (part_matches first cp (cs_next st) (cs_text st)) as [[n' [ms raws]]|e] eqn:Ep; [|reflexivity].
    pose proof (part_visible (first := first) (n := cs_next st) (text := cs_text st) (n' := n') (raws := raws) (ms := ms) (w := cs_offset st) (I cp (or_introl eq_refl)) (proj1 F) Ep) as V.
    unfold to_next_part. cbn [cs_offset].
    rewrite (next_groups_agree A (hidden := cp_hidden cp) _ (st := CState n' (cs_found st) (cs_text st) (cs_offset st) (cs_current st)) V F).
    destruct (next_groups (Some b') _ _ _ _ _) as [st1|e] eqn:E1; [|reflexivity].
    apply IH; [exact I'|]. refine (next_groups_pieces V _ E1). exact F.
  Qed.
  Lemma chain_loop_agree b b' p : agree b b' -> forall fuel n text offset acc, suffix text ->
    chain_loop fuel p (Some b) all input n text offset acc = chain_loop fuel p (Some b') all input n text offset acc.
  Proof.
    intro A. induction fuel as [|f IH]; intros n text offset acc S; cbn [chain_loop]; destruct (offset <? zlen input); try reflexivity.
    assert (fine (CState n false text offset [])) as F by (split; [exact S | constructor]).
    rewrite (run_parts_agree A (parts := all) true (incl_refl _) F).
    destruct (run_parts (Some b') _ _ _ _) as [[st ok]|e] eqn:E; [|reflexivity].
    pose proof (proj1 (run_parts_pieces (incl_refl _) F E)) as S'.
    destruct (negb (cs_found st)); [reflexivity|]. destruct (cs_current st) eqn:Ec; [apply IH, S'|]. destruct ok; [|apply IH, S'].
    destruct (build_chain_match _ _ _ _); [apply IH, S' | reflexivity].
  Qed.
  Lemma chain_loop_built breaker p : forall fuel n text offset acc n' ms, suffix text ->
    chain_loop fuel p breaker all input n text offset acc = Ok (n', ms) ->
    forall M, In M ms -> In M acc \/ exists id cur, Forall P cur /\ build_chain_match p id cur input = Ok M.
  Proof.
    induction fuel as [|f IH]; intros n text offset acc n' ms S E M HM; cbn [chain_loop] in E;
      destruct (offset <? zlen input); try discriminate; try (injection E as _ <-; left; exact HM).
    assert (fine (CState n false text offset [])) as F by (split; [exact S | constructor]).
    destruct (run_parts breaker _ _ _ _) as [[st ok]|e] eqn:Er; [|discriminate].
    destruct (run_parts_pieces (incl_refl _) F Er) as [S' C'].
    destruct (negb (cs_found st)); [injection E as _ <-; left; exact HM|].
    destruct (cs_current st) as [|x l] eqn:Ec; [exact (IH _ _ _ _ _ _ S' E M HM)|]. destruct ok; [|exact (IH _ _ _ _ _ _ S' E M HM)].
    destruct (build_chain_match p (cs_next st) (x :: l) input) as [M0|e] eqn:Eb; [|discriminate].
    destruct (IH _ _ _ _ _ _ S' E M HM) as [H|H]; [|right; exact H]. apply in_app_iff in H as [H|[<-|[]]]; [left; exact H|].
    right. exists (cs_next st), (x :: l). split; [exact C' | exact Eb].
  Qed.
End Pieces.

Lemma append_all_app : forall add cs cs', append_all cs add = Ok cs' -> cs' = cs ++ add.
Proof.
  induction add as [|c r IH]; intros cs cs' E; cbn [append_all] in E; [injection E as <-; rewrite app_nil_r; reflexivity|].
  unfold append_child in E. destruct (m_marker c); [discriminate|]. apply IH in E. subst. rewrite <- app_assoc. reflexivity.
Qed.
Lemma same_refl m : same_but_parent m m.
Proof. repeat split. Qed.
Definition looks_like (x c : mtch) : Prop := m_start c = m_start x /\ m_end c = m_end x /\ m_name c = m_name x.
Lemma meq_looks x c : meq x c = true -> looks_like x c.
Proof. intro E. apply meq_spec in E as (E1 & _ & E3 & _). injection E1 as E1 E2. repeat split; congruence. Qed.
Lemma chain_children_of main : forall cur cs cs', chain_children main cur cs = Ok cs' ->
  (forall c, In c cs -> In c cs')
  /\ (forall c, In c cs' -> In c cs \/ exists x y, In x cur /\ In y (x :: m_children x) /\ same_but_parent y c)
  /\ (forall x, In x cur -> (forall y, In y (m_children x) -> In y cs') /\ exists c, In c cs' /\ looks_like x c).
Proof.
  induction cur as [|m r IH]; intros cs cs' E; cbn [chain_children] in E.
  - injection E as <-. split; [auto|]. split; [auto|]. intros ? [].
  - destruct (append_all cs (m_children m)) as [cs1|e] eqn:Ea; [|discriminate]. apply append_all_app in Ea. subst cs1.
    destruct (mem meq m (cs ++ m_children m)) eqn:Em.
    + destruct (IH _ _ E) as (I1 & I2 & I3). split; [intros c Hc; apply I1, in_or_app; auto|]. split.
      * intros c Hc. destruct (I2 c Hc) as [H|(x & y & Hx & Hy & S)].
        -- apply in_app_iff in H as [H|H]; [left; exact H|]. right. exists m, c. split; [left; reflexivity|]. split; [right; exact H | apply same_refl].
        -- right. exists x, y. split; [right; exact Hx | auto].
      * intros x [<-|Hx]; [|apply I3, Hx]. split; [intros y Hy; apply I1, in_or_app; auto|].
        unfold mem in Em. apply existsb_exists in Em as (c & Hc & Em). exists c. split; [apply I1, Hc | apply meq_looks, Em].
    + unfold append_child in E. destruct (m_marker _); [discriminate|]. destruct (IH _ _ E) as (I1 & I2 & I3). 
      split; [intros c Hc; apply I1, in_or_app; left; apply in_or_app; auto|]. split.
      * intros c Hc. destruct (I2 c Hc) as [H|(x & y & Hx & Hy & S)].
        -- apply in_app_iff in H as [H|[H|[]]].
           ++ apply in_app_iff in H as [H|H]; [left; exact H|]. right. exists m, c. split; [left; reflexivity|]. split; [right; exact H | apply same_refl].
           ++ right. exists m, m. split; [left; reflexivity|]. split; [left; reflexivity|]. subst c. repeat split.
        -- right. exists x, y. split; [right; exact Hx | auto].
      * intros x [<-|Hx]; [|apply I3, Hx]. split; [intros y Hy; apply I1, in_or_app; left; apply in_or_app; auto|].
        eexists. split; [apply I1, in_or_app; right; left; reflexivity | repeat split].
Qed.

Lemma fold_min (g : mtch -> Z) : forall l a, let v := fold_left (fun a x => Z.min a (g x)) l a in
  (v = a \/ exists x, In x l /\ v = g x) /\ v <= a /\ forall x, In x l -> v <= g x.
Proof.
  induction l as [|x l IH]; intros a v; subst v; cbn [fold_left]; [split; [auto | split; [lia | intros ? []]]|].
  destruct (IH (Z.min a (g x))) as (H1 & H2 & H3). cbv zeta in *. split; [|split; [lia|]].
  - destruct H1 as [H1|(y & Hy & H1)]; [|right; exists y; split; [right; exact Hy | exact H1]].
    destruct (Z.min_spec a (g x)) as [[_ E]|[_ E]]; [left; congruence | right; exists x; split; [left; reflexivity | congruence]].
  - intros y [<-|Hy]; [lia | apply H3, Hy].
Qed.
Lemma fold_max (g : mtch -> Z) : forall l a, let v := fold_left (fun a x => Z.max a (g x)) l a in
  (v = a \/ exists x, In x l /\ v = g x) /\ a <= v /\ forall x, In x l -> g x <= v.
Proof.
  induction l as [|x l IH]; intros a v; subst v; cbn [fold_left]; [split; [auto | split; [lia | intros ? []]]|].
  destruct (IH (Z.max a (g x))) as (H1 & H2 & H3). cbv zeta in *. split; [|split; [lia|]].
  - destruct H1 as [H1|(y & Hy & H1)]; [|right; exists y; split; [right; exact Hy | exact H1]].
    destruct (Z.max_spec a (g x)) as [[_ E]|[_ E]]; [right; exists x; split; [left; reflexivity | congruence] | left; congruence].
  - intros y [<-|Hy]; [lia | apply H3, Hy].
Qed.

(** ** C129 *)
(** The chain breaker is only asked about lists of pieces: two breakers that agree on these give the same matches. *)
Theorem C129_breaker_sees_pieces : forall fuel p b b' parts n input,
  (forall l, Forall (piece input parts) l -> b l = b' l) ->
  chain_match fuel p (Some b) parts n input = chain_match fuel p (Some b') parts n input.
Proof. intros. apply chain_loop_agree; [assumption | exists []; reflexivity]. Qed.

(** Every match of a chain is made of pieces: it goes from the first start to the last end, and its children are the pieces
    (one of several that look alike) and the children of the pieces, as they are but for the parent. *)
Theorem C129_made_of_pieces : forall fuel p breaker parts n input n' ms M,
  chain_match fuel p breaker parts n input = Ok (n', ms) -> In M ms ->
  exists pieces, Forall (piece input parts) pieces
    /\ (exists x, In x pieces /\ m_start M = m_start x) /\ (exists x, In x pieces /\ m_end M = m_end x)
    /\ (forall x, In x pieces -> m_start M <= m_start x /\ m_end x <= m_end M)
    /\ (forall c, In c (m_children M) -> exists x y, In x pieces /\ In y (x :: m_children x) /\ same_but_parent y c)
    /\ (forall x, In x pieces ->
          (exists c, In c (m_children M) /\ looks_like x c)
          /\ forall y, In y (m_children x) -> exists c, In c (m_children M) /\ same_but_parent y c).
Proof.
  intros fuel p breaker parts n input n' ms M E HM.
  assert (suffix input input) as S by (exists []; reflexivity).
  destruct (chain_loop_built S E HM) as [[]|(id & cur & F & B)]. exists cur. split; [exact F|].
  destruct cur as [|m r]; [discriminate|]. cbn [build_chain_match] in B.
  destruct (chain_children _ (m :: r) []) as [cs|e] eqn:Ec; [|discriminate]. injection B as <-.
  destruct (chain_children_of Ec) as (_ & C2 & C3).
  set (st := fold_left _ r (m_start m)) in *. set (en := fold_left _ r (m_end m)) in *.
  destruct (fold_min m_start r (m_start m)) as (L1 & L2 & L3). destruct (fold_max m_end r (m_end m)) as (G1 & G2 & G3).
  cbv zeta in *. fold st in L1, L2, L3. fold en in G1, G2, G3.
  set (main := new_match _ _ _ _ _ _) in *.
  assert (m_start (relink_children (set_children main cs)) = st) as -> by reflexivity.
  assert (m_end (relink_children (set_children main cs)) = en) as -> by reflexivity.
  assert (m_children (relink_children (set_children main cs)) = map (relink (set_children main cs :: cs)) cs) as -> by reflexivity.
  split; [|split; [|split; [|split]]].
  - destruct L1 as [L1|(x & Hx & L1)]; [exists m; split; [left; reflexivity | exact L1] | exists x; split; [right; exact Hx | exact L1]].
  - destruct G1 as [G1|(x & Hx & G1)]; [exists m; split; [left; reflexivity | exact G1] | exists x; split; [right; exact Hx | exact G1]].
  - intros x [<-|Hx]; [lia|]. specialize (L3 x Hx). specialize (G3 x Hx). lia.
  - intros c Hc. apply in_map_iff in Hc as (c0 & <- & Hc). destruct (C2 c0 Hc) as [[]|(x & y & Hx & Hy & S0)].
    exists x, y. split; [exact Hx|]. split; [exact Hy|]. exact S0.
  - intros x Hx. destruct (C3 x Hx) as [K1 (c & Hc & K2)]. split.
    + exists (relink (set_children main cs :: cs) c). split; [apply in_map, Hc | exact K2].
    + intros y Hy. exists (relink (set_children main cs :: cs) y). split; [apply in_map, K1, Hy | repeat split].
Qed.
Print Assumptions C129_breaker_sees_pieces.
Print Assumptions C129_made_of_pieces.

(** a part with named groups, its children only: the groups and their (hidden) parent are moved by one *)
Definition ab129 : cpart :=
  CPart (pattern_matches (new_pattern 7 no_opts DNone DNone DNone true false false false [] [] false false None None None)
           (SRegex false [Regex [Some (s "a"); Some (s "b")]
                            (fun t => match t with _ :: _ :: _ => [Occurrence (0, 2) [[(0, 1)]; [(1, 2)]]] | _ => [] end)])) 1 (Some 1) false.
Definition z129 : list cpart := [char_part 1 "z" (1, Some 1) false; ab129].
Example C129_example :
  (match run_parts None (s "zxy") true z129 (CState 0 false (s "zxy") 0 []) with
   | Ok (st, ok) => ok = true /\ map (fun m => (m_name m, m_span m, option_map m_span (m_parent m))) (cs_current st)
                      = [(None, (0, 1), None); (Some (s "a"), (1, 2), Some (1, 3)); (Some (s "b"), (2, 3), Some (1, 3))]
   | Err _ => False
   end)
  /\ spans_of (chain_match 9 chain_opts None z129 0%nat (s "zxy")) = [((0, 3), [(0, 1); (1, 2); (2, 3)])]
  /\ (let b (l : list mtch) := existsb (fun m => match m_parent m with Some q => m_start q =? 1 | None => false end) l in
      spans_of (chain_match 9 chain_opts (Some b) z129 0%nat (s "zxy")) = [((0, 1), [(0, 1)])]).
Proof. split; [vm_compute; split; reflexivity|]. split; vm_compute; reflexivity. Qed.
