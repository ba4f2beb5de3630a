(** * Proofs about the topological sort *)
From Verif Require Import Base BaseFacts Topo.
From Coq Require Import Relation_Operators Operators_Properties.
Set Implicit Arguments.
Unset Strict Implicit.

Section Facts.
  Context {K : Type} `{EK : Eqb K}.
  Lemma inb_In (x : K) l : inb x l = true <-> In x l.
  Proof.
    unfold inb. rewrite existsb_exists. split; [intros (y & Hy & E); apply eqb_eq in E; congruence |].
    intro H; exists x; split; [exact H | apply eqb_refl].
  Qed.
  Lemma inb_false (x : K) l : inb x l = false <-> ~ In x l.
  Proof. rewrite <- inb_In. destruct (inb x l); split; congruence. Qed.
  Lemma set_add_In (x y : K) l : In x (set_add l y) <-> In x l \/ x = y.
  Proof.
    unfold set_add. destruct (inb y l) eqn:E; [apply inb_In in E; split; [tauto | intros [| ->]; auto]|].
    rewrite in_app_iff. simpl. intuition congruence.
  Qed.
  Lemma set_add_NoDup (y : K) l : NoDup l -> NoDup (set_add l y).
  Proof.
    intro H. unfold set_add. destruct (inb y l) eqn:E; [exact H|].
    eapply Permutation_NoDup; [apply Permutation_cons_append|]. constructor; [|exact H]. apply inb_false. exact E.
  Qed.
  Lemma set_union_In (x : K) r : forall l, In x (set_union l r) <-> In x l \/ In x r.
  Proof.
    unfold set_union. induction r as [|y r IH]; intro l; simpl; [tauto|]. rewrite IH, set_add_In. intuition congruence.
  Qed.
  Lemma set_union_NoDup (r : list K) : forall l, NoDup l -> NoDup (set_union l r).
  Proof. unfold set_union. induction r as [|y r IH]; intros l H; simpl; [exact H|]. apply IH, set_add_NoDup, H. Qed.
  Lemma unions_In (x : K) ls : forall l, In x (fold_left set_union ls l) <-> In x l \/ exists r, In r ls /\ In x r.
  Proof.
    induction ls as [|r ls IH]; intro l; simpl; [split; [tauto | intros [|(r & [] & _)]; assumption]|].
    rewrite IH, set_union_In. split.
    - intros [[|]|(r' & H1 & H2)]; [tauto | right; exists r; auto | right; exists r'; auto].
    - intros [|(r' & [->|H1] & H2)]; [tauto | tauto | right; exists r'; auto].
  Qed.
  Lemma unions_NoDup ls : forall l : list K, NoDup l -> NoDup (fold_left set_union ls l).
  Proof. induction ls as [|r ls IH]; intros l H; simpl; [exact H|]. apply IH, set_union_NoDup, H. Qed.

  Variable perm : list K -> list K.
  Hypothesis Hperm : forall l, Permutation l (perm l).
  Lemma perm_In x l : In x (perm l) <-> In x l.
  Proof. split; apply Permutation_in; [symmetry|]; apply Hperm. Qed.

  (** keys are distinct, dependencies are keys *)
  Definition wf (data : graph K) : Prop :=
    NoDup (map fst data) /\ forall x ds y, In (x, ds) data -> In y ds -> In y (map fst data).

  Lemma wf_unique (data : graph K) x ds ds' : wf data -> In (x, ds) data -> In (x, ds') data -> ds = ds'.
  Proof.
    intros [Hn _]. revert Hn. induction data as [|[k v] data IH]; intros Hn H1 H2; [contradiction|].
    inversion Hn; subst. destruct H1 as [E1|H1]; destruct H2 as [E2|H2].
    - congruence.
    - injection E1 as -> ->. exfalso. apply H3. apply in_map_iff. exists (x, ds'). auto.
    - injection E2 as -> ->. exfalso. apply H3. apply in_map_iff. exists (x, ds). auto.
    - apply IH; assumption.
  Qed.
  Lemma ready_In (data : graph K) x : In x (ready data) <-> In (x, []) data.
  Proof.
    unfold ready. rewrite in_map_iff. split.
    - intros ([k [|v vs]] & <- & Hx); apply filter_In in Hx as [Hx E]; [exact Hx | discriminate].
    - intro Hx. exists (x, []). split; [reflexivity|]. apply filter_In. auto.
  Qed.
  Lemma strip_In ordered (data : graph K) x ds : In (x, ds) (strip ordered data) <->
    exists ds0, In (x, ds0) data /\ ~ In x ordered /\ ds = filter (fun y => negb (inb y ordered)) ds0.
  Proof.
    unfold strip. rewrite in_map_iff. split.
    - intros ([k v] & E & Hx). injection E as -> <-. apply filter_In in Hx as [Hx Hb]. exists v. split; [exact Hx|].
      split; [|reflexivity]. simpl in Hb. apply negb_true_iff, inb_false in Hb. exact Hb.
    - intros (ds0 & H1 & H2 & ->). exists (x, ds0). split; [reflexivity|]. apply filter_In. split; [exact H1|].
      simpl. apply negb_true_iff, inb_false. exact H2.
  Qed.
  Lemma strip_keys ordered (data : graph K) : map fst (strip ordered data) = filter (fun x => negb (inb x ordered)) (map fst data).
  Proof.
    unfold strip. rewrite map_map. simpl. induction data as [|[k v] data IH]; simpl; [reflexivity|].
    destruct (inb k ordered); simpl; rewrite IH; reflexivity.
  Qed.
  Lemma strip_wf ordered (data : graph K) : wf data -> wf (strip ordered data).
  Proof.
    intros [H1 H2]. split; [rewrite strip_keys; apply NoDup_filter, H1|].
    intros x ds y Hx Hy. apply strip_In in Hx as (ds0 & Hx & Hn & ->). apply filter_In in Hy as [Hy Hb].
    rewrite strip_keys. apply filter_In. split; [eapply H2; eauto | exact Hb].
  Qed.
  Lemma strip_length ordered (data : graph K) : ordered <> [] -> incl ordered (map fst data) -> (length (strip ordered data) < length data)%nat.
  Proof.
    intros Hne Hi. unfold strip. rewrite map_length. destruct ordered as [|x o]; [congruence|].
    assert (In x (map fst data)) as Hx by (apply Hi; left; reflexivity). apply in_map_iff in Hx as ([k v] & E & Hx). simpl in E. subst k.
    clear Hi Hne. apply in_split in Hx as (a & b & ->). rewrite filter_app, !app_length. cbn [filter].
    assert (inb (fst (x, v)) (x :: o) = true) as -> by (apply inb_In; left; reflexivity). cbn [negb length].
    assert (forall (f : K * list K -> bool) l, (length (filter f l) <= length l)%nat) as L.
    { intros f l. induction l as [|z l IH]; simpl; [lia|]. destruct (f z); simpl; lia. }
    pose proof (L (fun kv => negb (inb (fst kv) (x :: o))) a). pose proof (L (fun kv => negb (inb (fst kv) (x :: o))) b). lia.
  Qed.

  Lemma topo_loop_spec : forall fuel data gs rest,
    wf data -> (length data <= fuel)%nat -> topo_loop perm fuel data = (gs, rest) ->
    Permutation (concat gs ++ map fst rest) (map fst data)
    /\ Forall (fun g => g <> []) gs
    /\ (forall x ds, In (x, ds) rest -> ds <> []
          /\ exists ds0, In (x, ds0) data /\ forall y, In y ds <-> In y ds0 /\ In y (map fst rest))
    /\ (forall n x ds y, in_group gs n x -> In (x, ds) data -> In y ds -> exists m, (m < n)%nat /\ in_group gs m y)
    /\ (forall n x ds, in_group gs (S n) x -> In (x, ds) data -> exists y, In y ds /\ in_group gs n y)
    /\ (forall x, in_group gs 0 x -> In (x, []) data).
  Proof.
    induction fuel as [|f IH]; intros data gs rest Hwf Hlen E.
    - destruct data; [|simpl in Hlen; lia]. simpl in E. injection E as <- <-. simpl.
      split; [constructor|]. split; [constructor|]. split; [intros x ds []|]. split; [|split].
      + intros n x ds y (g & Hg & _). destruct n; discriminate.
      + intros n x ds (g & Hg & _). discriminate.
      + intros x (g & Hg & _). discriminate.
    - simpl in E. destruct (ready data) as [|o os] eqn:Er.
      + injection E as <- <-. simpl.
        split; [apply Permutation_refl|]. split; [constructor|]. split; [intros x ds Hx; split|split; [|split]].
        * intros ->. assert (In x (ready data)) as Hr by (apply ready_In; assumption). rewrite Er in Hr. contradiction.
        * exists ds. split; [assumption|]. intro y. split; [intro Hy; split; [exact Hy | eapply Hwf; eauto] | tauto].
        * intros n x ds y (g & Hg & _). destruct n; discriminate.
        * intros n x ds (g & Hg & _). discriminate.
        * intros x (g & Hg & _). discriminate.
      + rewrite <- Er in E.
        destruct (topo_loop perm f (strip (ready data) data)) as [gs' rest'] eqn:E'. injection E as <- <-.
        assert (ready data <> []) as Hne by (rewrite Er; discriminate).
        assert (incl (ready data) (map fst data)) as Hincl.
        { intros x Hx. apply ready_In in Hx. apply in_map_iff. exists (x, []). auto. }
        assert (length (strip (ready data) data) <= f)%nat as Hl by (pose proof (strip_length Hne Hincl); lia).
        destruct (IH _ _ _ (strip_wf (ready data) Hwf) Hl E') as (P1 & P2 & P3 & P4 & P5 & P6).
        assert (forall x, in_group (perm (ready data) :: gs') 0 x <-> In x (ready data)) as G0.
        { intro x. unfold in_group. simpl. split; [intros (g & Eg & Hx); injection Eg as <-; apply perm_In; exact Hx |
            intro Hx; eexists; split; [reflexivity | apply perm_In; exact Hx]]. }
        assert (forall n x, in_group gs' n x -> In x (map fst (strip (ready data) data))) as Gk.
        { intros n x (g & Hg & Hx). eapply Permutation_in; [exact P1|]. apply in_app_iff. left. apply in_concat. exists g.
          split; [eapply nth_error_In; exact Hg | exact Hx]. }
        split; [|split; [|split; [|split; [|split]]]].
        * simpl. rewrite <- app_assoc. etransitivity; [apply Permutation_app_head; exact P1|]. rewrite strip_keys.
          etransitivity; [apply Permutation_app_tail; symmetry; apply Hperm|].
          apply NoDup_Permutation.
          -- assert (NoDup (ready data)) as Hnr.
             { unfold ready. destruct Hwf as [Hn _]. clear -Hn. induction data as [|[k v] data IHd]; simpl; [constructor|].
               inversion Hn; subst. destruct v; simpl; auto. constructor; [|apply IHd; assumption].
               intro Hk. apply in_map_iff in Hk as (kv & Ek & Hk). apply filter_In in Hk as [Hk _]. apply H1. apply in_map_iff. eauto. }
             assert (NoDup (filter (fun x => negb (inb x (ready data))) (map fst data))) as Hnf by (apply NoDup_filter, Hwf).
             clear -Hnr Hnf. assert (forall x, In x (filter (fun x => negb (inb x (ready data))) (map fst data)) -> ~ In x (ready data)) as Hd.
             { intros x Hx. apply filter_In in Hx as [_ Hx]. apply negb_true_iff, inb_false in Hx. exact Hx. }
             revert Hnr Hnf Hd. generalize (filter (fun x => negb (inb x (ready data))) (map fst data)) as r. generalize (ready data) as q.
             induction q as [|x q IHq]; intros r Hq Hr Hd; simpl; [exact Hr|]. inversion Hq; subst. constructor.
             ++ rewrite in_app_iff. intros [Hx|Hx]; [contradiction|]. apply (Hd x Hx). left. reflexivity.
             ++ apply IHq; auto. intros y Hy Hq'. apply (Hd y Hy). right. exact Hq'.
          -- apply Hwf.
          -- intro x. rewrite in_app_iff, filter_In, negb_true_iff, inb_false. split.
             ++ intros [Hx|[Hx _]]; [apply Hincl, Hx | exact Hx].
             ++ intro Hx. destruct (inb x (ready data)) eqn:Eb; [left; apply inb_In, Eb | right; split; [exact Hx | apply inb_false, Eb]].
        * constructor; [|exact P2]. intro Ez. apply Hne. destruct (ready data); [reflexivity|]. exfalso.
          pose proof (Hperm (k :: l)) as Hp. rewrite Ez in Hp. apply Permutation_sym, Permutation_nil in Hp. discriminate.
        * intros x ds Hx. destruct (P3 x ds Hx) as (Q1 & ds1 & Q2 & Q3). split; [exact Q1|].
          apply strip_In in Q2 as (ds0 & Q4 & Q5 & ->). exists ds0. split; [exact Q4|]. intro y. rewrite Q3, filter_In, negb_true_iff, inb_false.
          split; [tauto|]. intros [Hy1 Hy2]. split; [split; [exact Hy1|]|exact Hy2].
          assert (In y (map fst (strip (ready data) data))) as Hk.
          { eapply Permutation_in; [exact P1|]. apply in_app_iff. right. exact Hy2. }
          rewrite strip_keys in Hk. apply filter_In in Hk as [_ Hk]. apply negb_true_iff, inb_false in Hk. exact Hk.
        * intros [|n] x ds y Hg Hx Hy.
          -- apply G0, ready_In in Hg. rewrite (wf_unique Hwf Hx Hg) in Hy. contradiction.
          -- destruct (inb y (ready data)) eqn:Ey.
             ++ exists 0%nat. split; [lia|]. apply G0, inb_In, Ey.
             ++ assert (In (x, filter (fun y => negb (inb y (ready data))) ds) (strip (ready data) data)) as Hs.
                { apply strip_In. exists ds. split; [exact Hx|]. split; [|reflexivity]. apply Gk in Hg. rewrite strip_keys in Hg.
                  apply filter_In in Hg as [_ Hg]. apply negb_true_iff, inb_false in Hg. exact Hg. }
                destruct (P4 n x _ y Hg Hs) as (m & Hm & Gm); [apply filter_In; rewrite Ey; auto|].
                exists (S m). split; [lia | exact Gm].
        * intros n x ds Hg Hx.
          assert (In (x, filter (fun y => negb (inb y (ready data))) ds) (strip (ready data) data)) as Hs.
          { apply strip_In. exists ds. split; [exact Hx|]. split; [|reflexivity]. change (in_group gs' n x) in Hg. apply Gk in Hg. rewrite strip_keys in Hg.
            apply filter_In in Hg as [_ Hg]. apply negb_true_iff, inb_false in Hg. exact Hg. }
          destruct n as [|n].
          -- change (in_group gs' 0 x) in Hg. pose proof (P6 x Hg) as Hz. pose proof (wf_unique (strip_wf (ready data) Hwf) Hs Hz) as Ef.
             destruct ds as [|y ds].
             ++ exfalso. apply Gk in Hg. rewrite strip_keys in Hg. apply filter_In in Hg as [_ Hg]. apply negb_true_iff, inb_false in Hg.
                apply Hg, ready_In. exact Hx.
             ++ exists y. split; [left; reflexivity|]. apply G0. destruct (inb y (ready data)) eqn:Ey; [apply inb_In, Ey|].
                simpl in Ef. rewrite Ey in Ef. discriminate.
          -- destruct (P5 n x _ Hg Hs) as (y & Hy & Gy). apply filter_In in Hy as [Hy _]. exists y. split; [exact Hy | exact Gy].
        * intros x Hg. apply G0, ready_In in Hg. exact Hg.
  Qed.

  (** *** The completed graph *)
  Lemma no_self_keys (data : graph K) : map fst (no_self data) = map fst data.
  Proof. unfold no_self. rewrite map_map. reflexivity. Qed.
  Lemma no_self_In (data : graph K) x ds : In (x, ds) (no_self data) <->
    exists ds0, In (x, ds0) data /\ ds = filter (fun y => negb (eqb x y)) ds0.
  Proof.
    unfold no_self. rewrite in_map_iff. split.
    - intros ([k v] & E & Hx). injection E as -> <-. eauto.
    - intros (ds0 & Hx & ->). exists (x, ds0). auto.
  Qed.
  Lemma extra_In (data : graph K) x : In x (extra_items data) <-> (exists k ds, In (k, ds) data /\ In x ds) /\ ~ In x (map fst data).
  Proof.
    unfold extra_items. rewrite filter_In, negb_true_iff, inb_false, unions_In. split.
    - intros [[[]|(r & Hr & Hx)] Hn]. split; [|exact Hn]. apply in_map_iff in Hr as ([k v] & <- & Hr). exists k, v. auto.
    - intros [(k & ds & Hk & Hx) Hn]. split; [|exact Hn]. right. exists ds. split; [|exact Hx]. apply in_map_iff. exists (k, ds). auto.
  Qed.
  Lemma complete_In (data : graph K) x ds : In (x, ds) (complete perm data) <-> In (x, ds) data \/ (ds = [] /\ In x (extra_items data)).
  Proof.
    unfold complete. rewrite in_app_iff, in_map_iff. split.
    - intros [Hx|(y & E & Hy)]; [auto|]. injection E as -> <-. right. split; [reflexivity|]. apply perm_In. exact Hy.
    - intros [Hx|[-> Hx]]; [auto|]. right. exists x. split; [reflexivity | apply perm_In; exact Hx].
  Qed.
  Lemma complete_keys (data : graph K) x : In x (map fst (complete perm data)) <-> In x (map fst data) \/ In x (extra_items data).
  Proof.
    unfold complete. rewrite map_app, in_app_iff, map_map. simpl. rewrite map_id, perm_In. reflexivity.
  Qed.
  Lemma complete_wf (data : graph K) : NoDup (map fst data) -> wf (complete perm (no_self data)).
  Proof.
    intro Hn. split.
    - unfold complete. rewrite map_app, map_map. simpl. rewrite map_id, no_self_keys.
      eapply Permutation_NoDup; [apply Permutation_app_head, Hperm|].
      assert (NoDup (extra_items (no_self data))) as He by (apply NoDup_filter, unions_NoDup; constructor).
      assert (forall x, In x (extra_items (no_self data)) -> ~ In x (map fst data)) as Hd.
      { intros x Hx. apply extra_In in Hx as [_ Hx]. rewrite no_self_keys in Hx. exact Hx. }
      revert Hn Hd. generalize (map fst data). induction l as [|x l IH]; intros Hl Hd; simpl; [exact He|].
      inversion Hl; subst. constructor.
      + rewrite in_app_iff. intros [Hx|Hx]; [contradiction|]. apply (Hd x Hx). left. reflexivity.
      + apply IH; [assumption|]. intros y Hy Hy'. apply (Hd y Hy). right. exact Hy'.
    - intros x ds y Hx Hy. apply complete_In in Hx as [Hx|[-> _]]; [|contradiction]. apply complete_keys.
      destruct (inb y (map fst (no_self data))) eqn:E; [left; apply inb_In, E|]. right. apply extra_In. split; [eauto | apply inb_false, E].
  Qed.
  Lemma complete_item (data : graph K) x : In x (map fst (complete perm (no_self data))) <-> item data x.
  Proof.
    rewrite complete_keys, extra_In, no_self_keys. unfold item. split.
    - intros [Hx|[(k & ds & Hk & Hx) _]]; [auto|]. apply no_self_In in Hk as (ds0 & Hk & ->). apply filter_In in Hx as [Hx Hb].
      right. exists k, ds0. split; [exact Hk|]. split; [exact Hx|]. intros ->. rewrite eqb_refl in Hb. discriminate.
    - intros [Hx|(k & ds & Hk & Hx & Hne)]; [auto|]. destruct (inb x (map fst data)) eqn:E; [left; apply inb_In, E|].
      right. split; [|apply inb_false, E]. exists k, (filter (fun y => negb (eqb k y)) ds). split; [apply no_self_In; eauto|].
      apply filter_In. split; [exact Hx|]. apply negb_true_iff, eqb_neq. congruence.
  Qed.
  Lemma complete_depends (data : graph K) x y : NoDup (map fst data) ->
    (depends data x y <-> exists ds, In (x, ds) (complete perm (no_self data)) /\ In y ds).
  Proof.
    intro Hn. unfold depends. split.
    - intros (ds & Hx & Hy & Hne). exists (filter (fun y => negb (eqb x y)) ds). split; [apply complete_In; left; apply no_self_In; eauto|].
      apply filter_In. split; [exact Hy | apply negb_true_iff, eqb_neq; exact Hne].
    - intros (ds & Hx & Hy). apply complete_In in Hx as [Hx|[-> _]]; [|contradiction]. apply no_self_In in Hx as (ds0 & Hx & ->).
      apply filter_In in Hy as [Hy Hb]. exists ds0. split; [exact Hx|]. split; [exact Hy|]. intros ->. rewrite eqb_refl in Hb. discriminate.
  Qed.

  (** *** Every walk inside a finite set meets a cycle *)
  Lemma walk_cycle (R : K -> K -> Prop) (keys : list K) :
    (forall x, In x keys -> exists y, In y keys /\ R x y) ->
    forall n visited x, NoDup visited -> incl visited keys -> In x keys ->
      (length keys - length visited <= n)%nat -> (forall v, In v visited -> clos_trans K R v x) ->
      exists y, clos_refl_trans K R x y /\ clos_trans K R y y.
  Proof.
    intro Hstep. induction n as [|n IH]; intros visited x Hnd Hincl Hx Hlen Hv.
    - assert (In x visited) as Hin.
      { refine (@NoDup_length_incl K visited keys Hnd _ Hincl x Hx). lia. }
      exists x. split; [apply rt_refl | apply Hv, Hin].
    - destruct (inb x visited) eqn:E; [apply inb_In in E; exists x; split; [apply rt_refl | apply Hv, E]|].
      apply inb_false in E. destruct (Hstep x Hx) as (y & Hy & Hr).
      destruct (IH (x :: visited) y) as (z & Z1 & Z2); auto.
      + constructor; assumption.
      + intros v [->|Hv']; [exact Hx | apply Hincl, Hv'].
      + simpl. assert (length (x :: visited) <= length keys)%nat by (apply NoDup_incl_length; [constructor; assumption | intros v [->|Hv']; [exact Hx | apply Hincl, Hv']]).
        simpl in *. lia.
      + intros v [->|Hv']; [apply t_step, Hr | eapply t_trans; [apply Hv, Hv' | apply t_step, Hr]].
      + exists z. split; [eapply rt_trans; [apply rt_step, Hr | exact Z1] | exact Z2].
  Qed.

  Lemma toposort_spec (data : graph K) gs rest : NoDup (map fst data) -> toposort perm data = (gs, rest) ->
    Permutation (concat gs ++ map fst rest) (map fst (complete perm (no_self data)))
    /\ Forall (fun g => g <> []) gs
    /\ (forall x ds, In (x, ds) rest -> ds <> [] /\ forall y, In y ds <-> depends data x y /\ In y (map fst rest))
    /\ (forall n x y, in_group gs n x -> depends data x y -> exists m, (m < n)%nat /\ in_group gs m y)
    /\ (forall n x, in_group gs (S n) x -> exists y, depends data x y /\ in_group gs n y)
    /\ (forall x y, in_group gs 0 x -> ~ depends data x y).
  Proof.
    intros Hn E. set (D := complete perm (no_self data)) in *.
    assert (topo_loop perm (length D) D = (gs, rest)) as E'.
    { unfold toposort in E. destruct data as [|kv data]; [|exact E]. injection E as <- <-. unfold D, complete. change (extra_items (no_self [])) with (@nil K).
      pose proof (Hperm []) as Hp. apply Permutation_nil in Hp. rewrite Hp. reflexivity. }
    pose proof (complete_wf Hn) as Hwf. fold D in Hwf.
    destruct (topo_loop_spec Hwf (le_n _) E') as (P1 & P2 & P3 & P4 & P5 & P6).
    assert (forall n x, in_group gs n x -> exists ds, In (x, ds) D) as Gk.
    { intros n x (g & Hg & Hx). assert (In x (map fst D)) as Hk.
      { eapply Permutation_in; [exact P1|]. apply in_app_iff. left. apply in_concat. exists g. split; [eapply nth_error_In; exact Hg | exact Hx]. }
      apply in_map_iff in Hk as ([k v] & Ek & Hk). simpl in Ek. subst. eauto. }
    split; [exact P1|]. split; [exact P2|]. split; [|split; [|split]].
    - intros x ds Hx. destruct (P3 x ds Hx) as (Q1 & ds0 & Q2 & Q3). split; [exact Q1|]. intro y. rewrite Q3, (complete_depends x y Hn). fold D.
      split; intros [Hy1 Hy2]; (split; [|exact Hy2]); [eauto|]. destruct Hy1 as (ds1 & Hy1 & Hy3). rewrite (wf_unique Hwf Q2 Hy1). exact Hy3.
    - intros n x y Hg Hd. apply (complete_depends x y Hn) in Hd as (ds & Hx & Hy). eapply P4; eauto.
    - intros n x Hg. destruct (Gk _ _ Hg) as (ds & Hx). destruct (P5 n x ds Hg Hx) as (y & Hy & Gy). exists y.
      split; [apply (complete_depends x y Hn); eauto | exact Gy].
    - intros x y Hg Hd. apply (complete_depends x y Hn) in Hd as (ds & Hx & Hy). rewrite (wf_unique Hwf Hx (P6 x Hg)) in Hy. contradiction.
  Qed.

  Lemma rt_cases (R : K -> K -> Prop) x y : clos_refl_trans K R x y -> x = y \/ clos_trans K R x y.
  Proof.
    induction 1 as [x y Hr|x|x y z H1 IH1 H2 IH2]; [right; apply t_step, Hr | left; reflexivity |].
    destruct IH1 as [->|IH1]; [exact IH2|]. destruct IH2 as [<-|IH2]; [right; exact IH1|]. right. eapply t_trans; eauto.
  Qed.
  Lemma emitted_no_cycle (data : graph K) gs rest : NoDup (map fst data) -> toposort perm data = (gs, rest) ->
    forall n x, in_group gs n x -> ~ reaches_cycle data x.
  Proof.
    intros Hn E. destruct (toposort_spec Hn E) as (_ & _ & _ & P4 & _).
    assert (forall n x y, in_group gs n x -> clos_trans K (depends data) x y -> exists m, (m < n)%nat /\ in_group gs m y) as T.
    { intros n x y Hg Ht. apply clos_trans_tn1 in Ht. induction Ht as [y Hd|y z Hd Ht IH]; [eapply P4; eauto|].
      destruct IH as (m & Hm & Gm). destruct (P4 m y z Gm Hd) as (m' & Hm' & Gm'). exists m'. split; [lia | exact Gm']. }
    assert (forall n y, in_group gs n y -> ~ on_cycle data y) as C.
    { intro n. induction n as [n IH] using lt_wf_ind. intros y Hg Hc. destruct (T n y y Hg Hc) as (m & Hm & Gm). exact (IH m Hm y Gm Hc). }
    intros n x Hg (y & Hr & Hc). apply rt_cases in Hr as [<-|Ht]; [eapply C; eauto|].
    destruct (T n x y Hg Ht) as (m & _ & Gm). eapply C; eauto.
  Qed.

  Lemma rest_reaches_cycle (data : graph K) gs rest : NoDup (map fst data) -> toposort perm data = (gs, rest) ->
    forall x, In x (map fst rest) -> reaches_cycle data x.
  Proof.
    intros Hn E x Hx. destruct (toposort_spec Hn E) as (_ & _ & P3 & _).
    destruct (@walk_cycle (depends data) (map fst rest)) with (n := length (map fst rest)) (visited := @nil K) (x := x) as (y & Y1 & Y2); auto.
    - intros z Hz. apply in_map_iff in Hz as ([k ds] & Ek & Hz). simpl in Ek. subst. destruct (P3 z ds Hz) as [Hne Hds].
      destruct ds as [|y ds]; [congruence|]. exists y. apply and_comm. apply Hds. left. reflexivity.
    - constructor.
    - intros z [].
    - simpl. lia.
    - intros v [].
    - exists y. auto.
  Qed.
End Facts.
