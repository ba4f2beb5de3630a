(** * Abbreviations (C70) *)
From Verif Require Import Base BaseFacts Abbrev.
From Coq Require String. Export Coq.Strings.String.StringSyntax.
Set Implicit Arguments.
Unset Strict Implicit.
Open Scope string_scope.
Open Scope list_scope.
Open Scope nat_scope.

(** ** What replacing a key in a text means
    either the key does not occur, or the text is cut at its leftmost occurrence, which is
    replaced, and the rest is treated in the same way *)
Definition contains (k t : pstr) : Prop := exists a b, t = a ++ k ++ b.
Inductive replaced (k r : pstr) : pstr -> pstr -> Prop :=
| rep_none t : ~ contains k t -> replaced k r t t
| rep_some a b u :
    (forall a' b', a ++ k ++ b = a' ++ k ++ b' -> length a <= length a') ->
    replaced k r b u -> replaced k r (a ++ k ++ b) (a ++ r ++ u).

Lemma prefixb_iff k t : prefixb k t = true <-> exists b, t = k ++ b.
Proof.
  revert t; induction k as [|c k IH]; intro t; simpl; [split; eauto|].
  destruct t as [|d t]; [split; [discriminate | intros (b & H); discriminate]|].
  rewrite Bool.andb_true_iff, N.eqb_eq, IH. split.
  - intros (-> & b & ->). exists b. reflexivity.
  - intros (b & H). injection H as -> ->. split; [reflexivity | eauto].
Qed.
Lemma replace_skip k r a t : replace_from k r (length a) (a ++ t) = replace_from k r 0 t.
Proof. induction a as [|c a IH]; simpl; [reflexivity | exact IH]. Qed.
Lemma replaced_cons k r c t u : k <> [] -> ~ (exists b, c :: t = k ++ b) -> replaced k r t u -> replaced k r (c :: t) (c :: u).
Proof.
  intros Hk Hn H. destruct H as [t H|a b u Hl H].
  - apply rep_none. intros (a & b & E). destruct a as [|x a]; simpl in E; [apply Hn; eauto|].
    injection E as -> ->. apply H. exists a, b. reflexivity.
  - apply (@rep_some k r (c :: a) b u); [|exact H]. intros a' b' E. destruct a' as [|x a']; simpl in E.
    + exfalso. apply Hn. exists b'. exact E.
    + injection E as _ E. simpl. apply Hl in E. lia.
Qed.
Lemma replace_replaced k r t : k <> [] -> replaced k r t (replace_from k r 0 t).
Proof.
  intro Hk. remember (length t) as n eqn:En. assert (length t <= n) as Hn by lia. clear En. revert t Hn.
  induction n as [|n IH]; intros t Hn.
  - destruct t; [|simpl in Hn; lia]. simpl. apply rep_none. intros (a & b & E). destruct a; [destruct k; [congruence|]|]; discriminate.
  - destruct t as [|c t]; [apply rep_none; intros (a & b & E); destruct a; [destruct k; [congruence|]|]; discriminate|].
    simpl in Hn. cbn [replace_from]. destruct (prefixb k (c :: t)) eqn:E.
    + apply prefixb_iff in E as (b & E). destruct k as [|c' k]; [congruence|]. injection E as -> ->.
      replace (length (c' :: k) - 1) with (length k) by (simpl; lia). rewrite replace_skip.
      apply (@rep_some (c' :: k) r [] b). { intros; simpl; lia. }
      apply IH. rewrite app_length in Hn. lia.
    + apply replaced_cons; [exact Hk| |apply IH; lia].
      intro H. apply prefixb_iff in H. congruence.
Qed.
Lemma app_same_length {A} (a a' x x' : list A) : a ++ x = a' ++ x' -> length a = length a' -> a = a' /\ x = x'.
Proof.
  revert a'; induction a as [|c a IH]; intros [|c' a'] E El; simpl in *; try discriminate; [auto|].
  injection E as -> E. injection El as El. destruct (IH _ E El) as (-> & ->). auto.
Qed.
Lemma replaced_fun k r t u u' : k <> [] -> replaced k r t u -> replaced k r t u' -> u = u'.
Proof.
  intros Hk H. revert u'. induction H as [t Hn|a b u Hl H IH]; intros u' H'.
  - inversion H' as [t0 Hn'|a b u0 Hl' H0 E]; subst; [reflexivity|]. exfalso. apply Hn. exists a, b. reflexivity.
  - remember (a ++ k ++ b) as t eqn:Et. destruct H' as [t Hn'|a' b' u0 Hl' H0].
    + exfalso. apply Hn'. exists a, b. exact Et.
    + assert (length a = length a') as El. { pose proof (Hl a' b' eq_refl). pose proof (Hl' a b Et). lia. }
      assert (a = a' /\ b = b') as (<- & <-).
      { destruct (app_same_length Et (eq_sym El)) as (-> & Ek). split; [reflexivity|]. apply app_inv_head in Ek. auto. }
      f_equal. f_equal. apply IH, H0.
Qed.
(** [str.replace] as modelled is that operation *)
Theorem C97_replace : forall k r t u, k <> [] -> (py_replace k r t = u <-> replaced k r t u).
Proof.
  intros k r t u Hk. assert (py_replace k r t = replace_from k r 0 t) as -> by (destruct k; [congruence | reflexivity]).
  pose proof (replace_replaced r t Hk) as H. split; [intros <-; exact H | intro H'; exact (replaced_fun Hk H H')].
Qed.
(** ... and it leaves a text free of the key when the replacement texts cannot make new ones:
    here, a key of one character that its own replacement does not contain *)
Lemma replace_char c r t : py_replace [c] r t = flat_map (fun x => if N.eqb c x then r else [x]) t.
Proof.
  unfold py_replace. induction t as [|x t IH]; [reflexivity|]. cbn [replace_from prefixb flat_map length].
  rewrite Bool.andb_true_r. destruct (N.eqb c x) eqn:E; [|cbn [app]; f_equal; exact IH].
  change (1 - 1) with 0. rewrite IH. reflexivity.
Qed.

(** ** The compiled expressions *)
(** the abbreviations applied one after the other *)
Inductive rewritten : list (pstr * pstr) -> pstr -> pstr -> Prop :=
| rw_nil t : rewritten [] t t
| rw_cons k r abbr t t' u : k <> [] -> replaced k r t t' -> rewritten abbr t' u -> rewritten ((k, r) :: abbr) t u.
Definition keys_ok (abbr : list (pstr * pstr)) : Prop := Forall (fun kr => fst kr <> []) abbr.
Lemma expand_rewritten abbr t : keys_ok abbr -> rewritten abbr t (expand abbr t).
Proof.
  intro H. revert t; induction H as [|[k r] abbr Hk H IH]; intro t; unfold expand; simpl; [constructor|].
  simpl in Hk. apply (rw_cons Hk (u := expand abbr (py_replace k r t)) (proj1 (@C97_replace k r t _ Hk) eq_refl) (IH _)).
Qed.
Lemma rewritten_fun abbr t u u' : rewritten abbr t u -> rewritten abbr t u' -> u = u'.
Proof.
  intro H; revert u'; induction H as [|k r abbr t t' u Hk Hr H IH]; intros u' H'; inversion H'; subst; [reflexivity|].
  apply IH. match goal with E : replaced k r t _ |- _ => rewrite (replaced_fun Hk Hr E) end. assumption.
Qed.
Lemma replaced_nil k r u : k <> [] -> replaced k r [] u -> u = [].
Proof.
  intros Hk H. apply (replaced_fun Hk H). apply rep_none. intros (a & b & E). destruct a; [destruct k; [congruence|]|]; discriminate.
Qed.
Lemma rewritten_nil abbr u : rewritten abbr [] u -> u = [].
Proof.
  intro H. remember (@nil N) as t eqn:Et. induction H as [t|k r abbr t t' u Hk Hr H IH]; [reflexivity|]. subst t.
  pose proof (replaced_nil Hk Hr) as ->. apply IH. reflexivity.
Qed.

Section C70.
  Context {Flags C : Type}.
  Variable compile : pstr -> Flags -> res C.
  Variable no_flags : Flags.
  Notation arg := (@rarg Flags C).
  Notation heap := (@dheap Flags).
  Definition dict_addrs (ps : list arg) : list nat := flat_map (fun p => match p with ADict a => [a] | _ => [] end) ps.
  (** [c] is what the argument [p] must become: a text is rewritten and compiled with the
      flags of the call, a dictionary's pattern is rewritten and compiled with the
      dictionary's flags, a tuple is compiled as it is, a compiled expression is kept *)
  Definition becomes (abbr : list (pstr * pstr)) (kw : option Flags) (h : heap) (p : arg) (c : res C) : Prop :=
    match p with
    | AText t => exists u, rewritten abbr t u /\ c = compile u (flags_or no_flags kw)
    | ADict a => match rd_pattern (h a) with
                 | Some t => exists u, rewritten abbr t u /\ c = compile u (flags_or no_flags (rd_flags (h a)))
                 | None => c = Err TypeError
                 end
    | ATuple t fl => c = compile t (flags_or no_flags fl)
    | ACompiled c' => c = Ok c'
    end.
  Lemma init_becomes abbr kw h p : keys_ok abbr -> becomes abbr kw h p (snd (init_one compile no_flags abbr kw h p)).
  Proof.
    intro Hk. destruct p as [t|a|t fl|c]; simpl; try reflexivity.
    - exists (expand abbr t). split; [apply expand_rewritten, Hk|]. destruct abbr as [|kr abbr]; [reflexivity|].
      destruct t as [|c t]; [|reflexivity]. rewrite (rewritten_nil (expand_rewritten [] Hk)). reflexivity.
    - destruct (rd_pattern (h a)) as [t|] eqn:E.
      + exists (expand abbr t). split; [apply expand_rewritten, Hk|]. destruct abbr as [|kr abbr].
        * rewrite E. reflexivity.
        * unfold dheap_set. rewrite Nat.eqb_refl. reflexivity.
      + destruct abbr; rewrite E; reflexivity.
  Qed.
  (** what the call does to the dictionaries *)
  Lemma init_heap abbr kw h p a :
    fst (init_one compile no_flags abbr kw h p) a
    = if existsb (Nat.eqb a) (dict_addrs [p]) then RDict (option_map (expand abbr) (rd_pattern (h a))) (rd_flags (h a)) else h a.
  Proof.
    destruct p as [t|b|t fl|c]; simpl; try reflexivity. destruct (Nat.eqb a b) eqn:E; simpl.
    - apply Nat.eqb_eq in E as ->. destruct abbr as [|kr abbr].
      + unfold expand; simpl. destruct (h b) as [[t|] fl]; reflexivity.
      + destruct (rd_pattern (h b)) as [t|] eqn:Ep; [unfold dheap_set; rewrite Nat.eqb_refl; reflexivity|].
        destruct (h b) as [pt fl]; simpl in *; subst; reflexivity.
    - destruct abbr as [|kr abbr]; [reflexivity|]. destruct (rd_pattern (h b)); [|reflexivity]. unfold dheap_set. rewrite E. reflexivity.
  Qed.
  Lemma becomes_heap abbr kw h h' p c : (forall a, In a (dict_addrs [p]) -> h' a = h a) -> becomes abbr kw h p c -> becomes abbr kw h' p c.
  Proof. destruct p as [t|a|t fl|c']; simpl; auto. intros H. rewrite (H a (or_introl eq_refl)). auto. Qed.

  (** When the construction succeeds the expressions are, in order, what the arguments must
      become, each dictionary being given once.  When it fails, it fails with the error of the
      first argument that has one. *)
  Theorem C97_expressions : forall abbr kw (h : heap) (ps : list arg) h' x,
    keys_ok abbr -> NoDup (dict_addrs ps) ->
    re_init compile no_flags abbr kw h ps = (h', x) ->
    match x with
    | Ok cs => Forall2 (fun p c => becomes abbr kw h p (Ok c)) ps cs
    | Err e => exists ps1 p ps2 cs, ps = ps1 ++ p :: ps2 /\ Forall2 (fun p c => becomes abbr kw h p (Ok c)) ps1 cs /\ becomes abbr kw h p (Err e)
    end.
  Proof.
    intros abbr kw h ps h' x Hk. revert h h' x. induction ps as [|p ps IH]; intros h h' x Hnd E; simpl in E.
    - injection E as _ <-. constructor.
    - pose proof (init_becomes kw h p Hk) as Hb. pose proof (init_heap abbr kw h p) as Hh.
      destruct (init_one compile no_flags abbr kw h p) as [h1 [c|e]]; cbn [fst snd] in Hb, Hh.
      2: { injection E as _ <-. exists [], p, ps, []. split; [reflexivity|]. split; [constructor | exact Hb]. }
      unfold dict_addrs in Hnd. cbn [flat_map] in Hnd. fold (dict_addrs ps) in Hnd.
      assert (NoDup (dict_addrs ps)) as Hnd'. { clear -Hnd. destruct p; simpl in Hnd; auto. inversion Hnd; auto. }
      assert (forall q, In q ps -> forall a, In a (dict_addrs [q]) -> h a = h1 a) as Hsame.
      { intros q Hq a Ha. rewrite Hh. destruct (existsb (Nat.eqb a) (dict_addrs [p])) eqn:Ex; [|reflexivity]. exfalso.
        apply existsb_exists in Ex as (b & Hb' & Eb). apply Nat.eqb_eq in Eb as <-.
        assert (In a (dict_addrs ps)) as Hin. { unfold dict_addrs in *. apply in_flat_map. exists q. split; [exact Hq|]. simpl in Ha. rewrite app_nil_r in Ha. exact Ha. }
        destruct p; simpl in Hb'; try contradiction. destruct Hb' as [-> |[]]. simpl in Hnd. inversion Hnd; auto. }
      assert (forall l cs, (forall q, In q l -> In q ps) -> Forall2 (fun p c => becomes abbr kw h1 p (Ok c)) l cs -> Forall2 (fun p c => becomes abbr kw h p (Ok c)) l cs) as Hback.
      { intros l cs Hin H. induction H; constructor.
        - apply (becomes_heap (h := h1)); [|assumption]. apply Hsame, Hin; left; reflexivity.
        - apply IHForall2. intros; apply Hin; right; assumption. }
      destruct (re_init compile no_flags abbr kw h1 ps) as [h2 [cs|e]] eqn:E2; injection E as <- <-; apply (IH _ _ _ Hnd') in E2.
      + constructor; [exact Hb|]. apply Hback; auto.
      + destruct E2 as (ps1 & q & ps2 & cs & -> & H1 & H2). exists (p :: ps1), q, ps2, (c :: cs). split; [reflexivity|]. split.
        * constructor; [exact Hb|]. apply Hback; [|exact H1]. intros; apply in_or_app; left; assumption.
        * apply (becomes_heap (h := h1)); [|exact H2]. apply Hsame. apply in_or_app; right; left; reflexivity.
  Qed.
  (** what [becomes] says determines the expression *)
  Theorem C97_determined : forall abbr kw (h : heap) (p : arg) c c', becomes abbr kw h p c -> becomes abbr kw h p c' -> c = c'.
  Proof.
    intros abbr kw h p c c' H H'. destruct p as [t|a|t fl|c0]; simpl in *; try congruence.
    - destruct H as (u & Hu & ->), H' as (u' & Hu' & ->). rewrite (rewritten_fun Hu Hu'). reflexivity.
    - destruct (rd_pattern (h a)) as [t|]; [|congruence]. destruct H as (u & Hu & ->), H' as (u' & Hu' & ->). rewrite (rewritten_fun Hu Hu'). reflexivity.
  Qed.
  (** without abbreviations nothing is rewritten and no dictionary is changed *)
  Theorem C97_no_abbreviations : forall kw (h : heap) (ps : list arg) a,
    fst (re_init compile no_flags [] kw h ps) a = h a.
  Proof.
    intros kw h ps a. revert h; induction ps as [|p ps IH]; intro h; simpl; [reflexivity|].
    pose proof (init_heap [] kw h p a) as Hh. destruct (init_one compile no_flags [] kw h p) as [h1 [c|e]]; cbn [fst snd] in Hh.
    - specialize (IH h1). destruct (re_init compile no_flags [] kw h1 ps) as [h2 [cs|e]]; simpl in IH |- *; rewrite IH, Hh;
        destruct (existsb (Nat.eqb a) (dict_addrs [p])); destruct (h a) as [[t|] fl]; reflexivity.
    - cbn [fst]; rewrite Hh. destruct (existsb (Nat.eqb a) (dict_addrs [p])); destruct (h a) as [[t|] fl]; reflexivity.
  Qed.
  (** nor is a dictionary that is not given *)
  Theorem C70_other_dictionaries_partial : forall abbr kw (h : heap) (ps : list arg) a,
    ~ In a (dict_addrs ps) -> fst (re_init compile no_flags abbr kw h ps) a = h a.
  Proof.
    intros abbr kw h ps a. revert h; induction ps as [|p ps IH]; intros h Ha; simpl; [reflexivity|].
    pose proof (init_heap abbr kw h p a) as Hh.
    assert (existsb (Nat.eqb a) (dict_addrs [p]) = false) as Ex.
    { apply existsb_false_iff. intros b Hb. apply Nat.eqb_neq. intros <-. apply Ha. unfold dict_addrs in *. cbn [flat_map] in *. apply in_or_app; left. rewrite app_nil_r in Hb. exact Hb. }
    rewrite Ex in Hh. assert (~ In a (dict_addrs ps)) as Ha'. { intro H. apply Ha. unfold dict_addrs in *. cbn [flat_map]. apply in_or_app; right; exact H. }
    destruct (init_one compile no_flags abbr kw h p) as [h1 [c|e]]; cbn [fst snd] in Hh |- *; [|exact Hh].
    specialize (IH h1 Ha'). destruct (re_init compile no_flags abbr kw h1 ps) as [h2 [cs|e]]; simpl in IH |- *; congruence.
  Qed.
End C70.

(** "simply replace tuple[0] with tuple[1] in the expression": all at once when the keys are
    single distinct characters and no replacement contains a later key *)
Definition substitute (abbr : list (N * pstr)) (x : N) : pstr :=
  match find (fun kr => N.eqb (fst kr) x) abbr with Some kr => snd kr | None => [x] end.
Inductive independent : list (N * pstr) -> Prop :=
| ind_nil : independent []
| ind_cons c r abbr : (forall x, In x r -> ~ In x (map fst abbr)) -> independent abbr -> independent ((c, r) :: abbr).
Lemma substitute_free abbr r : (forall x, In x r -> ~ In x (map fst abbr)) -> flat_map (substitute abbr) r = r.
Proof.
  induction r as [|x r IH]; intro H; [reflexivity|]. cbn [flat_map]. rewrite IH by (intros y Hy; apply H; right; exact Hy).
  unfold substitute. destruct (find (fun kr => N.eqb (fst kr) x) abbr) as [kr|] eqn:E; [|reflexivity]. exfalso.
  apply find_some in E as (Hin & Ex). apply N.eqb_eq in Ex. apply (H x); [left; reflexivity|]. rewrite <- Ex. apply in_map, Hin.
Qed.
Theorem C70_all_at_once_partial : forall (abbr : list (N * pstr)) t,
  independent abbr -> expand (map (fun kr => ([fst kr], snd kr)) abbr) t = flat_map (substitute abbr) t.
Proof.
  intros abbr t H. revert t. induction H as [|c r abbr Hr H IH]; intro t; unfold expand.
  - simpl. symmetry. apply substitute_free. intros x _ [].
  - cbn [map fold_left fst snd]. change (expand (map (fun kr => ([fst kr], snd kr)) abbr) (py_replace [c] r t) = flat_map (substitute ((c, r) :: abbr)) t).
    rewrite IH, replace_char. induction t as [|x t IHt]; [reflexivity|]. cbn [flat_map]. rewrite flat_map_app, IHt. f_equal.
    unfold substitute at 2. cbn [find fst snd]. destruct (N.eqb c x) eqn:E; [apply (substitute_free Hr)|].
    cbn [flat_map]. rewrite app_nil_r. reflexivity.
Qed.
(** in general a later abbreviation rewrites what an earlier one wrote *)
Theorem C70_all_at_once_refuted :
  expand [([97%N], [98%N]); ([98%N], [99%N])] [97%N; 98%N] = [99%N; 99%N]
  /\ flat_map (substitute [(97%N, [98%N]); (98%N, [99%N])]) [97%N; 98%N] = [98%N; 99%N].
Proof. split; reflexivity. Qed.
(** the expression of a tuple is not rewritten *)
Theorem C70_tuple_refuted : exists (abbr : list (pstr * pstr)) t u,
  rewritten abbr t u /\ u <> t
  /\ re_init (fun t (_ : nat) => Ok t) 0 abbr None (fun _ => RDict None None) [AText t; ATuple t None] = (fun _ => RDict None None, Ok [u; t]).
Proof.
  exists [(s "-", s "[W_]+")], (s "a-b"), (s "a[W_]+b"). split; [|split; [discriminate | reflexivity]].
  change (s "a[W_]+b") with (expand [(s "-", s "[W_]+")] (s "a-b")). apply expand_rewritten. constructor; [discriminate | constructor].
Qed.
(** the dictionary given is changed, and a second pattern made from it is rewritten again *)
Theorem C70_dictionary_refuted : exists (abbr : list (pstr * pstr)) (d : rdict) u u2,
  let compile := fun t (_ : nat) => Ok t in
  let '(h1, x1) := re_init compile 0 abbr None (fun _ => d) [ADict 0] in
  let '(h2, x2) := re_init compile 0 abbr None h1 [ADict 0] in
  x1 = Ok [u] /\ h1 0 <> d /\ x2 = Ok [u2] /\ u2 <> u.
Proof.
  exists [(s "-", s "[-_]")], (RDict (Some (s "a-b")) (Some 0)), (s "a[-_]b"), (s "a[[-_]_]b").
  vm_compute. repeat split; intro H; discriminate H.
Qed.
Example C70_case :
  re_init (fun t fl => if pstr_eqb t (s "(") then Err ValueError else Ok (t, fl)) 0
    [(s "-", s "[^\w]"); (s "@@", s "at")] (Some 2) (fun a => if Nat.eqb a 7 then RDict (Some (s "x-y")) (Some 1) else RDict None None)
    [AText (s "a-b@@@-"); ADict 7; ATuple (s "-") (Some 5); ACompiled (s "-", 9)]
  = (fun a => if Nat.eqb a 7 then RDict (Some (s "x[^\w]y")) (Some 1) else if Nat.eqb a 7 then RDict (Some (s "x-y")) (Some 1) else RDict None None,
     Ok [(s "a[^\w]bat@[^\w]", 2); (s "x[^\w]y", 1); (s "-", 5); (s "-", 9)])
  /\ keys_ok [(s "-", s "[^\w]"); (s "@@", s "at")]
  /\ NoDup (dict_addrs [AText (s "a-b@@@-"); ADict 7; ATuple (s "-") (Some 5); ACompiled (s "-", 9)]).
Proof.
  split; [vm_compute; reflexivity|]. split; [repeat constructor; discriminate|]. simpl. repeat constructor. intros [].
Qed.
Example C70_all_at_once_case : independent [(45%N, s "[\W_]"); (64%N, s "a-t")].
Proof. constructor; [|constructor; [|constructor]]; simpl; intros x H; intuition (subst; try discriminate). Qed.

Print Assumptions C97_replace. Print Assumptions C97_expressions. Print Assumptions C97_determined. Print Assumptions C70_all_at_once_partial.
