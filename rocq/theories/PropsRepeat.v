(** * C113 Repeater notation, for every text *)
From Verif Require Import Base BaseFacts Chain PropsChain SpecRepeat.
From Coq Require Import ZifyBool.
Export Coq.Strings.String.StringSyntax.
Set Implicit Arguments.
Open Scope Z_scope.

Lemma is_space_iff c : is_space c = true <-> space_char c.
Proof. unfold is_space, space_char, char in *. lia. Qed.
Lemma is_digit_iff c : is_digit c = true <-> digit_char c.
Proof. unfold is_digit, digit_char, char in *. lia. Qed.
Lemma spaces_blank w : spaces w <-> blank w.
Proof. unfold spaces, blank. split; apply Forall_impl; intro; apply is_space_iff. Qed.
Lemma digits_all d : digits d <-> Forall (fun c => is_digit c = true) d.
Proof. unfold digits. split; apply Forall_impl; intro; apply is_digit_iff. Qed.

Lemma dec_worth_from : forall d a, fold_left (fun a c => 10 * a + (Z.of_N c - 48)) d a = a * 10 ^ Z.of_nat (length d) + worth d.
Proof.
  induction d as [|c r IH]; intro a; cbn [fold_left worth length]; [change (Z.of_nat 0) with 0; rewrite Z.pow_0_r; lia|].
  rewrite IH, Nat2Z.inj_succ, Z.pow_succ_r by lia. ring.
Qed.
Lemma dec_worth d : dec d = worth d.
Proof. unfold dec. rewrite dec_worth_from. lia. Qed.

Lemma skip_split : forall t, exists w, t = w ++ skip_spaces t /\ blank w /\ (forall c r, skip_spaces t = c :: r -> is_space c = false).
Proof.
  induction t as [|c r (w & E & B & N)]; [exists []; repeat split; [constructor|discriminate]|].
  cbn [skip_spaces]. destruct (is_space c) eqn:S.
  - exists (c :: w). split; [cbn [app]; f_equal; exact E|]. split; [constructor; auto | exact N].
  - exists []. split; [reflexivity|]. split; [constructor|]. intros c' r' H. injection H as <- <-. exact S.
Qed.
Lemma skip_none (c : N) r : is_space c = false -> skip_spaces (c :: r) = c :: r.
Proof. intro H. cbn [skip_spaces]. now rewrite H. Qed.
Lemma skip_all_blank w : blank w -> skip_spaces w = [].
Proof. intro B. rewrite <- (app_nil_r w), skip_blank by exact B. reflexivity. Qed.
Lemma skip_skip t : skip_spaces (skip_spaces t) = skip_spaces t.
Proof. destruct (skip_split t) as (w & _ & _ & N). destruct (skip_spaces t) as [|c r]; [reflexivity|]. apply skip_none. exact (N c r eq_refl). Qed.
Lemma skip_nil_blank t : skip_spaces t = [] -> blank t.
Proof. intro H. destruct (skip_split t) as (w & E & B & _). rewrite H, app_nil_r in E. now subst. Qed.
Lemma take_split : forall t d r, take_digits t = (d, r) -> t = d ++ r /\ Forall (fun c => is_digit c = true) d /\ (forall c r', r = c :: r' -> is_digit c = false).
Proof.
  induction t as [|c t IH]; intros d r H; cbn [take_digits] in H.
  - injection H as <- <-. repeat split; [constructor | discriminate].
  - destruct (is_digit c) eqn:C.
    + destruct (take_digits t) as [d0 r0]. injection H as <- <-. destruct (IH d0 r0 eq_refl) as (E & D & N). split; [cbn [app]; now rewrite <- E|]. split; [constructor; auto | exact N].
    + injection H as <- <-. split; [reflexivity|]. split; [constructor|]. intros c' r' H. injection H as <- <-. exact C.
Qed.

(** ** numbers *)
Definition no_digit_next (w : pstr) : Prop := forall c r, w = c :: r -> is_digit c = false /\ N.eqb c 95 = false.
Lemma grouped_begins g d : grouped g d -> begins_digit g = true.
Proof. destruct 1; cbn [begins_digit]; now apply is_digit_iff. Qed.
Lemma grouped_take g d : grouped g d -> forall w, no_digit_next w -> take_number (g ++ w) = (d, w).
Proof.
  induction 1 as [c C | c t d C G IH | c t d C G IH]; intros w W; cbn [app]; rewrite take_number_cons; apply is_digit_iff in C; rewrite C.
  - destruct w as [|u r]; [reflexivity|]. destruct (W u r eq_refl) as [W1 W2]. rewrite W2. cbn [andb]. rewrite take_number_cons, W1. reflexivity.
  - specialize (IH w W). pose proof (grouped_begins G) as B. destruct t as [|u t]; [discriminate B|]. cbn [app begins_digit] in *.
    assert (N.eqb u 95 = false) as -> by (destruct (N.eqb_spec u 95); [subst; discriminate B | reflexivity]). cbn [andb]. rewrite IH. reflexivity.
  - specialize (IH w W). rewrite N.eqb_refl. pose proof (grouped_begins G) as B. destruct t as [|u t]; [discriminate B|]. cbn [app begins_digit] in *. rewrite B.
    cbn [andb]. rewrite IH. reflexivity.
Qed.
Lemma take_number_le : forall m x, (length x <= m)%nat -> forall y1 y2, take_number x = (y1, y2) -> (length y2 <= length x)%nat.
Proof.
  induction m as [|m IHm]; intros z Lz y1 y2 Y; [destruct z; [cbn in Y; injection Y as _ <-; auto | cbn [length] in Lz; lia]|].
  destruct z as [|a z]; [cbn in Y; injection Y as _ <-; auto|]. rewrite take_number_cons in Y. cbn [length] in *. destruct (is_digit a); [|injection Y as _ <-; cbn [length]; lia].
  destruct z as [|b z]; [cbn in Y; injection Y as _ <-; cbn [length]; lia|]. cbn [length] in *. destruct (N.eqb b 95 && begins_digit z).
  - destruct (take_number z) as [q1 q2] eqn:Q. injection Y as _ <-. specialize (IHm z ltac:(lia) _ _ Q). lia.
  - destruct (take_number (b :: z)) as [q1 q2] eqn:Q. injection Y as _ <-. specialize (IHm (b :: z) ltac:(cbn [length]; lia) _ _ Q). cbn [length] in IHm. lia.
Qed.
Lemma take_number_lt a z y1 y2 : is_digit a = true -> take_number (a :: z) = (y1, y2) -> (length y2 <= length z)%nat.
Proof.
  intros A Y. rewrite take_number_cons, A in Y. destruct z as [|b z]; [cbn in Y; injection Y as _ <-; cbn [length]; lia|]. destruct (N.eqb b 95 && begins_digit z).
  - destruct (take_number z) as [q1 q2] eqn:Q. injection Y as _ <-. exact (le_S _ _ (@take_number_le _ _ (le_n _) _ _ Q)).
  - destruct (take_number (b :: z)) as [q1 q2] eqn:Q. injection Y as _ <-. exact (@take_number_le _ _ (le_n _) _ _ Q).
Qed.
Lemma take_grouped : forall n t, (length t <= n)%nat -> forall d r, take_number t = (d, r) -> d <> [] -> exists g, t = g ++ r /\ grouped g d.
Proof.
  induction n as [|n IH]; intros t L d r H D.
  - destruct t; [cbn in H; congruence | cbn [length] in L; lia].
  - destruct t as [|c t]; [cbn in H; congruence|]. rewrite take_number_cons in H. destruct (is_digit c) eqn:C; [|congruence]. apply is_digit_iff in C. cbn [length] in L.
    assert (forall x, (length x <= n)%nat -> (let '(d0, r') := take_number x in (c :: d0, r')) = (d, r) ->
            (exists g, x = g ++ r /\ exists d0, d = c :: d0 /\ grouped g d0) \/ x = r /\ d = [c]) as K.
    { intros x Lx Hx. destruct (take_number x) as [d0 r0] eqn:E. injection Hx as <- <-. destruct d0 as [|c0 d0].
      - right. split; [|reflexivity]. destruct x as [|u x]; [cbn in E; congruence|]. rewrite take_number_cons in E. destruct (is_digit u); [|congruence].
        match type of E with (let '(_, _) := ?y in _) = _ => destruct y; congruence end.
      - left. destruct (IH x Lx (c0 :: d0) r0 E ltac:(discriminate)) as (g & Eg & G). exists g. split; [exact Eg|]. exists (c0 :: d0). auto. }
    destruct t as [|u t].
    + cbn in H. injection H as <- <-. exists [c]. split; [reflexivity|]. now constructor.
    + destruct (N.eqb u 95 && begins_digit t) eqn:U.
      * apply andb_true_iff in U as [U B]. apply N.eqb_eq in U. subst u. cbn [length] in L. destruct (K t ltac:(lia) H) as [(g & Eg & d0 & -> & G) | [Er _]].
        -- exists (c :: 95%N :: g). split; [now rewrite Eg | now constructor].
        -- exfalso. subst r. destruct t as [|v t]; [discriminate B|]. cbn [begins_digit] in B.
           destruct (take_number (v :: t)) as [y1 y2] eqn:Y. injection H as _ Hr. apply (@take_number_lt _ _ _ _ B) in Y. rewrite Hr in Y. exact (Nat.nle_succ_diag_l _ Y).
      * destruct (K (u :: t) (le_S_n _ _ L) H) as [(g & Eg & d0 & -> & G) | [Er ->]].
        -- exists (c :: g). split; [now rewrite Eg | now constructor].
        -- exists [c]. split; [now rewrite Er | now constructor].
Qed.

Lemma sign_none (c : char) (r : pstr) : c <> 43%N -> c <> 45%N ->
  match c :: r with 43%N :: r0 => (false, r0) | 45%N :: r0 => (true, r0) | _ => (false, c :: r) end = (false, c :: r).
Proof. intros A B. destruct c as [|p]; [reflexivity|]. do 6 (destruct p; try reflexivity; try congruence). Qed.
Lemma grouped_digits g d : grouped g d -> d <> [].
Proof. destruct 1; discriminate. Qed.
Lemma blank_no_digit_next w : blank w -> no_digit_next w.
Proof.
  intros B c r ->. apply Forall_inv in B. split; [now apply space_not_digit|].
  destruct (N.eqb_spec c 95); [subst; discriminate B | reflexivity].
Qed.
Ltac use_take T := match type of T with _ = ?v => match goal with |- context [take_number ?x] => replace (take_number x) with v by (symmetry; exact T) end end.
Lemma number_read t z : number t z -> py_int t = Some z.
Proof.
  intros (w & sign & g & d & w' & -> & W & W' & G & S). apply spaces_blank in W, W'.
  pose proof (grouped_take G (blank_no_digit_next W')) as T. pose proof (grouped_digits G) as D. pose proof (grouped_begins G) as B.
  assert (forall (neg : bool), match d, skip_spaces w' with _ :: _, [] => Some (if neg then - dec d else dec d) | _, _ => None end = Some (if neg then - worth d else worth d)) as R.
  { intro neg. rewrite (skip_all_blank W'), dec_worth. destruct d; [congruence | reflexivity]. }
  unfold py_int. rewrite skip_blank by exact W. destruct S as [[-> ->] | [[-> ->] | [-> ->]]].
  - cbn [app]. destruct g as [|c g]; [discriminate B|]. cbn [begins_digit] in B. cbn [app] in *. rewrite skip_none by (now apply digit_not_space).
    rewrite sign_none by (intros ->; discriminate B). cbv beta iota zeta; use_take T; exact (R false).
  - change (skip_spaces (s "+" ++ g ++ w')) with (43%N :: g ++ w'). cbv iota zeta. use_take T. exact (R false).
  - change (skip_spaces (s "-" ++ g ++ w')) with (45%N :: g ++ w'). cbv iota zeta. use_take T. exact (R true).
Qed.
Lemma read_number t z : py_int t = Some z -> number t z.
Proof.
  unfold py_int. destruct (skip_split t) as (w & E & W & N). apply spaces_blank in W.
  assert (forall (neg : bool) u, (let '(d, r) := take_number u in match d, skip_spaces r with _ :: _, [] => Some (if neg then - dec d else dec d) | _, _ => None end) = Some z ->
    exists g d w', u = g ++ w' /\ spaces w' /\ grouped g d /\ z = if neg then - worth d else worth d) as K.
  { intros neg u H. destruct (take_number u) as [d r] eqn:T. destruct d as [|c d]; [discriminate|]. destruct (skip_spaces r) eqn:R; [|discriminate].
    injection H as <-. destruct (@take_grouped _ _ (le_n _) _ _ T) as (g & Eg & G); [discriminate|]. exists g, (c :: d), r. rewrite dec_worth.
    split; [exact Eg|]. split; [apply spaces_blank; now apply skip_nil_blank|]. split; [exact G | reflexivity]. }
  destruct (skip_spaces t) as [|c u]; [cbn; discriminate|].
  destruct (N.eq_dec c 43) as [-> | N1]; [|destruct (N.eq_dec c 45) as [-> | N2]].
  - cbv zeta iota. intro H. destruct (K false u H) as (g & d & w' & -> & W' & G & ->). exists w, (s "+"), g, d, w'. split; [exact E|]. split; [exact W|]. split; [exact W'|]. split; [exact G|]. auto 6.
  - cbv zeta iota. intro H. destruct (K true u H) as (g & d & w' & -> & W' & G & ->). exists w, (s "-"), g, d, w'. split; [exact E|]. split; [exact W|]. split; [exact W'|]. split; [exact G|]. auto 6.
  - rewrite sign_none by assumption. intro H. destruct (K false (c :: u) H) as (g & d & w' & Eu & W' & G & ->). exists w, [], g, d, w'. split; [cbn [app]; now rewrite <- Eu|]. split; [exact W|]. split; [exact W'|]. split; [exact G|]. auto 6.
Qed.

(** ** bounds between braces *)
Definition no_digit (x : pstr) : Prop := forall (c : N) r, x = c :: r -> is_digit c = false.
Lemma take_after_spaces w d x : blank w -> Forall (fun c => is_digit c = true) d -> no_digit x -> no_digit (skip_spaces x) ->
  exists y, take_digits (skip_spaces (w ++ d ++ x)) = (d, y) /\ skip_spaces y = skip_spaces x.
Proof.
  intros W D N N'. rewrite skip_blank by exact W. destruct d as [|c d].
  - exists (skip_spaces x). split; [|apply skip_skip]. cbn [app]. rewrite <- (app_nil_l (skip_spaces x)) at 1. rewrite take_digits_app; [reflexivity | constructor | exact N'].
  - exists x. split; [|reflexivity]. rewrite skip_digits by (auto; discriminate). apply take_digits_app; auto.
Qed.
Definition drop_comma (r : pstr) : pstr := match r with 44%N :: r' => r' | _ => r end.
Lemma drop_comma_other (c : N) r : c <> 44%N -> drop_comma (c :: r) = c :: r.
Proof. intro A. unfold drop_comma. destruct c as [|p]; [reflexivity|]. do 6 (destruct p; try reflexivity; try congruence). Qed.
Definition closes (r : pstr) (p : pstr * pstr) : option (pstr * pstr) := match r with 125%N :: _ => Some p | _ => None end.
Lemma match_braces_unfold r : match_braces (123%N :: r) =
  let '(a, r) := take_digits (skip_spaces r) in
  let '(b, r) := take_digits (skip_spaces (drop_comma (skip_spaces r))) in closes (skip_spaces r) (a, b).
Proof. reflexivity. Qed.
Lemma closes_some r p q : closes r p = Some q -> q = p /\ exists r', r = 125%N :: r'.
Proof. unfold closes. destruct r as [|c r]; [discriminate|]. destruct (N.eq_dec c 125) as [-> | n]; [intro H; injection H as <-; eauto|]. intro H. exfalso. destruct c as [|c]; [discriminate|]. do 7 (destruct c; try discriminate; try congruence). Qed.
Lemma no_digit_blank w (c : N) r : blank w -> is_digit c = false -> no_digit (w ++ c :: r).
Proof. intros W C c' r' E. destruct W as [|x w X W]; cbn [app] in E; injection E as <- _; auto. now apply space_not_digit. Qed.
Lemma skip_to w (c : N) r : blank w -> is_space c = false -> skip_spaces (w ++ c :: r) = c :: r.
Proof. intros W C. rewrite skip_blank by exact W. now apply skip_none. Qed.
Lemma no_digit_cons (c : N) r : is_digit c = false -> no_digit (c :: r).
Proof. intros C c' r' E. injection E as <- _. exact C. Qed.

Lemma bounds_read t a b : bounds t a b -> match_braces t = Some (a, b).
Proof.
  intros (w1 & w2 & comma & w3 & w4 & rest & -> & W1 & W2 & W3 & W4 & A & B & C).
  apply spaces_blank in W1, W2, W3, W4. apply digits_all in A, B.
  change (s "{" ++ w1 ++ a ++ w2 ++ comma ++ w3 ++ b ++ w4 ++ s "}" ++ rest) with (123%N :: w1 ++ a ++ w2 ++ comma ++ w3 ++ b ++ w4 ++ 125%N :: rest).
  rewrite match_braces_unfold.
  assert (exists y, take_digits (skip_spaces (w3 ++ b ++ w4 ++ 125%N :: rest)) = (b, y) /\ skip_spaces y = 125%N :: rest) as (y2 & Y1 & Y2).
  { destruct (@take_after_spaces w3 b (w4 ++ 125%N :: rest)) as (y & Y & Z); auto.
    - now apply no_digit_blank.
    - rewrite skip_to by auto. now apply no_digit_cons.
    - exists y. split; [exact Y|]. rewrite Z. now apply skip_to. }
  destruct C as [-> | (-> & C1 & C2)].
  - change (s "," ++ w3 ++ b ++ w4 ++ 125%N :: rest) with (44%N :: w3 ++ b ++ w4 ++ 125%N :: rest).
    destruct (@take_after_spaces w1 a (w2 ++ 44%N :: w3 ++ b ++ w4 ++ 125%N :: rest)) as (y & Y & Z); auto.
    + now apply no_digit_blank.
    + rewrite skip_to by auto. now apply no_digit_cons.
    + unfold char in *. rewrite Y, Z. rewrite skip_to by auto. cbn [drop_comma]. rewrite Y1, Y2. reflexivity.
  - cbn [app]. destruct b as [|cb b].
    + cbn [app] in *. assert (blank (w2 ++ w3 ++ w4)) as W by (apply Forall_app; split; [|apply Forall_app]; auto).
      destruct (@take_after_spaces w1 a (w2 ++ w3 ++ w4 ++ 125%N :: rest)) as (y & Y & Z); auto.
      * replace (w2 ++ w3 ++ w4 ++ 125%N :: rest) with ((w2 ++ w3 ++ w4) ++ 125%N :: rest) by (now rewrite <- !app_assoc). now apply no_digit_blank.
      * rewrite !skip_blank by auto. now apply no_digit_cons.
      * unfold char in *; rewrite Y, Z, !skip_blank by auto. reflexivity.
    + assert (a <> []) as Na by (intros ->; specialize (C1 eq_refl); discriminate). assert (w2 ++ w3 <> []) as Nw by (intro H; specialize (C2 H); discriminate).
      rewrite (app_assoc w2 w3). assert (blank (w2 ++ w3)) as W by (apply Forall_app; auto). remember (w2 ++ w3) as w eqn:Ew.
      rewrite skip_blank by auto. rewrite skip_digits by auto. destruct W as [|x w X W]; [exfalso; apply Nw; first [reflexivity | symmetry; exact Ew]|].
      rewrite take_digits_app; [|exact A|cbn [app]; intros c' r' H; injection H as <- _; now apply space_not_digit].
      unfold char in *.       assert (skip_spaces ((x :: w) ++ (cb :: b) ++ w4 ++ 125%N :: rest) = cb :: b ++ w4 ++ 125%N :: rest) as ->.
      { pose proof (Forall_inv B) as Cb. cbn beta in Cb. rewrite skip_blank by (now constructor). cbn [app]. apply skip_none. now apply digit_not_space. }
      pose proof (Forall_inv B) as Cb. cbn beta in Cb. rewrite drop_comma_other by (intros ->; discriminate Cb).
      change (cb :: b ++ w4 ++ 125%N :: rest) with ([] ++ (cb :: b) ++ w4 ++ 125%N :: rest).
      destruct (@take_after_spaces [] (cb :: b) (w4 ++ 125%N :: rest)) as (y & Y & Z); auto.
      * constructor.
      * now apply no_digit_blank.
      * rewrite skip_to by auto. now apply no_digit_cons.
      * unfold char in *; rewrite Y, Z. rewrite skip_to by auto. reflexivity.
Qed.
Lemma read_bounds t a b : match_braces t = Some (a, b) -> bounds t a b.
Proof.
  destruct t as [|c t]; [discriminate|]. destruct (N.eq_dec c 123) as [-> | n].
  2:{ intro H. exfalso. unfold match_braces in H. destruct c as [|c]; [discriminate|]. do 7 (destruct c; try discriminate; try congruence). }
  rewrite match_braces_unfold. destruct (skip_split t) as (w1 & E1 & W1 & N1). destruct (take_digits (skip_spaces t)) as [a0 r] eqn:T1.
  destruct (take_split _ T1) as (E2 & D1 & N2). destruct (skip_split r) as (w2 & E3 & W2 & N3).
  destruct (take_digits (skip_spaces (drop_comma (skip_spaces r)))) as [b0 r2] eqn:T2. destruct (take_split _ T2) as (E5 & D2 & N5).
  destruct (skip_split (drop_comma (skip_spaces r))) as (w3 & E4 & W3 & N4). destruct (skip_split r2) as (w4 & E6 & W4 & N6).
  intro H. apply closes_some in H as (H & rest & E7). injection H as -> ->.
  assert (exists comma, skip_spaces r = comma ++ drop_comma (skip_spaces r) /\ (comma = s "," \/ comma = [])) as (comma & Ec & Hc).
  { destruct (skip_spaces r) as [|c0 x]; [exists []; split; [reflexivity | now right]|]. destruct (N.eq_dec c0 44) as [-> | n]; [exists (s ","); split; [reflexivity | now left]|].
    exists []. rewrite (drop_comma_other _ n). split; [reflexivity | now right]. }
  exists w1, w2, comma, w3, w4, rest. split.
  { change (123%N :: t) with (s "{" ++ t). f_equal. rewrite E1 at 1. f_equal. rewrite E2. f_equal. rewrite E3 at 1. f_equal. rewrite Ec at 1. f_equal.
    rewrite E4 at 1. f_equal. rewrite E5. f_equal. rewrite E6 at 1. f_equal. rewrite E7. reflexivity. }
  repeat (split; [first [now apply spaces_blank | now apply digits_all]|]).
  destruct Hc as [Hc | Hc]; [now left|]. right. split; [exact Hc|]. subst comma. cbn [app] in Ec. rewrite <- Ec in *.
  assert (w3 = []) as ->.
  { rewrite skip_skip in E4. destruct w3 as [|x w3]; [reflexivity|]. exfalso. assert (length (skip_spaces r) = length ((x :: w3) ++ skip_spaces r))%nat as L by (f_equal; exact E4). rewrite app_length in L. cbn [length] in L. lia. }
  rewrite skip_skip in *. split.
  - intros ->. cbn [app] in E2. rewrite E2 in N1. destruct r as [|c r]; [cbn in T2; congruence|]. rewrite skip_none in T2 by exact (N1 c r eq_refl).
    cbn [take_digits] in T2. rewrite (N2 c r eq_refl) in T2. congruence.
  - rewrite app_nil_r. intros ->. cbn [app] in E3. rewrite <- E3 in T2. destruct r as [|c r]; [cbn in T2; congruence|].
    cbn [take_digits] in T2. rewrite (N2 c r eq_refl) in T2. congruence.
Qed.

(** ** C113: every text is a number, a symbol, bounds, or leaves the repeater as it is *)
Theorem C113_repeater : forall t old,
  (forall z, number t z -> repeater (RStr t) old = (z, Some z))
  /\ (t = s "+" -> repeater (RStr t) old = (1, None))
  /\ (t = s "*" -> repeater (RStr t) old = (0, None))
  /\ (t = s "?" -> repeater (RStr t) old = (0, Some 1))
  /\ (forall a b, bounds t a b -> a <> [] \/ b <> [] ->
        repeater (RStr t) old = (worth a, match b with [] => None | _ => Some (worth b) end))
  /\ ((forall z, ~ number t z) -> t <> s "+" -> t <> s "*" -> t <> s "?" -> (forall a b, bounds t a b -> a = [] /\ b = []) ->
        repeater (RStr t) old = old).
Proof.
  intros t old. split; [|split; [|split; [|split; [|split]]]].
  - intros z H. unfold repeater. rewrite (number_read H). reflexivity.
  - intros ->. destruct old; reflexivity.
  - intros ->. reflexivity.
  - intros ->. reflexivity.
  - intros a b H Hab. pose proof (bounds_read H) as R. unfold repeater. destruct H as (w1 & w2 & comma & w3 & w4 & rest & -> & _). rewrite R.
    change (s "{" ++ w1 ++ a ++ w2 ++ comma ++ w3 ++ b ++ w4 ++ s "}" ++ rest) with (123%N :: w1 ++ a ++ w2 ++ comma ++ w3 ++ b ++ w4 ++ s "}" ++ rest).
    rewrite py_int_braces. set (r := w1 ++ _). change (str_is (123%N :: r) 43) with false. change (str_is (123%N :: r) 42) with false. change (str_is (123%N :: r) 63) with false. cbv iota.
    rewrite <- !dec_worth. destruct a, b; try reflexivity. destruct Hab; congruence.
  - intros H1 H2 H3 H4 H5. unfold repeater. destruct (py_int t) as [z|] eqn:E; [exfalso; exact (H1 z (read_number _ E))|].
    assert (forall c, t <> [c] -> str_is t c = false) as St by (intros c Hc; unfold str_is; destruct (pstr_eqb t [c]) eqn:Et; [apply pstr_eqb_eq in Et; congruence | reflexivity]).
    rewrite (St 43%N H2), (St 42%N H3), (St 63%N H4). destruct (match_braces t) as [[a b]|] eqn:M; [|reflexivity].
    destruct (H5 a b (read_bounds _ M)) as [-> ->]. reflexivity.
Qed.
(** one text of each sort *)
Example C113_example : forall old,
  number (s " -1_000 ") (-1000) /\ repeater (RStr (s " -1_000 ")) old = (-1000, Some (-1000))
  /\ bounds (s "{ 2 ,14 }x") (s "2") (s "14") /\ repeater (RStr (s "{ 2 ,14 }x")) old = (2, Some 14)
  /\ bounds (s "{3}") (s "3") [] /\ repeater (RStr (s "{3}")) old = (3, None)
  /\ repeater (RStr (s "{,}")) old = old /\ repeater (RStr (s "1__0")) old = old.
Proof.
  intro old. split.
  - exists (s " "), (s "-"), (s "1_000"), (s "1000"), (s " "). split; [reflexivity|]. unfold spaces, space_char, digit_char, char. split; [repeat (apply Forall_cons; [cbn; lia|]); apply Forall_nil|]. split; [repeat (apply Forall_cons; [cbn; lia|]); apply Forall_nil|].
    split; [|right; right; auto]. apply grouped_under; [unfold digit_char, char; cbn; lia|]. apply grouped_next; [unfold digit_char, char; cbn; lia|]. apply grouped_next; [unfold digit_char, char; cbn; lia|]. apply grouped_last. unfold digit_char, char; cbn; lia.
  - split; [destruct old; reflexivity|]. split; [apply read_bounds; reflexivity|]. split; [destruct old; reflexivity|].
    split; [apply read_bounds; reflexivity|]. destruct old; repeat split; reflexivity.
Qed.
Print Assumptions C113_repeater.
