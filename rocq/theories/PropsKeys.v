(** * Property C52: declared keys and the [key] argument; chains inherit their builder's configuration (C63) *)
From Verif Require Import Base BaseFacts Loose Builder BuilderFacts PropsBuilder.
From Coq Require String.
Export Coq.Strings.String.StringSyntax.
Open Scope string_scope.
Open Scope list_scope.
Set Implicit Arguments.
Unset Strict Implicit.

(** ** Specification *)
(** the converter of the last key of that name declared in the history *)
Definition declared_by (o : bop) : list bkey := match o with ODeclare ks => ks | _ => [] end.
Definition last_declared (ops : list bop) (n : pstr) : option pyval :=
  match find (fun k => pstr_eqb n (bk_name k)) (rev (flat_map declared_by ops)) with Some k => Some (bk_converter k) | None => None end.
(** a single formatter for all names, which is not the library's default *)
Definition bare (p : bpat) (v : pyval) : Prop := dfind (bp_opts p) k_formatter = Some (BVal v) /\ truthy v = true /\ v <> library_formatter.
(** the pattern's own formatter for a name: its option (C51), the library's when there is none *)
Definition library_only (n : option pstr) : option pyval := match n with None => Some library_formatter | Some _ => None end.
Definition own_formatter (h : heap) (p : bpat) (n : option pstr) : option pyval :=
  match dfind (bp_opts p) k_formatter with
  | Some (BDict a) => match h_cell h a with [] => library_only n | c => dfind c n end
  | _ => library_only n
  end.

(** ** Proofs *)
Lemma find_app {A} (f : A -> bool) l l' : find f (l ++ l') = match find f l with Some x => Some x | None => find f l' end.
Proof. induction l; simpl; [reflexivity|]. destruct (f a); [reflexivity|exact IHl]. Qed.
Definition well_keyed (d : dict pstr bkey) : Prop := NoDup (dkeys d) /\ forall n k, dfind d n = Some k -> bk_name k = n.
Lemma declare_find : forall ks (d : dict pstr bkey) n, dfind (fold_left (fun d k => dset d (bk_name k) k) ks d) n
  = match find (fun k => pstr_eqb n (bk_name k)) (rev ks) with Some k => Some k | None => dfind d n end.
Proof.
  induction ks as [|k ks IH]; intros d n; simpl; [reflexivity|]. rewrite IH, find_app. destruct (find _ (rev ks)); [reflexivity|]. simpl. rewrite dfind_dset.
  change (eqb n (bk_name k)) with (pstr_eqb n (bk_name k)). destruct (pstr_eqb n (bk_name k)); reflexivity.
Qed.
Lemma declare_well_keyed : forall ks d, well_keyed d -> well_keyed (fold_left (fun d k => dset d (bk_name k) k) ks d).
Proof.
  induction ks as [|k ks IH]; intros d [N W]; simpl; [split; assumption|]. apply IH. split; [apply NoDup_dkeys_dset, N|].
  intros n k'. rewrite dfind_dset. destruct (eqb n (bk_name k)) eqn:E; [|apply W]. intro X. injection X as <-. apply eqb_eq in E. auto.
Qed.
Lemma history_keys h : forall ops, Forall proper_op ops -> well_keyed (f_keys (st_factory (bhistory h ops)))
  /\ forall n, (match dfind (f_keys (st_factory (bhistory h ops))) n with Some k => Some (bk_converter k) | None => None end) = last_declared ops n.
Proof.
  induction ops as [|o ops IH] using rev_ind; intro P; [split; [split; [constructor|discriminate]|reflexivity]|].
  apply Forall_app in P as [P Po]. inversion Po as [|? ? Po' _]; subst. destruct (IH P) as [I1 I2]. destruct (history_ok h P) as [C _].
  unfold bhistory. rewrite fold_left_app. simpl. fold (bhistory h ops).
  assert (K : f_keys (st_factory (bstep (bhistory h ops) o)) = fold_left (fun d k => dset d (bk_name k) k) (declared_by o) (f_keys (st_factory (bhistory h ops)))).
  { destruct o as [g kw|ks|kd key kw]; simpl; [| reflexivity|].
    - destruct (defaults _ _ _ _) as [h' f'] eqn:E. destruct Po' as [N Cl]. destruct (defaults_factory E N Cl) as (_ & _ & X & _). exact X.
    - destruct (add _ _ _ _ _) as [[h' f'] r] eqn:E. destruct (add_factory C E) as [_ X]. destruct r; exact X. }
  rewrite K. split; [apply declare_well_keyed, I1|]. intro n. rewrite declare_find. unfold last_declared in *. rewrite flat_map_app, rev_app_distr, find_app. simpl. rewrite app_nil_r.
  destruct (find _ (rev (declared_by o))); [reflexivity|]. apply I2.
Qed.
Lemma fold_dset_find {K V} `{Eqb K} : forall (l c : dict K V) n, NoDup (dkeys l) -> dfind (fold_left (fun c e => dset c (fst e) (snd e)) l c) n = match dfind l n with Some v => Some v | None => dfind c n end.
Proof.
  induction l as [|[k v] l IH]; intros c n N; cbn [fold_left fst snd dfind]; [reflexivity|]. inversion N as [|? ? Hk N']; subst. rewrite IH by exact N'. rewrite dfind_dset.
  destruct (eqb n k) eqn:E; [|reflexivity]. apply eqb_eq in E. subst. apply dfind_None in Hk. rewrite Hk. reflexivity.
Qed.
(** the entries added by [inherit_keys] *)
Definition missing_of (c : cell) (keys : dict pstr bkey) : cell :=
  flat_map (fun e => if dmem c (Some (bk_name (snd e))) then [] else [(Some (bk_name (snd e)), bk_converter (snd e))]) keys.
Lemma missing_spec c : forall keys : dict pstr bkey, NoDup (dkeys keys) -> (forall e, In e keys -> bk_name (snd e) = fst e) ->
  NoDup (dkeys (missing_of c keys)) /\ (forall e, In e (missing_of c keys) -> exists m, fst e = Some m /\ In m (dkeys keys))
  /\ forall n, dfind (missing_of c keys) n = match dfind c n with Some _ => None | None => match n with Some m => match dfind keys m with Some k => Some (bk_converter k) | None => None end | None => None end end.
Proof.
  induction keys as [|[k0 k] keys IH]; intros N W; [split; [constructor|]; split; [intros e []|]; intro n; simpl; destruct (dfind c n), n; reflexivity|].
  inversion N as [|? ? Hk N']; subst. destruct (IH N') as (I1 & I2 & I3); [intros e He; apply W; right; exact He|].
  assert (Ek : bk_name k = k0) by (apply (W (k0, k)); left; reflexivity).
  assert (M : missing_of c ((k0, k) :: keys) = (if dmem c (Some k0) then [] else [(Some k0, bk_converter k)]) ++ missing_of c keys) by (unfold missing_of; simpl; rewrite Ek; reflexivity).
  rewrite M. unfold dmem. destruct (dfind c (Some k0)) as [w|] eqn:Ec; simpl app.
  - split; [exact I1|]. split; [intros e He; destruct (I2 e He) as (m & X & Y); exists m; split; [exact X|right; exact Y]|].
    intro n. rewrite I3. destruct (dfind c n) eqn:En; [reflexivity|]. destruct n as [m|]; [|reflexivity]. cbn [dfind]. destruct (eqb m k0) eqn:E; [|reflexivity]. apply eqb_eq in E. congruence.
  - split; [|split].
    + simpl. constructor; [|exact I1]. intro X. apply in_map_iff in X as (e & X & Y). destruct (I2 e Y) as (m & Z & W'). rewrite X in Z. injection Z as <-. contradiction.
    + intros e [<-|He]; [exists k0; simpl; auto|]. destruct (I2 e He) as (m & X & Y). exists m. split; [exact X|right; exact Y].
    + intro n. cbn [dfind]. destruct (eqb n (Some k0)) eqn:E.
      * apply eqb_eq in E. subst n. rewrite Ec, (proj2 (eqb_eq k0 k0) eq_refl). reflexivity.
      * rewrite I3. destruct (dfind c n); [reflexivity|]. destruct n as [m|]; [|reflexivity]. destruct (eqb m k0) eqn:E'; [|reflexivity]. apply eqb_eq in E'. subst. rewrite (proj2 (eqb_eq _ _) eq_refl) in E. discriminate.
Qed.
Lemma inherit_find h keys p h' p' : inherit_keys h keys p = (h', p') -> well_keyed keys ->
  (bp_library p = false -> h' = h /\ p' = p)
  /\ (bp_library p = true -> forall n, dfind (h_cell h' (bp_formatters p')) n = match dfind (h_cell h (bp_formatters p)) n with Some v => Some v | None => match n with Some m => match dfind keys m with Some k => Some (bk_converter k) | None => None end | None => None end end).
Proof.
  intros E [N W]. assert (W' : forall e, In e keys -> bk_name (snd e) = fst e) by (intros [n k] He; apply W, dfind_NoDup_In; assumption).
  destruct (missing_spec (h_cell h (bp_formatters p)) N W') as (M1 & M2 & M3).
  unfold inherit_keys in E. fold (missing_of (h_cell h (bp_formatters p)) keys) in E. split; intro L; rewrite L in E.
  - destruct keys; injection E as <- <-; auto.
  - assert (Case : (h' = h /\ p' = p /\ missing_of (h_cell h (bp_formatters p)) keys = []) \/ (h', bp_formatters p') = halloc h (fold_left (fun c e => dset c (fst e) (snd e)) (missing_of (h_cell h (bp_formatters p)) keys) (h_cell h (bp_formatters p)))).
    { destruct keys as [|e0 es]; [injection E as <- <-; left; auto|]. cbn [negb] in E. destruct (missing_of _ (e0 :: es)) as [|m ms] eqn:Em; [injection E as <- <-; left; auto|].
      right. injection E as <- <-. reflexivity. }
    intro n. destruct Case as [(-> & -> & Em)|Case].
    + specialize (M3 n). rewrite Em in M3. simpl in M3. destruct (dfind (h_cell h (bp_formatters p)) n); [reflexivity|exact M3].
    + injection Case as -> ->. simpl. rewrite Nat.eqb_refl. rewrite fold_dset_find by exact M1. rewrite M3. destruct (dfind (h_cell h (bp_formatters p)) n); [reflexivity|]. destruct n as [m|]; [|reflexivity]. destruct (dfind keys m); reflexivity.
Qed.
Lemma library_eqb v : py_eqb v library_formatter = true <-> v = library_formatter.
Proof.
  unfold library_formatter. destruct v as [|[] | | | |n]; try (split; intro X; simpl in X; discriminate X). change (py_eqb (VObj n) (VObj 0)) with (N.eqb n 0). rewrite N.eqb_eq.
  split; intro H; [now subst|injection H; auto].
Qed.

(** the formatters of a pattern built with any configuration *)
Lemma keys_fill st_heap0 f kd kw h' f' p (decl : pstr -> option pyval) : no_clear_stored f -> (forall g, NoDup (dkeys (f_defaults f g))) -> NoDup (dkeys kw) ->
  well_keyed (f_keys f) -> (forall n, (match dfind (f_keys f) n with Some k => Some (bk_converter k) | None => None end) = decl n) ->
  (forall g k a, dfind (f_defaults f g) k = Some (BDict a) -> (a < h_next st_heap0)%nat) -> (forall k a, dfind kw k = Some (BDict a) -> (a < h_next st_heap0)%nat) ->
  build st_heap0 f kd kw = (h', f', Ok p) ->
  (forall v, bare p v -> forall n, dfind (h_cell h' (bp_formatters p)) n = match n with None => Some v | Some _ => None end)
  /\ ((forall v, ~ bare p v) -> forall n, dfind (h_cell h' (bp_formatters p)) n
        = match own_formatter h' p n with Some v => Some v | None => match n with Some m => decl m | None => None end end).
Proof.
  intros C Nf N WK LD D Dk E.
  assert (Old : forall k a, dfind (bp_opts p) k = Some (BDict a) -> k <> k_overrides -> (a < h_next st_heap0)%nat).
  { intros k a H Hk.
    destruct (build_objects C Nf N E Hk) as [X1 X2]. destruct (named_in_dec kw k) as [Y|Y]; [rewrite (X1 Y) in H; eapply Dk, H|]. rewrite (X2 Y) in H.
    destruct (dfind kw k) as [[w|b]|] eqn:E1, (dfind (f_defaults f (GKind kd)) k) as [[w'|b']|] eqn:E2, (dfind (f_defaults f GAll) k) as [[w''|b'']|] eqn:E3; simpl in H; try discriminate; injection H as <-; eauto. }
  specialize (Old k_formatter). assert (kf : k_formatter <> k_overrides) by (vm_compute; discriminate).
  unfold build in E. destruct (take_overrides _ kw) as [[kw0 bk]|e]; [|discriminate].
  rewrite set_defaults_plain in E by apply C. destruct (fold_left _ _ _) as [h1 kw1] eqn:E1.
  rewrite set_defaults_plain in E by (simpl; destruct (group_eqb GAll (GKind kd)); apply C). destruct (fold_left _ _ (h1, kw1)) as [h2 kw2] eqn:E2.
  destruct (pattern_formatters h2 (update kw2 bk)) as [[h3 a] lib] eqn:E3. destruct (inherit_keys h3 _ _) as [h4 p'] eqn:E4. injection E as <- <- <-. cbn [f_keys set_group] in E4.
  destruct (inherit_frame E4) as (IF1 & IF2 & IF3 & IF4). simpl in IF3, IF4. destruct (inherit_find E4 WK) as [In1 In2]. simpl in In1, In2.
  destruct (formatters_frame E3) as [FF1 FF2]. destruct (loop_frame E1) as [_ L1]. destruct (loop_frame E2) as [_ L2].
  rewrite IF3 in Old. unfold bare, own_formatter. rewrite IF3. unfold pattern_formatters in E3. destruct (dfind (update kw2 bk) k_formatter) as [[v|b]|] eqn:Ef.
  - assert (Std : (halloc h2 [(None, library_formatter)], true) = (h3, a, lib) -> forall n, dfind (h_cell h4 (bp_formatters p')) n = match library_only n with Some v => Some v | None => match n with Some m => decl m | None => None end end).
    { intros X n. injection X as <- <- <-. rewrite In2 by reflexivity. simpl. rewrite Nat.eqb_refl. destruct n as [m|]; simpl; [|reflexivity]. rewrite <- LD. reflexivity. }
    destruct (truthy v) eqn:Tv.
    + split.
      * intros w (X & _ & Nl) n. injection X as <-. injection E3 as <- <- <-. destruct (py_eqb v library_formatter) eqn:Ev; [apply library_eqb in Ev; contradiction|].
        destruct (In1 eq_refl) as [-> ->]. simpl. rewrite Nat.eqb_refl. destruct n; reflexivity.
      * intros Nb n. destruct (py_eqb v library_formatter) eqn:Ev; [apply library_eqb in Ev; subst v; apply Std, E3|]. destruct (Nb v). split; [reflexivity|]. split; [exact Tv|]. intros ->.
        rewrite (proj2 (library_eqb library_formatter) eq_refl) in Ev. discriminate.
    + split; [intros w (X & Y & _); injection X as <-; congruence|]. intros _. apply Std, E3.
  - split; [intros w (X & _); discriminate|]. intros _ n.
    assert (Lb : (b < h_next h2)%nat) by (rewrite L2, L1; apply Old; auto).
    assert (Cb : h_cell h4 b = h_cell h2 b). { rewrite IF1 by (unfold lt; now rewrite <- FF2). apply FF1, Lb. }
    rewrite Cb. destruct (h_cell h2 b) as [|e0 es] eqn:Eb; injection E3 as <- <- <-; rewrite In2 by reflexivity.
    + simpl. rewrite Nat.eqb_refl. destruct n as [m|]; simpl; [|reflexivity]. rewrite <- LD. reflexivity.
    + rewrite Eb. destruct (dfind (e0 :: es) n); [reflexivity|]. destruct n as [m|]; [|reflexivity]. rewrite <- LD. reflexivity.
  - split; [intros w (X & _); discriminate|]. intros _ n. injection E3 as <- <- <-. rewrite In2 by reflexivity. simpl. rewrite Nat.eqb_refl. destruct n as [m|]; simpl; [|reflexivity]. rewrite <- LD. reflexivity.
Qed.

(** ** C52: theorems *)
(** A pattern without a bare formatter has its own formatter for each name, and the converter of the
    last declared key for the names it has none for; a bare formatter is left alone. *)
Theorem C52_declared_keys_fill_missing_names h ops kd kw h' f' p : Forall proper_op ops -> NoDup (dkeys kw) ->
  (forall a, In a (all_addrs ops) -> (a < h_next h)%nat) -> (forall a, In a (addrs kw) -> (a < h_next h)%nat) ->
  build (st_heap (bhistory h ops)) (st_factory (bhistory h ops)) kd kw = (h', f', Ok p) ->
  (forall v, bare p v -> forall n, dfind (h_cell h' (bp_formatters p)) n = match n with None => Some v | Some _ => None end)
  /\ ((forall v, ~ bare p v) -> forall n, dfind (h_cell h' (bp_formatters p)) n
        = match own_formatter h' p n with Some v => Some v | None => match n with Some m => last_declared ops m | None => None end end).
Proof.
  intros P N AL ALk E. destruct (history_ok h P) as [C Nf]. destruct (history_keys h P) as [WK LD]. destruct (built_inv AL) as (B1 & B2 & _).
  apply (@keys_fill (st_heap (bhistory h ops)) (st_factory (bhistory h ops)) kd kw h' f' p (last_declared ops) C Nf N WK LD); [| |exact E].
  - intros g k0 a0 H0. unfold lt. rewrite <- B1. apply AL. destruct (in_dec Nat.eq_dec a0 (default_addrs ops)) as [Y|Y].
    + unfold default_addrs in Y. apply in_flat_map in Y as (o & Ho & Y). unfold all_addrs. apply in_flat_map. exists o. split; [exact Ho|]. destruct o; simpl in *; auto; destruct Y.
    + exfalso. eapply (B2 a0 Y g), addrs_In, H0.
  - intros k0 a0 H0. unfold lt. rewrite <- B1. eapply ALk, addrs_In, H0.
Qed.

(** The [key] argument, one key: the name and the formatter, unless given. *)
Theorem C52_one_key h k kw : exists kw', apply_key h (OneKey k) kw = (h, Ok kw')
  /\ forall n, dfind kw' n = match dfind kw n with
                             | Some v => Some v
                             | None => if pstr_eqb n k_name then Some (BVal (VStr (bk_name k))) else if pstr_eqb n k_formatter then Some (BVal (bk_converter k)) else None
                             end.
Proof.
  eexists. split; [reflexivity|]. intro n. rewrite !setdefault_find. change (eqb n k_name) with (pstr_eqb n k_name). change (eqb n k_formatter) with (pstr_eqb n k_formatter).
  destruct (dfind kw n); [reflexivity|]. destruct (pstr_eqb n k_name); reflexivity.
Qed.
(** Several keys: a new dictionary with the entries given in the call, and the converter of the
    first key of each other name; nothing else changes, the caller's dictionary included. *)
Theorem C52_several_keys h ks kw h' kw' : ks <> [] -> (forall a, dfind kw k_formatter = Some (BDict a) -> (a < h_next h)%nat) -> apply_key h (Keys ks) kw = (h', Ok kw') ->
  (forall n, n <> k_formatter -> dfind kw' n = dfind kw n)
  /\ (exists a, dfind kw' k_formatter = Some (BDict a) /\ (h_next h <= a)%nat
       /\ forall n, dfind (h_cell h' a) n = match (match dfind kw k_formatter with Some (BDict b) => dfind (h_cell h b) n | _ => None end) with
                                            | Some v => Some v
                                            | None => match n with Some m => first_converter ks m | None => None end
                                            end)
  /\ (forall x, (x < h_next h)%nat -> h_cell h' x = h_cell h x).
Proof.
  intros Hks AL E. destruct (apply_key_frame E) as (F & _ & _). destruct ks as [|k0 ks0]; [contradiction|]. set (ks := k0 :: ks0) in *. unfold apply_key, ks in E. fold ks in E.
  set (oc := match dfind kw k_formatter with None | Some (BVal VNone) => Some [] | Some (BDict a) => Some (h_cell h a) | Some (BVal _) => None end) in *.
  assert (OC : forall c, oc = Some c -> forall n, dfind c n = match dfind kw k_formatter with Some (BDict b) => dfind (h_cell h b) n | _ => None end).
  { intros c X n. unfold oc in X. destruct (dfind kw k_formatter) as [[[]|b]|]; try discriminate; injection X as <-; reflexivity. }
  destruct oc as [c|]; [|discriminate]. specialize (OC c eq_refl). set (c' := fold_left (fun (c : cell) (k : bkey) => csetdefault c (Some (bk_name k)) (bk_converter k)) ks c) in E. unfold halloc in E. injection E as <- <-. split; [|split; [|exact F]].
  - intros n Hn. rewrite dfind_dset. destruct (eqb n k_formatter) eqn:En; [apply eqb_eq in En; contradiction|reflexivity].
  - exists (h_next h). split; [rewrite dfind_dset; reflexivity|]. split; [apply le_n|]. intro n. simpl. rewrite Nat.eqb_refl. unfold c'. rewrite keys_find, OC. reflexivity.
Qed.
(** Several keys with a bare formatter are refused; this is the only refusal. *)
Theorem C52_several_keys_refused h ks kw : ks <> [] ->
  (snd (apply_key h (Keys ks) kw) = Err TypeError <-> exists v, dfind kw k_formatter = Some (BVal v) /\ v <> VNone)
  /\ (forall e, snd (apply_key h (Keys ks) kw) = Err e -> e = TypeError).
Proof.
  intro H. destruct ks as [|k0 ks]; [contradiction|]. unfold apply_key. destruct (dfind kw k_formatter) as [[v|a]|]; [destruct v|..]; simpl; split;
    try (split; [discriminate|intros (w & X & Y); (discriminate X || (injection X as <-; contradiction))]); try discriminate;
    try (split; [intros _; eexists; split; [reflexivity|discriminate]|reflexivity]); try (intros e X; injection X; auto).
Qed.
(** an example: three names, one from the pattern, one from the declared key, one bare *)
Definition key_b : bkey := BKey (s "b") fb.
Definition key_b' : bkey := BKey (s "b") fb'.
Definition key_a : bkey := BKey (s "a") (VObj 9).
Definition ops_keys : list bop := [ODeclare [key_b; key_a]; ODefaults (GKind KString) [(k_formatter, BVal fa)]; ODeclare [key_b']].
Example C52_case :
  Forall proper_op ops_keys /\ last_declared ops_keys (s "b") = Some fb' /\ last_declared ops_keys (s "a") = Some (VObj 9)
  /\ match build (st_heap (bhistory h_ex ops_keys)) (st_factory (bhistory h_ex ops_keys)) KRegex (formatter_is 0) with
     | (h', _, Ok p) => (forall v, ~ bare p v) /\ dfind (h_cell h' (bp_formatters p)) na = Some fa /\ dfind (h_cell h' (bp_formatters p)) nb = Some fb'
                        /\ h_cell h' 0%nat = [(na, fa)]
     | _ => False
     end
  /\ match build (st_heap (bhistory h_ex ops_keys)) (st_factory (bhistory h_ex ops_keys)) KString [] with
     | (h', _, Ok p) => bare p fa /\ dfind (h_cell h' (bp_formatters p)) nb = None
     | _ => False
     end.
Proof.
  split; [repeat constructor; simpl; intuition discriminate|]. split; [reflexivity|]. split; [reflexivity|].
  split; vm_compute; [split; [intros v (X & _); discriminate X|auto]|]. repeat split; discriminate.
Qed.

(** ** C63: the builder of a chain *)
Definition copied (h h' : heap) (e e' : pstr * bval) : Prop :=
  fst e' = fst e /\ match snd e, snd e' with
                    | BVal v, BVal w => w = v
                    | BDict a, BDict b => (h_next h <= b < h_next h')%nat /\ h_cell h' b = h_cell h a
                    | _, _ => False
                    end.
Lemma deepcopy_from : forall (d acc : opts) h h' d', (forall a, In a (addrs d) -> (a < h_next h)%nat) -> fold_left copy_value d (h, acc) = (h', d') ->
  exists c, d' = acc ++ c /\ Forall2 (copied h h') d c /\ (forall x, (x < h_next h)%nat -> h_cell h' x = h_cell h x) /\ (h_next h <= h_next h')%nat.
Proof.
  induction d as [|[k v] d IH]; intros acc h h' d' AL E; cbn [fold_left] in E.
  - injection E as <- <-. exists []. split; [now rewrite app_nil_r|]. repeat split; auto.
  - assert (AL' : forall a, In a (addrs d) -> (a < h_next h)%nat) by (intros a Ha; apply AL; unfold addrs; simpl; apply in_or_app; auto).
    destruct v as [v|a].
    + change (copy_value (h, acc) (k, BVal v)) with (h, acc ++ [(k, BVal v)]) in E. destruct (IH _ _ _ _ AL' E) as (c & -> & F & Fr & Nx). exists ((k, BVal v) :: c). split; [now rewrite <- app_assoc|]. split; [constructor; [split; reflexivity|exact F]|auto].
    + set (h1 := fst (halloc h (h_cell h a))). change (copy_value (h, acc) (k, BDict a)) with (h1, acc ++ [(k, BDict (h_next h))]) in E.
      assert (AL1 : forall b, In b (addrs d) -> (b < h_next h1)%nat) by (intros b Hb; specialize (AL' b Hb); simpl; lia).
      destruct (IH _ _ _ _ AL1 E) as (c & -> & F & Fr & Nx).
      simpl in Nx. assert (Fr0 : forall x, (x < h_next h)%nat -> h_cell h' x = h_cell h x).
      { intros x Hx. rewrite Fr by (simpl; lia). simpl. destruct (Nat.eqb x (h_next h)) eqn:Ex; [apply Nat.eqb_eq in Ex; lia|reflexivity]. }
      exists ((k, BDict (h_next h)) :: c). split; [now rewrite <- app_assoc|]. split; [constructor|split; [exact Fr0|lia]].
      * split; [reflexivity|]. simpl. split; [lia|]. rewrite Fr by (simpl; lia). simpl. now rewrite Nat.eqb_refl.
      * clear -F AL' Nx. revert F AL'. generalize c. induction d as [|[k0 v0] d IH]; intros c0 F AL; inversion F as [|? [k1 v1] ? ? [X Y] F']; subst; constructor.
        -- simpl in X, Y. subst. split; [reflexivity|]. simpl. destruct v0 as [v0|b], v1 as [v1|b1]; auto. simpl in Y. destruct Y as [Y Z]. split; [lia|]. rewrite Z. simpl.
           destruct (Nat.eqb b (h_next h)) eqn:Eb; [|reflexivity]. apply Nat.eqb_eq in Eb. specialize (AL b). unfold addrs in AL. simpl in AL. specialize (AL (or_introl eq_refl)). lia.
        -- apply IH; [exact F'|]. intros b Hb. apply AL. unfold addrs. simpl. apply in_or_app. auto.
Qed.
Lemma copied_find h h' : forall d c, Forall2 (copied h h') d c -> forall k, match dfind d k, dfind c k with
  | None, None => True | Some (BVal v), Some (BVal w) => w = v | Some (BDict a), Some (BDict b) => (h_next h <= b < h_next h')%nat /\ h_cell h' b = h_cell h a | _, _ => False end.
Proof.
  induction 1 as [|[k0 v0] [k1 v1] d c [X Y] F IH]; intro k; [simpl; auto|]. simpl in X, Y. subst k1. cbn [dfind]. destruct (eqb k k0); [|apply IH]. destruct v0, v1; auto.
Qed.
Lemma copied_addrs h h' d c : Forall2 (copied h h') d c -> forall x, In x (addrs c) -> (h_next h <= x)%nat.
Proof.
  induction 1 as [|[k0 v0] [k1 v1] d c [X Y] F IH]; intros x Hx; [destruct Hx|]. unfold addrs in Hx. simpl in Hx, X, Y. apply in_app_or in Hx as [Hx|Hx]; [|apply IH, Hx].
  destruct v1; [destruct Hx|]. destruct Hx as [<-|[]]. destruct v0; [destruct Y|]. lia.
Qed.
(** The builder of a chain starts with the same defaults and the same keys, in dictionaries of its
    own. *)
Theorem C63_chain_inherits_a_copy h f h' f' : (forall g a, In a (addrs (f_defaults f g)) -> (a < h_next h)%nat) -> chain_factory h f = (h', f') ->
  (forall g k, agree (seen h' (dfind (f_defaults f' g) k)) (seen h (dfind (f_defaults f g) k)))
  /\ f_keys f' = f_keys f
  /\ (forall g a, In a (addrs (f_defaults f' g)) -> (h_next h <= a)%nat)
  /\ (forall x, (x < h_next h)%nat -> h_cell h' x = h_cell h x) /\ (h_next h <= h_next h')%nat.
Proof.
  intros AL E. unfold chain_factory, deepcopy in E.
  destruct (fold_left copy_value (f_defaults f GAll) (h, [])) as [h1 d1] eqn:E1. destruct (deepcopy_from (AL GAll) E1) as (c1 & -> & F1 & R1 & N1).
  assert (AL1 : forall g a, In a (addrs (f_defaults f g)) -> (a < h_next h1)%nat) by (intros g a Ha; specialize (AL g a Ha); lia).
  destruct (fold_left copy_value (f_defaults f (GKind KRegex)) (h1, [])) as [h2 d2] eqn:E2. destruct (deepcopy_from (AL1 (GKind KRegex)) E2) as (c2 & -> & F2 & R2 & N2).
  assert (AL2 : forall g a, In a (addrs (f_defaults f g)) -> (a < h_next h2)%nat) by (intros g a Ha; specialize (AL g a Ha); lia).
  destruct (fold_left copy_value (f_defaults f (GKind KFunctional)) (h2, [])) as [h3 d3] eqn:E3. destruct (deepcopy_from (AL2 (GKind KFunctional)) E3) as (c3 & -> & F3 & R3 & N3).
  assert (AL3 : forall g a, In a (addrs (f_defaults f g)) -> (a < h_next h3)%nat) by (intros g a Ha; specialize (AL g a Ha); lia).
  destruct (fold_left copy_value (f_defaults f (GKind KString)) (h3, [])) as [h4 d4] eqn:E4. destruct (deepcopy_from (AL3 (GKind KString)) E4) as (c4 & -> & F4 & R4 & N4).
  assert (AL4 : forall g a, In a (addrs (f_defaults f g)) -> (a < h_next h4)%nat) by (intros g a Ha; specialize (AL g a Ha); lia).
  destruct (fold_left copy_value (f_defaults f (GKind KChain)) (h4, [])) as [h5 d5] eqn:E5. destruct (deepcopy_from (AL4 (GKind KChain)) E5) as (c5 & -> & F5 & R5 & N5).
  injection E as <- <-. simpl.
  assert (S : forall g c hi hj, Forall2 (copied hi hj) (f_defaults f g) c -> (h_next h <= h_next hi)%nat -> (h_next hj <= h_next h5)%nat -> (forall x, (x < h_next hj)%nat -> h_cell h5 x = h_cell hj x) ->
      (forall x, (x < h_next h)%nat -> h_cell hi x = h_cell h x) ->
      (forall k, agree (seen h5 (dfind c k)) (seen h (dfind (f_defaults f g) k))) /\ (forall a, In a (addrs c) -> (h_next h <= a)%nat)).
  { intros g c hi hj F Ni Nj Rj Ri. split; [|intros a Ha; pose proof (copied_addrs F Ha); lia]. intro k. pose proof (copied_find F k) as X.
    destruct (dfind (f_defaults f g) k) as [[v|a]|] eqn:Ea, (dfind c k) as [[w|b]|]; simpl; auto. destruct X as [X Y]. intro n. rewrite Rj by lia. rewrite Y. rewrite Ri; [reflexivity|]. eapply AL, addrs_In, Ea. }
  assert (Rb : forall x, (x < h_next h4)%nat -> h_cell h5 x = h_cell h4 x) by exact R5.
  assert (Rc : forall x, (x < h_next h3)%nat -> h_cell h5 x = h_cell h3 x) by (intros x Hx; rewrite R5 by lia; apply R4, Hx).
  assert (Rd : forall x, (x < h_next h2)%nat -> h_cell h5 x = h_cell h2 x) by (intros x Hx; rewrite Rc by lia; apply R3, Hx).
  assert (Re : forall x, (x < h_next h1)%nat -> h_cell h5 x = h_cell h1 x) by (intros x Hx; rewrite Rd by lia; apply R2, Hx).
  assert (Ra : forall x, (x < h_next h)%nat -> h_cell h5 x = h_cell h x) by (intros x Hx; rewrite Re by lia; apply R1, Hx).
  assert (S2 : forall x, (x < h_next h)%nat -> h_cell h2 x = h_cell h x) by (intros x Hx; rewrite R2 by lia; apply R1, Hx).
  assert (S3 : forall x, (x < h_next h)%nat -> h_cell h3 x = h_cell h x) by (intros x Hx; rewrite R3 by lia; apply S2, Hx).
  assert (S4 : forall x, (x < h_next h)%nat -> h_cell h4 x = h_cell h x) by (intros x Hx; rewrite R4 by lia; apply S3, Hx).
  destruct (S GAll c1 h h1 F1) as [A1 B1]; [lia|lia|exact Re|auto|].
  destruct (S (GKind KRegex) c2 h1 h2 F2) as [A2 B2]; [lia|lia|exact Rd|exact R1|].
  destruct (S (GKind KFunctional) c3 h2 h3 F3) as [A3 B3]; [lia|lia|exact Rc|exact S2|].
  destruct (S (GKind KString) c4 h3 h4 F4) as [A4 B4]; [lia|lia|exact Rb|exact S3|].
  destruct (S (GKind KChain) c5 h4 h5 F5) as [A5 B5]; [lia|lia|auto|exact S4|].
  split; [intros [|[]]; assumption|]. split; [reflexivity|]. split; [intros [|[]]; assumption|]. split; [exact Ra|lia].
Qed.
(** Whatever is then done with the chain's builder, the dictionaries of the outer builder and of
    its patterns do not change, unless given to the chain's builder. *)
Theorem C63_chain_configuration_is_isolated h f h' f' ops x : (forall g a, In a (addrs (f_defaults f g)) -> (a < h_next h)%nat) -> chain_factory h f = (h', f') ->
  (x < h_next h)%nat -> ~ In x (all_addrs ops) -> h_cell (st_heap (fold_left bstep ops (BState h' f' []))) x = h_cell h x.
Proof.
  intros AL E Hx Nx. destruct (C63_chain_inherits_a_copy AL E) as (_ & _ & U & R & L). rewrite run_frame; simpl; [apply R, Hx|lia|exact Nx|].
  intros g Hg. specialize (U g x Hg). lia.
Qed.
Example C63_case : let f := st_factory (bhistory h_ex [ODefaults GAll (formatter_is 0); ODeclare [key_b]]) in
  match chain_factory h_ex f with
  | (h', f') => match dfind (f_defaults f' GAll) k_formatter with Some (BDict a) => h_cell h' a = [(na, fa)] /\ a <> 0%nat | _ => False end
     /\ h_cell (st_heap (fold_left bstep [ODefaults GAll (formatter_is 1); OAdd KRegex NoKey []] (BState h' f' []))) 0%nat = [(na, fa)]
  end.
Proof. vm_compute. repeat split; discriminate. Qed.
