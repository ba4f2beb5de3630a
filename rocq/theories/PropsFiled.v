(** * Exact account of the lookups over every history: C80-C83

    C03 to C06 are refuted as the user would state them (PropsColl.v).  Here is what the
    collection does instead, for every history of calls, assignments and [reverse] included:
    each family of lookups answers exactly the matches of its register ([SpecFiled]).
    The only condition on histories is [acceptable] (matches of the kind the collection takes;
    a slice is deleted only when C02 lets it). *)
From Verif Require Import Base BaseFacts Match Spec MatchFacts Coll CollFacts CollQuery CollSem CollSem2 SpecColl
  CollHist CollUniv CollOrder CollMore SpecFiled CollFiled CollFiled2 PropsColl.
From Coq Require Import ZifyBool.
Export Coq.Strings.String.StringSyntax.
Set Implicit Arguments.
Unset Strict Implicit.
Open Scope Z_scope.

(** ** Names and tags are filled by the first call that asks for them *)
Lemma filled_unique f ops b a :
  (forall o, may_need f o = asks f o) -> filled f ops b a -> b = upto f ops /\ a = since f ops.
Proof.
  intros Hn (-> & Hr & H).
  assert (forall p, forallb (fun o => negb (asks f o)) p = true -> forall q, upto f (p ++ q) = p ++ upto f q /\ since f (p ++ q) = since f q) as G.
  { induction p as [|o p IH]; intros Hp q; cbn [app upto since]; [auto|]. cbn [forallb] in Hp. apply andb_true_iff in Hp as [Ho Hp].
    apply negb_true_iff in Ho. rewrite Ho. destruct (IH Hp q) as [-> ->]. auto. }
  destruct H as [-> |(p & o & -> & Ho)].
  - rewrite app_nil_r. destruct b as [|o b _] using rev_ind; [auto|]. rewrite removelast_last in Hr. destruct (G b Hr [o]) as [-> ->].
    cbn [upto since]. destruct (asks f o); auto.
  - rewrite removelast_last in Hr. rewrite <- app_assoc. destruct (G p Hr ([o] ++ a)) as [-> ->]. cbn [app upto since].
    rewrite Hn in Ho. rewrite Ho. auto.
Qed.
Lemma holds_unique f ops g : (forall o, may_need f o = asks f o) -> holds f ops g -> g = told_since_asked f ops.
Proof. intros Hn (b & a & Hf & ->). destruct (filled_unique Hn Hf) as [-> ->]. reflexivity. Qed.
Lemma name_needs o : may_need ByName o = asks ByName o.
Proof. unfold may_need. destruct o; try reflexivity; apply orb_false_r. Qed.
Lemma tag_needs o : may_need ByTag o = asks ByTag o.
Proof. unfold may_need. destruct o; try reflexivity; apply orb_false_r. Qed.

(** ** C80: what each lookup answers, and in which order *)
(** A match answered by a lookup is one the register holds, in the register's order. *)
Theorem C80_lookups_told : forall k input ops,
  acceptable k false [] ops ->
  let c := run (empty_coll k input) ops in
  (forall n, n <> [] -> snd (step c (ONamed [n])) = RList (filter (name_is n) (told_since_asked ByName ops)))
  /\ ((forall a b, In a (all_handed ops) -> In b (all_handed ops) -> meq a b = true -> m_tags a = m_tags b) ->
      forall t, snd (step c (OTagged t)) = RList (tagged_members t (told_since_asked ByTag ops)))
  /\ (exists g, holds ByStart ops g /\ forall i, snd (step c (OStarting i)) = RList (filter (starts_at i) g))
  /\ (exists g, holds ByEnd ops g /\ forall i, snd (step c (OEnding i)) = RList (filter (ends_at i) g))
  /\ (exists g, holds ByIndex ops g /\ forall i, snd (step c (OAtIndex i)) = RList (filter (coversb i) g)).
Proof.
  intros k input ops Hacc c.
  split; [|split; [|split; [|split]]].
  - intros n Hn. destruct (@answers_filed k input ByName ops Hacc) as (g & Hg & Hs); [discriminate|].
    apply (holds_unique name_needs) in Hg as <-. fold c in Hs. cbn [shows] in Hs.
    rewrite lookup_answer by reflexivity. cbn [answer dedup flat_map filter existsb]. rewrite app_nil_r, Hs, occ_name by exact Hn. reflexivity.
  - intros Ht t. destruct (@answers_filed k input ByTag ops Hacc) as (g & Hg & Hs); [auto|].
    apply (holds_unique tag_needs) in Hg as <-. fold c in Hs. cbn [shows] in Hs.
    rewrite lookup_answer by reflexivity. cbn [answer]. rewrite Hs, occ_tag. reflexivity.
  - destruct (@answers_filed k input ByStart ops Hacc) as (g & Hg & Hs); [discriminate|]. exists g. split; [exact Hg|]. intro i.
    fold c in Hs. cbn [shows] in Hs. rewrite lookup_answer by reflexivity. cbn [answer]. rewrite Hs, occ_start. reflexivity.
  - destruct (@answers_filed k input ByEnd ops Hacc) as (g & Hg & Hs); [discriminate|]. exists g. split; [exact Hg|]. intro i.
    fold c in Hs. cbn [shows] in Hs. rewrite lookup_answer by reflexivity. cbn [answer]. rewrite Hs, occ_end. reflexivity.
  - destruct (@answers_filed k input ByIndex ops Hacc) as (g & Hg & Hs); [discriminate|]. exists g. split; [exact Hg|]. intro i.
    fold c in Hs. cbn [shows] in Hs. rewrite lookup_answer by reflexivity. cbn [answer]. rewrite Hs, occ_at. reflexivity.
Qed.

(** A history with assignments after lookups: the register keeps the replaced match and, after
    [reverse], holds both members twice; inserted matches come last. *)
Definition ex_told : list op :=
  [OExtend [ex_a; ex_b]; ONamed [s "foo"]; OSetitem 0 ex_c; OInsert 0 ex_a; ORemove ex_b].
Example C80_example :
  acceptable KMatches false [] ex_told
  /\ list_run [] ex_told = [ex_a; ex_c]
  /\ told_since_asked ByName ex_told = [ex_a; ex_c; ex_a]
  /\ told_since_asked ByTag ex_told = [ex_a; ex_c]
  /\ snd (step (run (empty_coll KMatches ex_input) ex_told) (ONamed [s "foo"])) = RList [ex_a; ex_c; ex_a].
Proof. repeat split; simpl; repeat constructor. Qed.
Example C80_tags_example :
  forall a b, In a (all_handed ex_told) -> In b (all_handed ex_told) -> meq a b = true -> m_tags a = m_tags b.
Proof. simpl. intros a b Ha Hb E. repeat (destruct Ha as [<-|Ha]; [repeat (destruct Hb as [<-|Hb]; [reflexivity || (vm_compute in E; discriminate)|]); contradiction|]). contradiction. Qed.

(** C80: with no assignment and no match taken out after it was filled, a register is the
    contents in the order they were added. *)
Definition only_adds (ops : list op) : Prop :=
  Forall (fun o => match o with OSetitem _ _ | OSetslice _ _ _ | OReverse | ORemove _ | ODelitem _ | ODelslice _ _ | OPop _ | OClear => False | _ => True end) ops.
Lemma notes_added ms : forall g, notes g (map Added ms) = g ++ ms.
Proof.
  unfold notes. induction ms as [|m ms IH]; intro g; cbn [map fold_left note]; [symmetry; apply app_nil_r|]. rewrite IH, <- app_assoc. reflexivity.
Qed.
Lemma register_adds : forall ops g l, only_adds ops -> register g l ops = g ++ added_since l ops.
Proof.
  induction ops as [|o ops IH]; intros g l H; cbn [register added_since]; [symmetry; apply app_nil_r|].
  inversion H as [|? ? Ho Hr]; subst. rewrite IH by exact Hr. rewrite app_assoc. f_equal.
  assert (forall ms, added (map Added ms) = ms) as Ha by (induction ms as [|m ms IHm]; [reflexivity | cbn [map]; change (added (Added m :: map Added ms)) with (m :: added (map Added ms)); rewrite IHm; reflexivity]).
  destruct o; try contradiction; cbn [told]; try (cbn; symmetry; apply app_nil_r); try reflexivity.
  rewrite notes_added, Ha. reflexivity.
Qed.
Theorem C80_order_when_only_added : forall k input ops,
  acceptable k false [] ops -> only_adds (since ByName ops) ->
  forall n, n <> [] ->
  snd (step (run (empty_coll k input) ops) (ONamed [n]))
  = RList (filter (name_is n) (list_run [] (upto ByName ops) ++ added_since (list_run [] (upto ByName ops)) (since ByName ops))).
Proof.
  intros k input ops Hacc Ho n Hn. destruct (@C80_lookups_told k input ops Hacc) as (H & _). rewrite (H n Hn).
  unfold told_since_asked. rewrite register_adds by exact Ho. reflexivity.
Qed.
Example C80_order_example :
  let ops := [OExtend [ex_b; ex_a]; OReverse; ONamed [s "foo"]; OInsert 0 ex_c; ONames; OAppend ex_a] in
  acceptable KMatches false [] ops /\ only_adds (since ByName ops)
  /\ list_run [] ops = [ex_c; ex_a; ex_b; ex_a]
  /\ snd (step (run (empty_coll KMatches ex_input) ops) (ONamed [s "foo"])) = RList [ex_a; ex_c; ex_a].
Proof. repeat split; simpl; repeat constructor. Qed.

(** ** C81: [names] and [tags] *)
(** [names] lists every non-empty name asked for, borne by a match present when names were first
    asked for, or by a match added since -- and no other. *)
Lemma keys_exact (tag : bool) k input ops : acceptable k false [] ops ->
  let f := kf tag in
  forall x, In x (dkeys (kdict tag (run (empty_coll k input) ops)))
    <-> In x (asked_keys tag ops) \/ exists m, (In m (list_run [] (upto f ops)) \/ In m (added_since (list_run [] (upto f ops)) (since f ops))) /\ In x (kks tag m).
Proof.
  intros Hacc f x. destruct (@reach_keyed tag k input ops Hacc) as [(Hu & Ha & Hk)|(be & af & H1 & H2 & H3 & H4)].
  - rewrite (unfilled_keys Hu). rewrite Hk.
    destruct (@run_ok (fun _ => True) k ops false (empty_coll k input)) as (_ & _ & Hd & _); auto; try discriminate; [apply Inv_empty|].
    cbn [c_del empty_coll] in Hd. rewrite Hd.
    assert (filled f ops ops []) as Hf.
    { split; [symmetry; apply app_nil_r|]. split; [|left; reflexivity]. fold f in Ha. clear -Ha. destruct ops as [|o ops _] using rev_ind; [reflexivity|]. rewrite removelast_last. rewrite forallb_app in Ha. apply andb_true_iff in Ha. tauto. }
    apply filled_unique in Hf as [<- <-]; [|unfold f, kf; destruct tag; [apply tag_needs | apply name_needs]].
    cbn [added_since]. split; [intros (m & Hm & H); right; exists m; auto | intros [[]|(m & [Hm|[]] & H)]; exists m; auto].
  - rewrite (keyed_dict H4). unfold kspec.
    assert (filled f ops be af) as Hf by (repeat split; auto).
    apply filled_unique in Hf as [<- <-]; [|unfold f, kf; destruct tag; [apply tag_needs | apply name_needs]]. reflexivity.
Qed.
Theorem C81_names : forall k input ops,
  acceptable k false [] ops ->
  exists ns, snd (step (run (empty_coll k input) ops) ONames) = RKeys ns
  /\ forall n, In n ns <->
       In n (asked_names ops)
       \/ (n <> [] /\ exists m, (In m (list_run [] (upto ByName ops)) \/ In m (added_since (list_run [] (upto ByName ops)) (since ByName ops))) /\ m_name m = Some n).
Proof.
  intros k input ops Hacc. eexists. split; [reflexivity|]. intro n. pose proof (@keys_exact false k input ops Hacc n) as H.
  unfold kdict, kf, kks in H. cbn [asked_keys] in H. rewrite H.
  assert (asked_keys false ops = asked_names ops) as ->.
  { unfold asked_keys, asked_names. apply flat_map_ext. intros []; reflexivity. }
  assert (forall m, In n (name_keys m) <-> n <> [] /\ m_name m = Some n) as Hk.
  { intro m. unfold name_keys. destruct (m_name m) as [[|a r]|]; cbn [In]; split; try (intros []; fail); try (intros [_ E]; discriminate E); try tauto.
    - intros [Hn E]. congruence.
    - intros [<-|[]]. split; [discriminate | reflexivity].
    - intros [_ E]. left. congruence. }
  split; (intros [Hx|Hx]; [left; exact Hx|right]).
  - destruct Hx as (m & Hm & Hn). apply Hk in Hn as [Hn E]. split; [exact Hn|]. exists m. auto.
  - destruct Hx as (Hn & m & Hm & E). exists m. split; [exact Hm|]. apply Hk. auto.
Qed.
Theorem C81_tags : forall k input ops,
  acceptable k false [] ops ->
  exists ts, snd (step (run (empty_coll k input) ops) OTags) = RKeys ts
  /\ forall t, In t ts <->
       In t (asked_tags ops)
       \/ exists m, (In m (list_run [] (upto ByTag ops)) \/ In m (added_since (list_run [] (upto ByTag ops)) (since ByTag ops))) /\ In t (m_tags m).
Proof.
  intros k input ops Hacc. eexists. split; [reflexivity|]. intro t. pose proof (@keys_exact true k input ops Hacc t) as H.
  unfold kdict, kf, kks in H. rewrite H.
  assert (asked_keys true ops = asked_tags ops) as ->.
  { unfold asked_keys, asked_tags. apply flat_map_ext. intros []; reflexivity. }
  reflexivity.
Qed.
Example C81_example :
  let ops := [OAppend ex_b; ORemove ex_b; OAppend ex_c; ONamed [s "zip"]; OAppend ex_b; ORemove ex_c] in
  acceptable KMatches false [] ops
  /\ list_run [] ops = [ex_b]
  /\ upto ByName ops = [OAppend ex_b; ORemove ex_b; OAppend ex_c; ONamed [s "zip"]]
  /\ snd (step (run (empty_coll KMatches None) ops) ONames) = RKeys [s "foo"; s "zip"; s "bar"]
  /\ snd (step (run (empty_coll KMatches None) ops) OTags) = RKeys [s "y"].
Proof. repeat split; simpl; repeat constructor. Qed.

(** ** C82: [max_end] *)
(** [max_end] is the furthest of the input's length and the ends of all matches ever added
    (present or not), or further: an end looked up by [ending] or reached by [previous]. *)
Theorem C82_max_end : forall k input ops,
  acceptable k false [] ops ->
  let top := Z.max (match input with Some str => zlen str | None => 0 end) (furthest (added_since [] ops)) in
  let e := max_end (run (empty_coll k input) ops) in
  e = top \/ (top < e /\ end_asked ops e).
Proof. exact max_end_exact. Qed.
Theorem C82_max_end_of_all_added : forall k input ops,
  acceptable k false [] ops ->
  Forall (fun o => match o with OEnding _ | OPrevious _ => False | _ => True end) ops ->
  max_end (run (empty_coll k input) ops)
  = Z.max (match input with Some str => zlen str | None => 0 end) (furthest (added_since [] ops)).
Proof.
  intros k input ops Hacc Hno. destruct (@max_end_exact k input ops Hacc) as [H|(_ & o & Ho & Hx)]; [exact H|].
  exfalso. rewrite Forall_forall in Hno. specialize (Hno o Ho). destruct Hx as [-> |(m & -> & _)]; exact Hno.
Qed.
Example C82_example :
  let ops := [OAppend ex_c; OSetitem 0 ex_b; ORemove ex_b; OAppend ex_a; OReverse] in
  acceptable KMatches false [] ops
  /\ list_run [] ops = [ex_a] /\ furthest (added_since [] ops) = 8
  /\ max_end (run (empty_coll KMatches None) ops) = 8
  /\ max_end (run (empty_coll KMatches (Some (s "abcdefghijkl"))) ops) = 12
  /\ max_end (run (empty_coll KMatches None) [OAppend ex_a; OEnding 7; ORemove ex_a]) = 7.
Proof. repeat split; simpl; repeat constructor. Qed.

(** ** C83: deleting a slice *)
(** The members always leave the list; the call returns or raises [ValueError]. It raises only
    if the first match of the slice ending at the furthest end ever added is followed by others
    that cannot be taken out of what is left; it does raise then if no call made before could
    have filled the register of ends, and never once [ending] was called. *)
Theorem C83_delete_slice : forall k input ops i j,
  acceptable k false [] ops ->
  let l := list_run [] ops in
  let r := step (run (empty_coll k input) ops) (ODelslice i j) in
  let st := stuck (py_slice l i j) (py_unslice l i j) (furthest (added_since [] ops)) in
  c_del (fst r) = py_unslice l i j
  /\ (snd r = RUnit \/ (snd r = RErr ValueError /\ st))
  /\ (forallb (fun o => negb (may_need ByEnd o)) ops = true -> st -> snd r = RErr ValueError)
  /\ (existsb (asks ByEnd) ops = true -> snd r = RUnit).
Proof. exact delslice_exact. Qed.
Example C83_example :
  let a := mk_match 1 0 5 in let b := mk_match 2 1 3 in
  let ops := [OExtend [a; b; b]] in
  acceptable KMatches false [] ops
  /\ stuck (py_slice [a; b; b] (Some 0) None) (py_unslice [a; b; b] (Some 0) None) (furthest (added_since [] ops))
  /\ ~ stuck (py_slice [a; b; b] (Some 0) (Some 2)) (py_unslice [a; b; b] (Some 0) (Some 2)) (furthest (added_since [] ops))
  /\ snd (step (run (empty_coll KMatches None) ops) (ODelslice (Some 0) None)) = RErr ValueError
  /\ snd (step (run (empty_coll KMatches None) ops) (ODelslice (Some 0) (Some 2))) = RUnit.
Proof.
  split; [simpl; repeat constructor|]. split; [exists [], (mk_match 1 0 5), [mk_match 2 1 3; mk_match 2 1 3]; repeat split; [intros ? [] | vm_compute; discriminate]|].
  split; [|split; reflexivity].
  intros (x & y & z & E & Hx & Hy & Hz). vm_compute in E.
  destruct x as [|x0 x]; injection E as <- E.
  - subst z. vm_compute in Hz. discriminate Hz.
  - specialize (Hx _ (or_introl eq_refl)). vm_compute in Hx. discriminate Hx.
Qed.
Print Assumptions C80_lookups_told.
Print Assumptions C83_delete_slice.
