(** * What the lookups made of several others answer

    [previous], [next], [conflicting], [at_span], [chain_before], [chain_after] and [holes] read the
    registers of [SpecFiled] position by position.  Here is what each answers when the register of
    starts is [gs], that of ends [ge] and that of positions [gi]. *)
From Verif Require Import Base Match Spec Coll.
Set Implicit Arguments.
Open Scope Z_scope.

(** The greatest (least) position of an interval at which [p] holds. *)
Definition greatest (p : Z -> bool) (a b : Z) (i : Z) : Prop := a <= i < b /\ p i = true /\ forall j, i < j < b -> p j = false.
Definition least (p : Z -> bool) (a b : Z) (i : Z) : Prop := a <= i < b /\ p i = true /\ forall j, a <= j < i -> p j = false.
Definition nowhere (p : Z -> bool) (a b : Z) : Prop := forall j, a <= j < b -> p j = false.

(** Without the matches [==] to an earlier one. *)
Fixpoint distinct (seen l : list mtch) : list mtch :=
  match l with
  | [] => []
  | m :: r => if existsb (meq m) seen then distinct seen r else m :: distinct (seen ++ [m]) r
  end.

Definition res_map {A B} (f : A -> B) (r : res A) : res B := match r with Ok a => Ok (f a) | Err e => Err e end.

(** Walking through the positions [is]: matches and separators are passed, the rest stops the walk. *)
Inductive walked (v : Z -> list mtch) (sep : Z -> res bool) : list Z -> res (list mtch) -> Prop :=
| walk_end : walked v sep [] (Ok [])
| walk_matches i is r : v i <> [] -> walked v sep is r -> walked v sep (i :: is) (res_map (app (v i)) r)
| walk_separator i is r : v i = [] -> sep i = Ok true -> walked v sep is r -> walked v sep (i :: is) r
| walk_stop i is : v i = [] -> sep i = Ok false -> walked v sep (i :: is) (Ok [])
| walk_raise i is e : v i = [] -> sep i = Err e -> walked v sep (i :: is) (Err e).

(** [input[i] in seps] *)
Definition separator (input : option pstr) (seps : pstr) (i : Z) : res bool :=
  match input with
  | None => Err TypeError
  | Some str => match py_nth str i with Some ch => Ok (char_in ch seps) | None => Err IndexError end
  end.

(** Scanning the positions up to [b] for holes.  A hole is opened by a position that is not covered
    (whether it is a separator or not); it ends at the next position that is covered or a separator,
    or at [b]; the position that ends it opens no hole.  Text is missing ([sep j = None]) only when
    a separator is looked for beyond the end of the input. *)
Inductive scanned (cov : Z -> bool) (sep : Z -> option bool) (b : Z) : Z -> res (list (Z * Z)) -> Prop :=
| scan_end i : b <= i -> scanned cov sep b i (Ok [])
| scan_covered i r : i < b -> cov i = true -> scanned cov sep b (i + 1) r -> scanned cov sep b i r
| scan_hole i j r : i < j <= b -> (forall k, i <= k < j -> cov k = false) -> (forall k, i < k < j -> sep k = Some false) ->
    (j = b \/ sep j = Some true \/ (sep j = Some false /\ cov j = true)) ->
    scanned cov sep b (j + 1) r -> scanned cov sep b i (res_map (cons (i, j)) r)
| scan_raise i j : i < j < b -> (forall k, i <= k < j -> cov k = false) -> (forall k, i < k < j -> sep k = Some false) ->
    sep j = None -> scanned cov sep b i (Err IndexError).

(** With no separators given none is looked for. *)
Definition separator_at (input seps : option pstr) (i : Z) : option bool :=
  match seps, input with
  | Some (c :: r), Some str => match nth_error str (Z.to_nat i) with Some ch => Some (char_in ch (c :: r)) | None => None end
  | _, _ => Some false
  end.
Definition given (o : option pstr) : bool := match o with Some (_ :: _) => true | _ => false end.

(** [holes(st, en, seps=seps)], [e] being [en] cut down to [max_end]: the scan starts where the last
    match that starts before [st] does, and at 0 when there is none; the holes found before [st] are
    made to start at [st] (their ends are not changed); one still open at [e] is made to end at
    [e - 1] when some match starts there. *)
Definition holes_of (input seps : option pstr) (cov starts : Z -> bool) (st e : Z) (answer : out) : Prop :=
  if given seps && negb (given input) then answer = RErr AssertionError
  else exists from r,
    (greatest starts 0 st from \/ (nowhere starts 0 st /\ from = 0))
    /\ scanned cov (separator_at input seps) e from r
    /\ answer = match r with
                | Ok l => RSpans (map (fun h => (Z.max (fst h) st, if (snd h =? e) && starts (e - 1) then e - 1 else snd h)) l)
                | Err x => RErr x
                end.
Definition holes_told (input seps : option pstr) (gs gi : list mtch) (keep : mtch -> bool) (st e : Z) (answer : out) : Prop :=
  holes_of input seps (fun i => existsb (fun m => coversb i m && keep m) gi) (fun i => existsb (fun m => starts_at i m && keep m) gs) st e answer.
