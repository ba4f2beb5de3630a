(** * rebulk/debug.py, rebulk/remodule.py and what uses them: log levels, definition locations, switches

    Not modelled: the log level of patterns (pattern.py:157-163: the one given, if any), what a log handler does with the messages, [__repr__]. *)
From Verif Require Import Base Topo Rules.
From Coq Require String. Export Coq.Strings.String.StringSyntax.
Set Implicit Arguments.
Unset Strict Implicit.
Open Scope string_scope. Open Scope list_scope. Open Scope nat_scope.

(** ** Log levels *)
(** rules.py:77-81 [CustomRule.__init__], then [rule.log_level]: None is AttributeError; [class_level]: a [log_level] the
    class defines; [default]: debug.py:26 [LOG_LEVEL] *)
Definition rule_level (given class_level : option Z) (default : Z) : option Z :=
  match given, class_level with None, None => Some default | _, _ => class_level end.
Definition has {A} (o : option A) : bool := match o with Some _ => true | None => false end.
Section Levels.
  Variable env : renv.
  Variable level : nat -> option Z.
  Variable perm : list nat -> list nat.
  (** rules.py:319-329: the levels of a layer are read before its rules are run (lines 321-325); a rule reads its own
      level again (lines 347-355) *)
  Fixpoint logged_layers (rules g : list nat) (layers : list (list nat)) (cyclic : bool) : list nat * res unit :=
    match layers with
    | [] => ([], if cyclic then Err CyclicDependency else Ok tt)
    | layer :: t =>
        if forallb (fun c => has (rindex env rules c)) layer then
          let group := map (rep env g) (sort_by (idx_lt env rules) layer) in
          if forallb (fun r => has (level r)) group then
            let '(l, r) := logged_layers rules g t cyclic in (group ++ l, r)
          else ([], Err AttributeError)
        else ([], Err ValueError)
    end.
  (** rules.py:358-386 as [run_group] *)
  Definition logged_group (rules g : list nat) : list nat * res unit :=
    if dup_class env [] g then ([], Err ValueError)
    else let '(layers, rest) := toposort perm (group_graph env g) in
         logged_layers rules g layers (match rest with [] => false | _ => true end).
  Fixpoint logged_groups (rules : list nat) (gs : list (list nat)) : list nat * res unit :=
    match gs with
    | [] => ([], Ok tt)
    | g :: t => match logged_group rules g with
                | (l, Err e) => (l, Err e)
                | (l, Ok _) => let '(l', r) := logged_groups rules t in (l ++ l', r)
                end
    end.
  (** rules.py:304-331 [execute_all_rules], with its logging *)
  Definition execute_logged {St R} (bh : behav St R) (rules : list nat) (st : St) : St * res (list (nat * R)) :=
    let '(l, fin) := logged_groups rules (map snd (groupby (r_prio env) (sorted_rules env rules))) in
    match exec bh l st with
    | (st', Err e) => (st', Err e)
    | (st', Ok ret) => (st', match fin with Ok _ => Ok ret | Err e => Err e end)
    end.
End Levels.

(** ** Definition locations *)
(** a stack frame; [fr_package]: None when its globals have no "__package__" *)
Record frame := Frame { fr_line : Z; fr_package : option (option pstr); fr_name : option pstr; fr_file : pstr }.
(** debug.py:43-48 [Frame] *)
Record location := Location { lo_line : Z; lo_package : option pstr; lo_name : option pstr; lo_file : pstr }.
(** debug.py:54-79 [defined_at]; [own]: the package of debug.py; [stack]: the frames, the innermost (that of [defined_at]) first *)
Definition frame_location (f : frame) : location :=
  Location (fr_line f) (match fr_package f with Some p => p | None => None end) (fr_name f) (fr_file f).
Fixpoint leave_package (own : pstr) (stack : list frame) : option frame :=
  match stack with
  | [] => None
  | f :: r => match fr_package f with
              | Some (Some p) => if pstr_eqb p own then leave_package own r else Some f
              | _ => Some f
              end
  end.
Definition defined_at (debug : bool) (own : pstr) (stack : list frame) : res (option location) :=
  if debug then match leave_package own stack with
                | Some f => Ok (Some (frame_location f))
                | None => Err AttributeError
                end
  else Ok None.

(** ** Switches *)
Fixpoint drop_while {A} (f : A -> bool) (l : list A) : list A :=
  match l with [] => [] | x :: r => if f x then drop_while f r else l end.
(** [str.strip()]; [space]: str.isspace of a character *)
Definition strip (space : char -> bool) (x : pstr) : pstr := rev (drop_while space (rev (drop_while space x))).
(** debug.py:29-31 [_truthy_env], line 40; [value]: the environment variable, None when unset; [lower]: str.lower, character by
    character *)
Definition truthy_env (space : char -> bool) (lower : char -> pstr) (value : option pstr) : bool :=
  existsb (pstr_eqb (flat_map lower (strip space (match value with Some v => v | None => [] end)))) [s "1"; s "true"; s "yes"; s "on"].
(** remodule.py:19-32: [REGEX_ENABLED]; [importable]: the module regex is installed *)
Definition regex_enabled (value : option pstr) (importable : bool) : bool :=
  match value with
  | Some v => existsb (pstr_eqb v) [s "1"; s "true"; s "True"; s "Y"] && importable
  | None => false
  end.
