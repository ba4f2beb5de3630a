(** * The fluent building of chains: builder.py:266-342, chain.py:232-237, 309-405

    A chain and its builder are made together, by [chain()], and are named by one number, in
    order of creation.  A part is named by its chain and its place in the chain's list of parts.
    What [build_re], [build_string], [build_functional] and [build_chain] return is any value of
    type [A] (an exception is [Err]): the options themselves are the subject of Builder.v.
    The user holds every object returned so far, and may call any method on any of them. *)
From Verif Require Import Base Match Pattern Chain.
Set Implicit Arguments.
Unset Strict Implicit.
Open Scope nat_scope.

Section Fluent.
  Context {A : Type}.
  Inductive content := CLeaf (a : A) | CChain (c : nat).
  (** chain.py:232-237 *)
  Record fpart := FPart { fp_content : content; fp_repeat : Z * option Z; fp_hidden : bool }.
  Definition new_part (x : content) : fpart := FPart x default_repeater false.
  Record world := World {
    w_root : list content;              (* the patterns registered on the root builder *)
    w_count : nat;                      (* chains made so far *)
    w_parent : nat -> option nat;       (* [_parent] of a chain builder; None: the root builder *)
    w_options : nat -> option A;        (* what [build_chain] gave *)
    w_parts : nat -> list fpart
  }.
  Definition empty_world : world := World [] 0 (fun _ => None) (fun _ => None) (fun _ => []).
  (** the objects methods can be called on *)
  Inductive handle := HRoot | HBuilder (c : nat) | HPart (c i : nat).
  Inductive call :=
  | KAdd (built : res A)                (* regex, string, functional *)
  | KChain (built : res A)              (* chain *)
  | KRepeater (v : rvalue) | KHidden (b : bool) | KClose.

  Definition set_parts (w : world) (c : nat) (ps : list fpart) : world :=
    World (w_root w) (w_count w) (w_parent w) (w_options w) (fun x => if Nat.eqb x c then ps else w_parts w x).
  (** builder.py:302-305 [_add]: the part returned *)
  Definition add_part (w : world) (c : nat) (x : content) : world * handle :=
    (set_parts w c (w_parts w c ++ [new_part x]), HPart c (length (w_parts w c))).
  (** a new chain and its builder: builder.py:289-292 *)
  Definition new_chain (w : world) (parent : option nat) (a : A) : world :=
    let c := w_count w in
    World (w_root w) (S c) (fun x => if Nat.eqb x c then parent else w_parent w x)
          (fun x => if Nat.eqb x c then Some a else w_options w x) (fun x => if Nat.eqb x c then [] else w_parts w x).
  Definition register (w : world) (x : content) : world :=
    World (w_root w ++ [x]) (w_count w) (w_parent w) (w_options w) (w_parts w).
  (** builder.py:335-342 [close]; [Err Diverges]: the loop does not end *)
  Fixpoint close_loop (fuel : nat) (w : world) (parent : option nat) : res handle :=
    match parent with
    | None => Ok HRoot
    | Some p => match fuel with 0 => Err Diverges | S n => close_loop n w (w_parent w p) end
    end.
  Definition close (w : world) (c : nat) : res handle := close_loop (w_count w) w (w_parent w c).
  Fixpoint update_nth {B} (i : nat) (f : B -> B) (l : list B) : list B :=
    match l, i with [], _ => [] | x :: r, 0 => f x :: r | x :: r, S j => x :: update_nth j f r end.

  (** a call on a chain builder, builder.py:307-342 *)
  Definition builder_call (w : world) (c : nat) (k : call) : world * res handle :=
    match k with
    | KAdd (Err e) | KChain (Err e) => (w, Err e)
    | KAdd (Ok a) => let '(w', h) := add_part w c (CLeaf a) in (w', Ok h)
    | KChain (Ok a) =>
        let n := w_count w in
        let '(w', _) := add_part (new_chain w (Some c) a) c (CChain n) in (w', Ok (HBuilder n))
    | KClose => (w, close w c)
    | KRepeater _ | KHidden _ => (w, Err AttributeError)
    end.
  Definition step (w : world) (h : handle) (k : call) : world * res handle :=
    match h with
    | HRoot =>                                       (* builder.py:230-278 *)
        match k with
        | KAdd (Err e) | KChain (Err e) => (w, Err e)
        | KAdd (Ok a) => (register w (CLeaf a), Ok HRoot)
        | KChain (Ok a) => let n := w_count w in (register (new_chain w None a) (CChain n), Ok (HBuilder n))
        | KRepeater _ | KHidden _ | KClose => (w, Err AttributeError)
        end
    | HBuilder c => builder_call w c k
    | HPart c i =>                                   (* chain.py:309-396 *)
        match k with
        | KRepeater v => (set_parts w c (update_nth i (fun p => FPart (fp_content p) (repeater v (fp_repeat p)) (fp_hidden p)) (w_parts w c)), Ok h)
        | KHidden b => (set_parts w c (update_nth i (fun p => FPart (fp_content p) (fp_repeat p) b) (w_parts w c)), Ok h)
        | KAdd _ | KChain _ | KClose => builder_call w c k
        end
    end.

  (** ** Histories: each call names one of the objects held (number 0 is the root builder); the
      log records the calls with what they returned *)
  Record event := Event { ev_on : handle; ev_call : call; ev_result : res handle }.
  Record session := Session { se_world : world; se_held : list handle; se_log : list event }.
  Definition start : session := Session empty_world [HRoot] [].
  Definition act (s : session) (o : nat * call) : session :=
    let h := nth (fst o) (se_held s) HRoot in
    let '(w, r) := step (se_world s) h (snd o) in
    Session w (match r with Ok h' => se_held s ++ [h'] | Err _ => se_held s end) (se_log s ++ [Event h (snd o) r]).
  Definition session_of (ops : list (nat * call)) : session := fold_left act ops start.
  (** a fluent expression: each call is made on what the previous one returned *)
  Fixpoint expression (w : world) (h : handle) (ks : list call) : world * res handle :=
    match ks with
    | [] => (w, Ok h)
    | k :: r => match step w h k with
                | (w', Ok h') => expression w' h' r
                | (w', Err e) => (w', Err e)
                end
    end.
End Fluent.
Arguments content : clear implicits.
Arguments fpart : clear implicits.
Arguments world : clear implicits.
Arguments call : clear implicits.
Arguments event : clear implicits.
Arguments session : clear implicits.
