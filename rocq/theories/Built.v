(** * From fluent building to searching
    Fluent.v says which objects a history of calls assembles; SpecNest.v [ctree] and [tree_matches] (Chain.v) what a
    tree of chains finds.  Here the patterns and chains assembled are read as such trees, and a Rebulk object (Rebulk.v)
    holds those registered on the root builder (builder.py:222-228 [pattern], rebulk.py:106-116 [pattern]). *)
From Verif Require Import Base Match Pattern Chain Typed Rebulk SpecNest Fluent.
Set Implicit Arguments.
Unset Strict Implicit.
Open Scope nat_scope.

(** what [build_re], [build_string], [build_functional] and [build_chain] give (builder.py:169-207): a pattern, or the
    options and breaker of a chain (chain.py:37-50) *)
Inductive made := Leaf (p : popts) (src : psource) | Opened (p : popts) (breaker : option (list mtch -> bool)).

(** the tree of what a builder holds: chain.py:232-237 (parts), 118-143 (their bounds and visibility).  [fuel]: the depth;
    the other cases do not occur *)
Fixpoint tree_of (fuel : nat) (w : world made) (x : content made) : ctree :=
  match x with
  | CLeaf (Leaf p src) => CPattern p src
  | CLeaf (Opened p b) => SpecNest.CChain p b []
  | CChain n =>
      match w_options w n with
      | Some (Opened p b) =>
          SpecNest.CChain p b
            match fuel with
            | 0 => []
            | S f => map (fun q => (tree_of f w (fp_content q), (fst (fp_repeat q), snd (fp_repeat q), fp_hidden q))) (w_parts w n)
            end
      | Some (Leaf p src) => CPattern p src
      | None => SpecNest.CChain (new_pattern 0 no_opts DNone DNone DNone false false false false [] [] false false None None None) None []
      end
  end.
(** a searched tree as a pattern of a Rebulk object; [number] is its position *)
Definition tree_pattern {Ctx} (info : pinfo) (number : nat) (t : ctree) : pat Ctx := Pat number (fun _ => false) (fun _ => tree_matches t) info.
Fixpoint number_from {A B} (f : nat -> A -> B) (i : nat) (l : list A) : list B :=
  match l with [] => [] | x :: r => f i x :: number_from f (S i) r end.
(** the Rebulk object: the patterns registered, in order; no sub-Rebulk *)
Definition searching {Ctx} (info : pinfo) (rules : list nat) (keys : dict pstr key) (ts : list ctree) : rb Ctx :=
  Rb (fun _ => false) (number_from (tree_pattern info) 0 ts) rules keys [].
Definition assembled {Ctx} (info : pinfo) (rules : list nat) (keys : dict pstr key) (w : world made) : rb Ctx :=
  searching info rules keys (map (tree_of (w_count w) w) (w_root w)).
