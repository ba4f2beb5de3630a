(** * rebulk/introspector.py: what a Rebulk object says it can produce

    Keys of the result are names, or None (a string pattern without a name).
    The attributes read from patterns are [pinfo] (Rebulk.v); a rule's class attribute
    [properties] is given by [rule_props]. *)
From Verif Require Import Base Match Coll Loose Topo Rules Pattern Typed Rebulk.
Set Implicit Arguments.
Unset Strict Implicit.
Open Scope Z_scope.

Definition props := dict (option pstr) (list pyval).
(** lists are not hashable *)
Definition value_hashable (v : pyval) : bool := match v with VList _ => false | _ => true end.
(** [extend_safe(d[k], values)] for a defaultdict(list) [d] *)
Definition extend_entry (d : props) (e : option pstr * list pyval) : props :=
  dset d (fst e) (extend_safe py_eqb value_hashable (dget d (fst e)) (snd e)).
Definition extend_all (d : props) (es : list (option pstr * list pyval)) : props := fold_left extend_entry es d.

(** introspector.py:51-55, the dict comprehension over [pattern.values] *)
Definition pattern_values (i : pinfo) : dict (option pstr) pyval :=
  fold_left (fun d kv => match snd kv with
                         | VNone => d
                         | v => dset d (if truthy_name (fst kv) then fst kv else pi_name i) v
                         end) (pi_values i) [].
Definition public_name (i : pinfo) (n : pstr) : bool := negb (mem pstr_eqb n (pi_private_names i)).
Definition own_name (i : pinfo) : list (option pstr * list pyval) :=
  match pi_name i with
  | Some (ch :: r) => if public_name i (ch :: r) then [(Some (ch :: r), [VNone])] else []
  | _ => []
  end.
(** introspector.py:40-70 [PatternDescription] *)
Definition pattern_description (i : pinfo) : props :=
  match pi_properties i with
  | (_ :: _) as ps => extend_all [] (map (fun e => (Some (fst e), snd e)) ps)
  | [] =>
      match pattern_values i with
      | (_ :: _) as vs => extend_all [] (map (fun kv => (fst kv, [snd kv])) vs)
      | [] =>
          match pi_shape i with
          | ShString texts => extend_all [] [(pi_name i, map VStr texts)]
          | ShRegex gs =>
              let d := extend_all [] (own_name i) in
              if pi_private_children i then d
              else extend_all d (map (fun g => (Some g, [VNone])) (filter (public_name i) (concat gs)))
          | ShFunctional => extend_all [] (own_name i)
          | ShChain _ => []
          end
      end
  end.
(** introspector.py:87-94 [RuleDescription] *)
Definition rule_description (ps : dict pstr (list pyval)) : props := extend_all [] (map (fun e => (Some (fst e), snd e)) ps).

Section Introspect.
  Context {Ctx : Type}.
  Variable env : renv.
  Variable rule_props : nat -> dict pstr (list pyval).
  (** introspector.py:111-117 [Introspection.__init__] *)
  Definition described_patterns (ctx : Ctx) (r : rb Ctx) : list pinfo :=
    map (@pt_info Ctx) (filter (fun p => negb (pi_private (pt_info p)) && negb (pi_marker (pt_info p))) (effective_patterns ctx r)).
  (** introspector.py:119-133 [properties] *)
  Definition introspect_properties (ctx : Ctx) (r : rb Ctx) : props :=
    let d := fold_left (fun d i => extend_all d (pattern_description i)) (described_patterns ctx r) [] in
    fold_left (fun d x => extend_all d (rule_description (rule_props x))) (effective_rules env ctx r) d.
End Introspect.
