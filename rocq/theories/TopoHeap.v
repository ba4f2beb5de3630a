(** * rebulk/toposort.py on the caller's set objects

    Topo.v takes the graph as a value.  Here the sets of dependencies are objects of the caller:
    a heap gives the contents of each address, and two items may be given the same set object. *)
From Verif Require Import Base BaseFacts Topo.
Set Implicit Arguments.
Unset Strict Implicit.

Section TopoHeap.
  Context {K : Type} `{Eqb K}.
  Definition setheap := nat -> list K.
  (** the dictionary: items and addresses of their sets; its contents *)
  Definition contents (h : setheap) (data : list (K * nat)) : graph K := map (fun ka => (fst ka, h (snd ka))) data.
  (** toposort.py:48-49 [for k, v in data.items(): v.discard(k)] ([data] is a copy of the
      dictionary, line 45, with the same set objects) *)
  Definition discard (h : setheap) (ka : K * nat) : setheap :=
    fun b => if Nat.eqb b (snd ka) then filter (fun y => negb (eqb (fst ka) y)) (h b) else h b.
  (** toposort.py:27-61, iterated to its end: the caller's sets afterwards; the groups and the argument of CyclicDependency *)
  Definition toposort_call (perm : list K -> list K) (h : setheap) (data : list (K * nat)) : setheap * (list (list K) * graph K) :=
    match data with
    | [] => (h, ([], []))
    | _ => let h' := fold_left discard data h in
           let d := complete perm (contents h' data) in
           (h', topo_loop perm (length d) d)
    end.
End TopoHeap.
Arguments setheap K : clear implicits.
