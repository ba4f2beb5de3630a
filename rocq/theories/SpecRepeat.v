(** * How a repeater is written

    The texts [repeater] understands, described by what they look like; nothing here refers to how the
    text is read. *)
From Verif Require Import Base.
Export Coq.Strings.String.StringSyntax.
Set Implicit Arguments.
Open Scope Z_scope.

Definition space_char (c : char) : Prop := (9 <= c <= 13 \/ 28 <= c <= 32)%N.   (* ASCII white space *)
Definition digit_char (c : char) : Prop := (48 <= c <= 57)%N.                   (* 0 .. 9 *)
Definition spaces (w : pstr) : Prop := Forall space_char w.
Definition digits (d : pstr) : Prop := Forall digit_char d.

(** the number written by the digits [d] *)
Fixpoint worth (d : pstr) : Z :=
  match d with
  | [] => 0
  | c :: r => (Z.of_N c - 48) * 10 ^ Z.of_nat (length r) + worth r
  end.

(** [grouped t d]: [t] is the digits [d], at least one, with at most one underscore between two of them *)
Inductive grouped : pstr -> pstr -> Prop :=
| grouped_last c : digit_char c -> grouped [c] [c]
| grouped_next c t d : digit_char c -> grouped t d -> grouped (c :: t) (c :: d)
| grouped_under c t d : digit_char c -> grouped t d -> grouped (c :: 95%N :: t) (c :: d).

(** the texts of whole numbers: spaces, a sign, digits, spaces *)
Definition number (t : pstr) (z : Z) : Prop :=
  exists w sign g d w', t = w ++ sign ++ g ++ w' /\ spaces w /\ spaces w' /\ grouped g d
    /\ (sign = [] /\ z = worth d \/ sign = s "+" /\ z = worth d \/ sign = s "-" /\ z = - worth d).

(** the texts beginning with two bounds between braces, either of which may be absent: [{a,b}], and
    without a comma [{a b}], [{a}] *)
Definition bounds (t a b : pstr) : Prop :=
  exists w1 w2 comma w3 w4 rest,
    t = s "{" ++ w1 ++ a ++ w2 ++ comma ++ w3 ++ b ++ w4 ++ s "}" ++ rest
    /\ spaces w1 /\ spaces w2 /\ spaces w3 /\ spaces w4 /\ digits a /\ digits b
    /\ (comma = s "," \/ comma = [] /\ (a = [] -> b = []) /\ (w2 ++ w3 = [] -> b = [])).
