(** Positional numerals, independent of the code. *)
From Coq Require Import ZArith.
From Verif Require Import Common.
Local Open Scope Z_scope.

(** the character [c] stands for the digit [d]: 0-9, then letters of either case *)
Inductive digit : Z -> Z -> Prop :=
| digit_num d : 0 <= d <= 9 -> digit (48 + d) d
| digit_upper d : 10 <= d <= 35 -> digit (65 + (d - 10)) d
| digit_lower d : 10 <= d <= 35 -> digit (97 + (d - 10)) d.

(** the text [s] is a numeral of [v] in base [b] *)
Inductive numeral (b : Z) : list Z -> Z -> Prop :=
| numeral_one c d : digit c d -> d < b -> numeral b [c] d
| numeral_more s v c d : numeral b s v -> digit c d -> d < b -> numeral b (s ++ [c]) (v * b + d).

(** no superfluous zero in front *)
Definition no_leading_zero (s : list Z) : Prop := match s with c :: _ :: _ => c <> 48 | _ => True end.

(** the text goes on with something that is not a digit of the base *)
Definition no_digit (b : Z) (rest : list Z) : Prop :=
  match rest with [] => True | c :: _ => forall d, digit c d -> b <= d end.
