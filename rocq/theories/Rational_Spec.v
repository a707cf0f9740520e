(** What a rational stands for: the fraction of the standard library. *)
From Coq Require Import ZArith QArith.
From Verif Require Import Common Rational_Model.

Definition ratQ (r : rational) : Q := Qmake (num r) (Z.to_pos (den r)).

(** a value of the class: 64 bit fields, positive denominator *)
Definition is_rat (r : rational) : Prop := (- 2 ^ 63 < num r < 2 ^ 63)%Z /\ (0 < den r < 2 ^ 64)%Z.

Definition lowest_terms (r : rational) : Prop := Z.gcd (num r) (den r) = 1%Z.
