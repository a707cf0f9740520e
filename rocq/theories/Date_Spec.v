(** The proleptic Gregorian calendar, independent of the code: dates are counted by
    going to the next day from 1 January of year 0. *)
From Coq Require Import ZArith.
From Verif Require Import Common.
Local Open Scope Z_scope.

Record date := mkDate { year : Z; month : Z; day : Z }.

Definition leap (y : Z) : bool := (y mod 4 =? 0) && (negb (y mod 100 =? 0) || (y mod 400 =? 0)).

Definition month_length (y m : Z) : Z :=
  if m =? 2 then (if leap y then 29 else 28)
  else if (m =? 4) || (m =? 6) || (m =? 9) || (m =? 11) then 30 else 31.

Definition valid (d : date) : Prop := 1 <= month d <= 12 /\ 1 <= day d <= month_length (year d) (month d).

Definition next_day (d : date) : date :=
  if day d <? month_length (year d) (month d) then mkDate (year d) (month d) (day d + 1)
  else if month d <? 12 then mkDate (year d) (month d + 1) 1
  else mkDate (year d + 1) 1 1.

(** the date [n] days after 1 January of year 0 *)
Fixpoint date_after (n : nat) : date :=
  match n with O => mkDate 0 1 1 | S n => next_day (date_after n) end.
