(** Model of Date, src/lightspeed/base/datetime.{h,cpp}.
    [integer] and [natural] are 64 bit.  Signed sums and products are exact here; the
    theorems bound the year so that nothing overflows.  Mixed signed/unsigned
    arithmetic wraps as in C++. *)
From Coq Require Import ZArith.
From Verif Require Import Common.
Local Open Scope Z_scope.

Definition wrap64 (z : Z) : Z := (z + 2 ^ 63) mod 2 ^ 64 - 2 ^ 63.

(** datetime.cpp:11-15 *)
Definition daysPerMonth (leap : bool) : list Z :=
  if leap then [31;29;31;30;31;30;31;31;30;31;30;31]
  else [31;28;31;30;31;30;31;31;30;31;30;31].

(** reading the table; an index outside 0..11 is undefined behaviour *)
Definition dpm (leap : bool) (month : Z) : outcome Z :=
  if month <? 0 then Undef
  else match nth_error (daysPerMonth leap) (Z.to_nat month) with Some d => Ok d | None => Undef end.

(** datetime.cpp:17-19; [val / d] mixes integer and natural, so it is an unsigned division *)
Definition intDiv (val d : Z) : Z := wrap64 ((val mod 2 ^ 64) / d - (if val <? 0 then 1 else 0)).
(** datetime.cpp:25-27 and 21-23 *)
Definition intModW (val d q : Z) : Z := wrap64 (val - q * d).
Definition intMod (val d : Z) : Z := intModW val d (intDiv val d).

(** datetime.cpp:29-35 *)
Definition daysToYear (year : Z) : Z :=
  year * 365 + intDiv (year + 3) 4 - intDiv (year + 99) 100 + intDiv (year + 399) 400.

(** datetime.cpp:37-40 *)
Definition isLeapYear (year : Z) : bool :=
  ((intMod year 4 =? 0) && negb (intMod year 100 =? 0)) || (intMod year 400 =? 0).

(** datetime.cpp:53-112: the loop that adjusts year, month (0..11) and day *)
Fixpoint adjust (fuel : nat) (year month day : Z) : outcome (Z * Z * Z) :=
  match fuel with
  | O => NoFuel
  | S f =>
      let myears := intDiv month 12 in
      let year := year + myears in
      let month := intModW month 12 myears in
      let leap := isLeapYear year in
      let yearDays := 365 + (if leap then 1 else 0) in
      if yearDays <? day then adjust f (year + 1) month (day - yearDays)
      else if day <? 1 - yearDays then adjust f (year - 1) month (day + yearDays)
      else
        let! md := dpm leap month in
        if md <? day then adjust f year (month + 1) (day - md)
        else if day <? 1 then
          let! md' := dpm leap (intMod (month - 1) 12) in
          adjust f year (month - 1) (day + md')
        else Ok (year, month, day)
  end.

(** datetime.cpp:119-120: sum of the months before *)
Definition monthSum (leap : bool) (month : Z) : Z :=
  fold_right Z.add 0 (firstn (Z.to_nat month) (daysPerMonth leap)).

(** datetime.cpp:42-125 *)
Definition dayNumber (fuel : nat) (year month day : Z) : outcome Z :=
  let '(year, month) := if month =? 0 then (year - 1, month + 12) else (year, month) in
  let month := month - 1 in
  let! (year, month, day) := adjust fuel year month day in
  Ok (daysToYear year + monthSum (isLeapYear year) month + (day - 1)).

(** datetime.h:19-37 *)
Record parts := mkParts { p_year : Z; p_month : Z; p_day : Z }.
Record partsEx := mkPartsEx { pe_parts : parts; pe_dow : Z; pe_doy : Z }.
(** datetime.h:32-34: the constructor hands [Parts(day,month,year)] on *)
Definition newPartsEx (year month day dow doy : Z) : partsEx :=
  mkPartsEx (mkParts day month year) dow doy.

(** datetime.cpp:133-138 *)
Fixpoint yearBack (fuel : nat) (dayNr year : Z) : outcome Z :=
  if dayNr <? daysToYear year then
    match fuel with O => NoFuel | S f => yearBack f dayNr (year - 1) end
  else Ok year.

(** datetime.cpp:148-151 *)
Fixpoint monthLoop (fuel : nat) (leap : bool) (day month : Z) : outcome (Z * Z) :=
  let! md := dpm leap month in
  if md <? day then
    match fuel with O => NoFuel | S f => monthLoop f leap (day - md) (month + 1) end
  else Ok (day, month).

(** datetime.cpp:127-158 *)
Definition dateFromDayNumber (fuel : nat) (dayNr : Z) : outcome partsEx :=
  let! year := yearBack fuel dayNr (intDiv dayNr 365) in
  let dayOfYear := dayNr - daysToYear year in
  let! (day, month) := monthLoop 12 (isLeapYear year) dayOfYear 0 in
  Ok (newPartsEx year (month + 1) (day + 1) (intMod dayNr 7) (dayOfYear + 1)).

(** datetime.cpp:249-256 *)
Definition unixTimeToDays (t : Z) : Z := wrap64 ((t mod 2 ^ 64) / 86400).
Definition daysToUnixTime (d : Z) : Z := wrap64 (((d mod 2 ^ 64) * 86400) mod 2 ^ 64).
