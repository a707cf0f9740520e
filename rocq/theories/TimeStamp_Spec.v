(** Points of time, independent of the code: milliseconds since 1 January 1970, the calendar
    of Date_Spec, and the two functions of the C library between them. *)
From Coq Require Import ZArith String Ascii.
From Verif Require Import Common Date_Spec.
Local Open Scope Z_scope.

(** struct tm of the C library, the fields that are used here *)
Record tm := mkTm { tm_year : Z; tm_mon : Z; tm_mday : Z; tm_hour : Z; tm_min : Z; tm_sec : Z; tm_wday : Z }.

(** [e] is the day number of 1 January 1970 *)
Definition epoch (e : nat) : Prop := date_after e = mkDate 1970 1 1.

(** timegm gives the seconds of a valid date and time of day *)
Definition timegm_ok (timegm : tm -> Z) : Prop :=
  forall e n h m s wd, epoch e -> 0 <= h < 24 -> 0 <= m < 60 -> 0 <= s < 60 ->
    let d := date_after n in
    timegm (mkTm (year d - 1900) (month d - 1) (day d) h m s wd)
    = (Z.of_nat n - Z.of_nat e) * 86400 + h * 3600 + m * 60 + s.

(** gmtime gives the date, the time of day and the weekday (1 January 1970 was a Thursday) *)
Definition gmtime_ok (gmtime : Z -> tm) : Prop :=
  forall e n h m s, epoch e -> 0 <= h < 24 -> 0 <= m < 60 -> 0 <= s < 60 ->
    let d := date_after n in
    gmtime ((Z.of_nat n - Z.of_nat e) * 86400 + h * 3600 + m * 60 + s)
    = mkTm (year d - 1900) (month d - 1) (day d) h m s ((Z.of_nat n - Z.of_nat e + 4) mod 7).

(** texts *)
Definition codes (s : string) : list N := map N_of_ascii (list_ascii_of_string s).
Definition two (z : Z) : list N := [Z.to_N (48 + z / 10); Z.to_N (48 + z mod 10)].
Definition four (z : Z) : list N := two (z / 100) ++ two (z mod 100).
Definition clock (h m s : Z) : list N := two h ++ codes ":" ++ two m ++ codes ":" ++ two s.
Definition ymd (d : date) : list N := four (year d) ++ codes "-" ++ two (month d) ++ codes "-" ++ two (day d).

Definition weekday_name (w : Z) : list N :=
  codes (nth (Z.to_nat w) ["Sun"; "Mon"; "Tue"; "Wed"; "Thu"; "Fri"; "Sat"] "")%string.
Definition month_name (m : Z) : list N :=
  codes (nth (Z.to_nat (m - 1))
    ["Jan"; "Feb"; "Mar"; "Apr"; "May"; "Jun"; "Jul"; "Aug"; "Sep"; "Oct"; "Nov"; "Dec"] "")%string.

Definition db_text (d : date) (h m s : Z) : list N := ymd d ++ codes " " ++ clock h m s.
Definition iso_text (d : date) (h m s : Z) : list N := ymd d ++ codes "T" ++ clock h m s ++ codes "Z".
Definition rfc1123_text (d : date) (w h m s : Z) : list N :=
  weekday_name w ++ codes ", " ++ two (day d) ++ codes " " ++ month_name (month d) ++ codes " "
  ++ four (year d) ++ codes " " ++ clock h m s ++ codes " GMT".
