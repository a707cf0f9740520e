(** Texts of points of time that a program may read, independent of the code.  The parts
    are those of TimeStamp_Spec; a text is a list of character codes. *)
From Coq Require Import ZArith String Ascii.
From Verif Require Import Common Date_Spec TimeStamp_Spec.
Local Open Scope Z_scope.

Definition chars (t : list N) : list Z := map Z.of_N t.
(** milliseconds between midnight of day [e] and the time h:m:s of day [n] *)
Definition instant (e n : nat) (h m s : Z) : Z :=
  (Z.of_nat n - Z.of_nat e) * 86400000 + h * 3600000 + m * 60000 + s * 1000.
(** a time without a zone, as in 2016-02-29T12:30:00 *)
Definition local_text (d : date) (h m s : Z) : list N := ymd d ++ codes "T" ++ clock h m s.
(** a zone, as in 01:30 and 0130 *)
Definition zone_text (zh zm : Z) : list N := two zh ++ codes ":" ++ two zm.
Definition zone_basic (zh zm : Z) : list N := two zh ++ two zm.
(** the basic forms without separators, as in 20160229, 1230 and 123000 *)
Definition ymd_basic (d : date) : list N := four (year d) ++ two (month d) ++ two (day d).
Definition minutes_basic (h m : Z) : list N := two h ++ two m.
Definition clock_basic (h m s : Z) : list N := two h ++ two m ++ two s.
(** spaces and tabs *)
Definition spaces (t : list Z) : Prop := Forall (fun c => c = 32 \/ c = 9) t.
(** a time of day *)
Definition time_of_day (h m s : Z) : Prop := 0 <= h < 24 /\ 0 <= m < 60 /\ 0 <= s < 60.
(** the day is a Monday (1 January 1970 was a Thursday) *)
Definition monday (e n : nat) : Prop := (Z.of_nat n - Z.of_nat e + 3) mod 7 = 0.
