(** C44, C45, C51, C52: calendar dates. *)
From Coq Require Import ZArith Lia.
From Verif Require Import Common Date_Model Date_Spec Date_Proof.
Local Open Scope Z_scope.

(** C44: for a valid date, [dayNumber] is the number of steps to the next day it takes to
    come from 1 January of year 0 to that date.  Every valid date is reached. *)
Theorem C44_day_number : forall d fuel, valid d -> 0 <= year d -> year d + 30 <= 10 ^ 15 ->
  exists n : nat, date_after n = d
    /\ dayNumber (14 + fuel) (year d) (month d) (day d) = Ok (Z.of_nat n).
Proof.
  intros d fuel V Y B. exists (Z.to_nat (dn d)). split; [apply date_after_surj; auto|].
  rewrite Z2Nat.id by (apply dn_nonneg; auto). apply dayNumber_valid; auto.
Qed.
Print Assumptions C44_day_number.

(** consecutive dates have consecutive numbers *)
Theorem C44_consecutive : forall d fuel, valid d -> 0 <= year d -> year d + 31 <= 10 ^ 15 ->
  exists a, dayNumber (14 + fuel) (year d) (month d) (day d) = Ok a
    /\ dayNumber (14 + fuel) (year (next_day d)) (month (next_day d)) (day (next_day d)) = Ok (a + 1).
Proof.
  intros d fuel V Y B. destruct (dn_next d V Y) as (D & V' & Y'). exists (dn d).
  change (10 ^ 15) with ybound in B.
  rewrite dayNumber_valid by (auto; lia). split; [reflexivity|].
  rewrite dayNumber_valid by (auto; lia). rewrite D. reflexivity.
Qed.
Print Assumptions C44_consecutive.

Example c44_demo : valid (mkDate 2024 2 29) /\ dayNumber 14 2024 2 29 = Ok 739310
  /\ next_day (mkDate 2024 2 29) = mkDate 2024 3 1 /\ dayNumber 14 1970 1 1 = Ok 719528.
Proof. split; [unfold valid; cbn; lia|]. vm_compute. auto. Qed.

(** C45 is false for every date: the record handed back has day and year swapped, so
    from year 32 on it never holds a valid date. *)
Theorem C45_date_of_number_refuted : forall n fuel,
  0 <= n <= 10 ^ 15 -> (Z.to_nat (n / 365) <= fuel)%nat -> 32 <= year (date_after (Z.to_nat n)) ->
  exists p, dateFromDayNumber fuel n = Ok p
    /\ ~ valid (mkDate (p_year (pe_parts p)) (p_month (pe_parts p)) (p_day (pe_parts p))).
Proof.
  intros n fuel Hn Hf H. eexists. split; [apply fromDayNumber; auto|].
  cbn [pe_parts p_year p_month p_day]. intros [_ V]. cbn [year month day] in V.
  match type of V with context [month_length ?a ?b] => pose proof (month_length_bounds a b) end. lia.
Qed.
Print Assumptions C45_date_of_number_refuted.

(** Reading the fields the other way round is not enough: the first of every month but
    January is reported as the day after the last one of the month before. *)
Theorem C45_first_of_month_refuted : forall n fuel,
  0 <= n <= 10 ^ 15 -> (Z.to_nat (n / 365) <= fuel)%nat ->
  let d := date_after (Z.to_nat n) in
  day d = 1 -> month d <> 1 ->
  exists p, dateFromDayNumber fuel n = Ok p
    /\ pe_parts p = mkParts (month_length (year d) (month d - 1) + 1) (month d - 1) (year d).
Proof.
  intros n fuel Hn Hf d D M.
  eexists. split; [apply fromDayNumber; auto|]. fold d.
  unfold month_day. rewrite D. destruct (Z.eqb_spec (month d) 1); [lia|]. reflexivity.
Qed.
Print Assumptions C45_first_of_month_refuted.

(** What does hold: the field [day] is the year, the day of the year is right, and on all
    days but those firsts the field [month] is the month and [year] is the day. *)
Theorem C45_date_of_number_partial : forall n fuel,
  0 <= n <= 10 ^ 15 -> (Z.to_nat (n / 365) <= fuel)%nat ->
  let d := date_after (Z.to_nat n) in
  exists p, dateFromDayNumber fuel n = Ok p
    /\ p_day (pe_parts p) = year d
    /\ date_after (Z.to_nat (n - (pe_doy p - 1))) = mkDate (year d) 1 1
    /\ (day d <> 1 \/ month d = 1 -> p_month (pe_parts p) = month d /\ p_year (pe_parts p) = day d).
Proof.
  intros n fuel Hn Hf d. eexists. split; [apply fromDayNumber; auto|]. fold d.
  cbn [pe_parts p_year p_month p_day pe_doy]. split; [reflexivity|]. split.
  - replace (n - (n - dn (mkDate (year d) 1 1) + 1 - 1)) with (dn (mkDate (year d) 1 1)) by lia.
    destruct (date_after_ok (Z.to_nat n)) as (_ & Y & _). fold d in Y.
    apply date_after_surj; [|cbn; lia]. unfold valid; cbn; lia.
  - intros H. unfold month_day.
    destruct (Z.eqb_spec (day d) 1); destruct (Z.eqb_spec (month d) 1); cbn [andb negb fst snd]; auto; lia.
Qed.
Print Assumptions C45_date_of_number_partial.

Example c45_demo : date_after (Z.to_nat 31) = mkDate 0 2 1 /\ (exists p, dateFromDayNumber 2000 719528 = Ok p /\ pe_parts p = mkParts 1 1 1970)
  /\ (exists p, dateFromDayNumber 2000 (719528 + 31) = Ok p /\ pe_parts p = mkParts 32 1 1970)
  /\ (exists p, dateFromDayNumber 2000 (719528 + 32) = Ok p /\ pe_parts p = mkParts 2 2 1970).
Proof.
  split; [vm_compute; reflexivity|]. repeat split; eexists; (split; [vm_compute; reflexivity|reflexivity]).
Qed.

(** C51: month and day out of range are adjusted: day [k] of month [m] is the date [k-1]
    days after the first of that month, months past December being months of the years
    that follow. *)
Definition adjusts (y m k : Z) : Prop :=
  exists n r, date_after n = mkDate (y + (m - 1) / 12) ((m - 1) mod 12 + 1) 1
    /\ dayNumber 1000 y m k = Ok r /\ r = Z.of_nat n + (k - 1).

Theorem C51_adjust_refuted :
  (* day 366 of March 2019 *) ~ adjusts 2019 3 366
  (* day 0 of January 2020: the table is read outside its bounds *)
  /\ dayNumber 1000 2020 1 0 = Undef.
Proof.
  split; [|vm_compute; reflexivity]. intros (n & r & D & E & H).
  destruct (date_after_ok n) as (_ & _ & N). rewrite D in N.
  assert (E' : dayNumber 1000 2019 3 366 = Ok 737850) by (vm_compute; reflexivity).
  rewrite E' in E. injection E as <-.
  match type of N with ?l = _ => let v := eval vm_compute in l in change l with v in N end. lia.
Qed.
Print Assumptions C51_adjust_refuted.

Theorem C51_adjust_partial : forall y m k,
  0 <= y -> 1 <= m -> y + m + 15 <= 10 ^ 15 -> 1 <= k <= 365 -> adjusts y m k.
Proof.
  intros y m k Hy Hm B Hk. set (d := mkDate (y + (m - 1) / 12) ((m - 1) mod 12 + 1) 1).
  assert (V : valid d).
  { unfold valid, d. cbn [year month day]. pose proof (month_length_bounds (y + (m - 1) / 12) ((m - 1) mod 12 + 1)).
    pose proof (Z.mod_pos_bound (m - 1) 12). lia. }
  assert (Y : 0 <= year d) by (cbn; pose proof (Z.div_pos (m - 1) 12); lia).
  exists (Z.to_nat (dn d)), (dn d + (k - 1)). split; [apply date_after_surj; auto|].
  split; [|rewrite Z2Nat.id by (apply dn_nonneg; auto); reflexivity].
  change 1000%nat with (14 + 986)%nat. apply adjusted; auto.
Qed.
Print Assumptions C51_adjust_partial.

Example c51_demo : dayNumber 1000 2020 14 31 = dayNumber 1000 2021 3 3.
Proof. vm_compute. reflexivity. Qed.

(** C52 is false: a Unix time is turned into days since 1970 and these are used as days
    since year 0.  The start of Unix time (a Thursday in 1970) becomes a day of year 0. *)
Theorem C52_unix_refuted : forall t n, 0 <= t < 2 ^ 63 -> date_after n = mkDate 1970 1 1 ->
  unixTimeToDays t <> Z.of_nat n + t / 86400.
Proof.
  intros t n H D. destruct (unix_days t) as [E _]; [lia|]. rewrite E.
  destruct (date_after_ok n) as (_ & _ & N). rewrite D in N. change (dn (mkDate 1970 1 1)) with 719528 in N. lia.
Qed.
Print Assumptions C52_unix_refuted.

(** What does hold: going to days and back gives the start of the day. *)
Theorem C52_unix_partial : forall t, 0 <= t < 2 ^ 63 ->
  daysToUnixTime (unixTimeToDays t) = t - t mod 86400.
Proof. intros t H. apply unix_days. exact H. Qed.
Print Assumptions C52_unix_partial.

Example c52_demo : daysToUnixTime (unixTimeToDays 1700000000) = 1699920000 /\ unixTimeToDays 1700000000 = 19675.
Proof. vm_compute. auto. Qed.
