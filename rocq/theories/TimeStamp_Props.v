(** Properties of TimeStamp. *)
From Coq Require Import ZArith String.
From Verif Require Import Common TimeStamp_Spec TimeStamp_Model TimeStamp_Proof.
From Verif Require Date_Spec Date_Proof.
Local Open Scope Z_scope.

(** C210: every way to make a time stamp gives a day of 32 bits and a time within the day,
    and the relational operators compare points of time. *)
Theorem stamp_order : forall a b, stamp_ok a -> stamp_ok b ->
  op_lt a b = (millis a <? millis b) /\ op_le a b = (millis a <=? millis b)
  /\ op_gt a b = (millis b <? millis a) /\ op_ge a b = (millis b <=? millis a)
  /\ op_eq a b = (millis a =? millis b) /\ op_ne a b = negb (millis a =? millis b)
  /\ (op_eq a b = true <-> a = b) /\ isNull a = (millis a =? 0).
Proof.
  intros a b A B. unfold op_lt, op_le, op_gt, op_ge, op_eq, op_ne. rewrite compare_ok by assumption.
  assert (I : a = b <-> millis a = millis b).
  { split; [now intros ->|]. apply millis_inj; assumption. }
  rewrite I. repeat split; try (intros; discriminate).
  all: try solve [destruct (Z.compare_spec (millis a) (millis b)); try reflexivity; try lia; try discriminate].
  unfold isNull. destruct A as [A1 A2]. unfold millis.
  destruct (Z.eqb_spec (day a) 0), (Z.eqb_spec (time a) 0), (Z.eqb_spec (day a * 86400000 + time a) 0); try reflexivity; lia.
Qed.
Print Assumptions stamp_order.

Theorem stamp_made : forall d t, 0 <= t -> stamp_ok (ts d t) /\ stamp_ok (ts_day d) /\ stamp_ok ts_new
  /\ (- 2 ^ 31 <= d + t / 86400000 < 2 ^ 31 -> millis (ts d t) = d * 86400000 + t)
  /\ (- 2 ^ 31 <= d < 2 ^ 31 -> millis (ts_day d) = d * 86400000) /\ millis ts_new = 0.
Proof.
  intros d t H. split; [apply ts_ok; assumption|]. split.
  { unfold ts_day, stamp_ok. cbn [day time]. pose proof (s32_range d). lia. }
  split; [unfold stamp_ok; cbn; lia|]. split; [apply ts_millis; assumption|]. split; [|reflexivity].
  intros B. unfold ts_day, millis. cbn [day time]. rewrite s32_id by lia. lia.
Qed.
Print Assumptions stamp_made.

Example order_case : op_lt (ts (-1) 86399999) (ts 0 0) = true /\ op_le (ts 5 100) (ts 5 99) = false.
Proof. split; reflexivity. Qed.

(** C211: sums and differences are those of the milliseconds, and undo each other. *)
Theorem stamp_arith : forall a b, stamp_ok a -> stamp_ok b ->
  (- 2 ^ 31 <= day a + day b < 2 ^ 31 - 1 ->
     exists c, op_add a b = Ok c /\ stamp_ok c /\ millis c = millis a + millis b
       /\ (- 2 ^ 31 < day a < 2 ^ 31 - 1 -> op_sub c b = Ok a))
  /\ (- 2 ^ 31 < day a - day b < 2 ^ 31 ->
     exists c, op_sub a b = Ok c /\ stamp_ok c /\ millis c = millis a - millis b
       /\ (- 2 ^ 31 < day a < 2 ^ 31 - 1 -> op_add b c = Ok a)).
Proof.
  intros a b A B. pose proof (millis_day a A) as [D1 D2]. pose proof (millis_day b B) as [D3 D4].
  split; intros R.
  - destruct (add_ok a b A B R) as (c & E & C & M). exists c. repeat split; try assumption; try apply C.
    intros L. destruct (sub_ok c b C B) as (r & E2 & R2 & M2).
    { destruct A as [A1 A2], B as [B1 B2], C as [C1 C2]. unfold millis in M. lia. }
    rewrite E2. f_equal. apply millis_inj; auto. lia.
  - destruct (sub_ok a b A B R) as (c & E & C & M). exists c. repeat split; try assumption; try apply C.
    intros L. destruct (add_ok b c B C) as (r & E2 & R2 & M2).
    { destruct A as [A1 A2], B as [B1 B2], C as [C1 C2]. unfold millis in M. lia. }
    rewrite E2. f_equal. apply millis_inj; auto. lia.
Qed.
Print Assumptions stamp_arith.

Example arith_case :
  op_add (ts 3 80000000) (ts 4 10000000) = Ok (ts 8 3600000) /\ op_sub (ts 3 5) (ts 4 6) = Ok (ts (-2) 86399999).
Proof. split; reflexivity. Qed.

(** C212: unix time from 1970 on, and back from any time stamp. *)
Theorem stamp_unix : forall t ms, 0 <= t -> 0 <= ms < 2 ^ 32 -> t / 86400 + ms / 86400000 < 2 ^ 31 - 1 ->
  millis (fromUnixMs t ms) = 1000 * t + ms /\ millis (fromUnix t) = 1000 * t
  /\ millis (fromSeconds t) = 1000 * t /\ asUnix (fromUnix t) = t
  /\ (ms < 1000 -> asUnix (fromUnixMs t ms) = t /\ getMS (fromUnixMs t ms) = ms)
  /\ (forall a, stamp_ok a -> asUnix a = millis a / 1000).
Proof.
  intros t ms H M B. pose proof (Z.div_pos ms 86400000).
  destruct (fromUnixMs_ok t ms H M B) as [O E].
  destruct (fromUnixMs_ok t 0 H ltac:(lia)) as [O0 E0]; [rewrite Z.div_0_l by lia; lia|].
  pose proof (Z.div_mod t 86400). pose proof (Z.mod_pos_bound t 86400).
  rewrite fromSeconds_ms by lia. rewrite fromUnix_ms.
  split; [assumption|]. split; [lia|]. split; [lia|]. split.
  { rewrite asUnix_ok, E0 by assumption. symmetry. apply Z.div_unique with 0; [left; lia|lia]. }
  split; [|apply asUnix_ok]. intros L. rewrite asUnix_ok, E by assumption. split.
  - symmetry. apply Z.div_unique with ms; [left; lia|lia].
  - unfold getMS, timeResolution. pose proof (millis_day _ O) as [_ Q]. rewrite Q, E.
    assert (X : 1000 * t + ms = ms + t * 1000) by lia. rewrite X.
    symmetry. apply Z.mod_unique with (t mod 86400); [left; lia|].
    symmetry. apply Z.mod_unique with (t / 86400); [left; lia|lia].
Qed.
Print Assumptions stamp_unix.

(** C213: seconds before 1970 never survive. *)
Theorem stamp_unix_refuted : forall t, - 2 ^ 63 <= t < 0 ->
  asUnix (fromUnix t) <> t /\ millis (fromUnix t) <> 1000 * t.
Proof.
  intros t H. destruct (unix_neg t H) as [O N]. unfold fromUnix, timeResolution.
  split; [rewrite asUnix_ok; assumption|]. intros E. rewrite E in N. apply N.
  symmetry. apply Z.div_unique with 0; [left; lia|lia].
Qed.
Print Assumptions stamp_unix_refuted.

Example unix_case : fromUnix 1000000000 = ts 11574 6400000 /\ asUnix (fromUnix (-1)) = 100055558127615.
Proof. split; vm_compute; reflexivity. Qed.

(** C214: intervals and their length in each unit. *)
Theorem stamp_interval : forall n, 0 <= n ->
  (n / 86400000 < 2 ^ 31 -> millis (intervalMSec n) = n /\ getMilis (intervalMSec n) = n)
  /\ (n / 86400 < 2 ^ 31 -> millis (intervalSec n) = n * 1000 /\ getSecs (intervalSec n) = n)
  /\ (n / 24 < 2 ^ 31 -> millis (intervalHour n) = n * 3600000 /\ getHours (intervalHour n) = n)
  /\ (n < 2 ^ 31 -> millis (intervalDay n) = n * 86400000 /\ getDay (intervalDay n) = n)
  /\ (forall a, stamp_ok a -> 0 <= day a -> getMilis a = millis a /\ getSecs a = millis a / 1000
        /\ getMins a = millis a / 60000 /\ getHours a = millis a / 3600000).
Proof.
  intros n H.
  assert (G : forall a, stamp_ok a -> 0 <= day a -> getMilis a = millis a /\ getSecs a = millis a / 1000
        /\ getMins a = millis a / 60000 /\ getHours a = millis a / 3600000).
  { intros a A D. repeat split.
    - pose proof (get_div a 1 A D ltac:(lia) ltac:(exists 86400000; lia)) as Q. rewrite !Z.div_1_r in Q. exact Q.
    - apply (get_div a 1000 A D ltac:(lia)). exists 86400. lia.
    - apply (get_div a 60000 A D ltac:(lia)). exists 1440. lia.
    - apply (get_div a 3600000 A D ltac:(lia)). exists 24. lia. }
  assert (K : forall d t, 0 <= d < 2 ^ 31 -> 0 <= t < 86400000 ->
    stamp_ok (ts d t) /\ 0 <= day (ts d t) /\ millis (ts d t) = d * 86400000 + t).
  { intros d t D T. assert (Q : t / 86400000 = 0) by (apply Z.div_small; lia).
    split; [apply ts_ok; lia|]. split.
    - unfold ts. cbn [day]. rewrite s32_u64, dayMillis_eq, Q, s32_id; lia.
    - apply ts_millis; lia. }
  repeat split; try (intros B); unfold intervalMSec, intervalSec, intervalHour, intervalDay, daySecs, timeResolution; rewrite ?dayMillis_eq.
  all: try apply G; auto.
  - pose proof (Z.div_pos n 86400000). rewrite s64_id by lia. pose proof (Z.mod_pos_bound n 86400000).
    destruct (K (n / 86400000) (n mod 86400000)) as (_ & _ & E); [lia|lia|]. rewrite E. pose proof (Z.div_mod n 86400000). lia.
  - pose proof (Z.div_pos n 86400000). rewrite s64_id by lia. pose proof (Z.mod_pos_bound n 86400000).
    destruct (K (n / 86400000) (n mod 86400000)) as (A & D & E); [lia|lia|].
    destruct (G _ A D) as (G1 & _). rewrite G1, E. pose proof (Z.div_mod n 86400000). lia.
  - pose proof (Z.div_pos n 86400). rewrite s64_id by lia. pose proof (Z.mod_pos_bound n 86400).
    destruct (K (n / 86400) (n mod 86400 * 1000)) as (_ & _ & E); [lia|lia|]. rewrite E. pose proof (Z.div_mod n 86400). lia.
  - pose proof (Z.div_pos n 86400). rewrite s64_id by lia. pose proof (Z.mod_pos_bound n 86400).
    destruct (K (n / 86400) (n mod 86400 * 1000)) as (A & D & E); [lia|lia|].
    destruct (G _ A D) as (_ & G1 & _). rewrite G1, E. pose proof (Z.div_mod n 86400).
    symmetry. apply Z.div_unique with 0; [left; lia|lia].
  - pose proof (Z.div_pos n 24). rewrite s64_id by lia. pose proof (Z.mod_pos_bound n 24).
    destruct (K (n / 24) (n mod 24 * 1000 * 60 * 60)) as (_ & _ & E); [lia|lia|]. rewrite E. pose proof (Z.div_mod n 24). lia.
  - pose proof (Z.div_pos n 24). rewrite s64_id by lia. pose proof (Z.mod_pos_bound n 24).
    destruct (K (n / 24) (n mod 24 * 1000 * 60 * 60)) as (A & D & E); [lia|lia|].
    destruct (G _ A D) as (_ & _ & _ & G1). rewrite G1, E. pose proof (Z.div_mod n 24).
    symmetry. apply Z.div_unique with 0; [left; lia|lia].
  - rewrite s64_id by lia. destruct (K n 0) as (_ & _ & E); lia.
  - rewrite s64_id by lia. unfold getDay, ts. cbn [day]. rewrite s32_u64, Z.div_0_l, s32_id by (rewrite ?dayMillis_eq; lia). lia.
Qed.
Print Assumptions stamp_interval.

Example interval_case : intervalHour 50 = ts 2 7200000 /\ getMins (intervalHour 50) = 3000.
Proof. split; reflexivity. Qed.

(** C215: intervals of minutes. *)
Theorem stamp_minutes_refuted : forall n, 144 <= n -> n / 144 < 2 ^ 31 -> millis (intervalMin n) <> n * 60000.
Proof.
  intros n H B. unfold intervalMin, timeResolution. pose proof (Z.div_mod n 144). pose proof (Z.mod_pos_bound n 144).
  assert (1 <= n / 144) by (apply Z.div_le_lower_bound; lia).
  rewrite s64_id by lia. rewrite ts_millis; [lia|lia|]. rewrite (Z.div_small (n mod 144 * 1000 * 60)) by lia. lia.
Qed.
Print Assumptions stamp_minutes_refuted.
Theorem stamp_minutes_partial : forall n, 0 <= n < 144 -> millis (intervalMin n) = n * 60000.
Proof.
  intros n H. unfold intervalMin, timeResolution. rewrite Z.div_small, Z.mod_small by lia.
  change (s64 0) with 0. rewrite ts_millis; [lia|lia|]. rewrite Z.div_small by lia. lia.
Qed.
Print Assumptions stamp_minutes_partial.
Example minutes_case : millis (intervalMin 1440) = 864000000 /\ 1440 * 60000 = 86400000.
Proof. split; reflexivity. Qed.

(** C216: a Windows file time counts units of 100 ns since 1 January 1601. *)
Theorem stamp_windows : forall lo hi e n, 0 <= lo < 2 ^ 32 -> 0 <= hi < 2 ^ 32 ->
  epoch e -> Date_Spec.date_after n = Date_Spec.mkDate 1601 1 1 ->
  stamp_ok (fromWindows lo hi)
  /\ millis (fromWindows lo hi) + (Z.of_nat e - Z.of_nat n) * 86400000 = (hi * 2 ^ 32 + lo) / 10000.
Proof.
  intros lo hi e n L H E N. apply epoch_num in E.
  destruct (Date_Proof.date_after_ok n) as (_ & _ & Q). rewrite N in Q.
  change (Date_Proof.dn (Date_Spec.mkDate 1601 1 1)) with 584754 in Q.
  unfold fromWindows, daysFrom1601. rewrite dayMillis_eq, (u64_id (hi * 2 ^ 32)), (u64_id (hi * 2 ^ 32 + lo)) by lia.
  set (x := (hi * 2 ^ 32 + lo) / 10000).
  assert (X : 0 <= x <= 2 ^ 64 / 10000).
  { unfold x. split; [apply Z.div_pos; lia|]. apply Z.div_le_mono; lia. }
  change (2 ^ 64 / 10000) with 1844674407370955 in X.
  pose proof (Z.div_mod x 86400000). pose proof (Z.mod_pos_bound x 86400000).
  rewrite s64_u64 by lia. split; [apply ts_ok; lia|].
  rewrite ts_millis; [lia|lia|]. rewrite (Z.div_small (x mod 86400000)) by lia. lia.
Qed.
Print Assumptions stamp_windows.
Example windows_case : fromWindows 3577643008 27111902 = ts_new.
Proof. vm_compute. reflexivity. Qed.

(** C217: calendar dates from 1970 on, and offsets (year 0). *)
Theorem stamp_calendar : forall timegm e n h m s, timegm_ok timegm -> epoch e ->
  0 <= h < 24 -> 0 <= m < 60 -> 0 <= s < 60 ->
  let d := Date_Spec.date_after n in
  1970 <= Date_Spec.year d -> Z.of_nat n - Z.of_nat e < 2 ^ 31 - 1 ->
  exists a, fromYMDhms timegm (Date_Spec.year d) (Date_Spec.month d) (Date_Spec.day d) h m s = Ok a
    /\ stamp_ok a
    /\ millis a = (Z.of_nat n - Z.of_nat e) * 86400000 + h * 3600000 + m * 60000 + s * 1000.
Proof.
  intros timegm e n h m s T E Hh Hm Hs d Y B. pose proof (epoch_num e E) as EN.
  pose proof (year_of n) as (Y0 & YB & Y3). fold d in Y0, YB, Y3.
  unfold d. rewrite (fromYMDhms_eq timegm e n) by (auto; fold d; lia).
  assert (P : 719528 <= Z.of_nat n).
  { destruct (Z_le_gt_dec 719528 (Z.of_nat n)) as [|G]; [assumption|].
    pose proof (year_lt n 1970 ltac:(lia)) as Q. change (Date_Proof.ydays 1970) with 719528 in Q. fold d in Q. lia. }
  set (r := (Z.of_nat n - Z.of_nat e) * 86400 + h * 3600 + m * 60 + s).
  replace (r =? -1) with false by lia. eexists. split; [reflexivity|]. rewrite fromUnix_ms.
  assert (R : r / 86400 = Z.of_nat n - Z.of_nat e).
  { symmetry. apply Z.div_unique with (h * 3600 + m * 60 + s); [left; lia|lia]. }
  destruct (fromUnixMs_ok r 0) as [O M]; [lia|lia|rewrite R, Z.div_0_l by lia; lia|].
  split; [assumption|]. rewrite M. lia.
Qed.
Print Assumptions stamp_calendar.

Theorem stamp_offset : forall timegm M D h m s, 0 <= M < 2 ^ 20 -> 0 <= D < 2 ^ 30 ->
  0 <= h < 2 ^ 30 -> 0 <= m < 2 ^ 30 -> 0 <= s < 2 ^ 30 ->
  exists a, fromYMDhms timegm 0 M D h m s = Ok a
    /\ stamp_ok a /\ millis a = ((((M * 30 + D) * 24 + h) * 60 + m) * 60 + s) * 1000.
Proof.
  intros timegm M D h m s HM HD Hh Hm Hs. unfold fromYMDhms, daySecs. cbn [Z.eqb].
  rewrite (u64_id (h * 60)), (u64_id (h * 60 + m)), (u64_id ((h * 60 + m) * 60)), (u64_id ((h * 60 + m) * 60 + s)) by lia. set (x := (h * 60 + m) * 60 + s).
  pose proof (Z.div_mod x 86400). pose proof (Z.mod_pos_bound x 86400). assert (0 <= x < 2 ^ 43) by (unfold x; lia).
  assert (0 <= x / 86400 < 2 ^ 27) by lia.
  rewrite u64_id, s64_id by lia. eexists. split; [reflexivity|]. split; [apply ts_ok; lia|].
  rewrite ts_millis; [unfold x in *; lia|lia|]. rewrite (Z.div_small (x mod 86400 * 1000)) by lia. lia.
Qed.
Print Assumptions stamp_offset.

(** C218: dates before 1970 throw or come out wrong. *)
Theorem stamp_calendar_refuted : forall timegm e n h m s, timegm_ok timegm -> epoch e ->
  0 <= h < 24 -> 0 <= m < 60 -> 0 <= s < 60 ->
  let d := Date_Spec.date_after n in
  1 <= Date_Spec.year d < 1970 ->
  forall a, fromYMDhms timegm (Date_Spec.year d) (Date_Spec.month d) (Date_Spec.day d) h m s = Ok a ->
    millis a <> (Z.of_nat n - Z.of_nat e) * 86400000 + h * 3600000 + m * 60000 + s * 1000.
Proof.
  intros timegm e n h m s T E Hh Hm Hs d Y a. pose proof (epoch_num e E) as EN.
  pose proof (year_of n) as (Y0 & YB & Y3). fold d in Y0, YB, Y3.
  unfold d. rewrite (fromYMDhms_eq timegm e n) by (auto; fold d; lia).
  assert (P : Z.of_nat n < 719528).
  { destruct (Z_lt_ge_dec (Z.of_nat n) 719528) as [|G]; [assumption|].
    pose proof (year_ge n 1970 ltac:(lia)) as Q. change (Date_Proof.ydays 1970) with 719528 in Q. fold d in Q. lia. }
  set (r := (Z.of_nat n - Z.of_nat e) * 86400 + h * 3600 + m * 60 + s).
  destruct (r =? -1); [discriminate|]. intros [= <-]. pose proof (stamp_unix_refuted r ltac:(lia)) as [_ Q]. lia.
Qed.
Print Assumptions stamp_calendar_refuted.

(** the last second before 1970 is taken for the error code of timegm *)
Theorem stamp_error_refuted : forall timegm, timegm_ok timegm -> fromYMDhms timegm 1969 12 31 23 59 59 = Throw.
Proof.
  intros timegm T. destruct epoch_ex as [e E]. pose proof (epoch_num e E) as EN.
  assert (D : Date_Spec.date_after (e - 1) = Date_Spec.mkDate 1969 12 31).
  { assert (X : Z.to_nat (Date_Proof.dn (Date_Spec.mkDate 1969 12 31)) = (e - 1)%nat).
    { change (Date_Proof.dn (Date_Spec.mkDate 1969 12 31)) with 719527. lia. }
    rewrite <- X. apply Date_Proof.date_after_surj; [unfold Date_Spec.valid; cbn; lia|cbn; lia]. }
  pose proof (fromYMDhms_eq timegm e (e - 1) 23 59 59 T E ltac:(lia) ltac:(lia) ltac:(lia)) as Q.
  rewrite D in Q. cbn [Date_Spec.year Date_Spec.month Date_Spec.day] in Q. cbn zeta in Q.
  rewrite Q by lia. replace ((Z.of_nat (e - 1) - Z.of_nat e) * 86400 + 23 * 3600 + 59 * 60 + 59 =? -1) with true by lia. reflexivity.
Qed.
Print Assumptions stamp_error_refuted.

(** both functions of the C library exist *)
Definition timegm_impl (t : tm) : Z :=
  (Date_Proof.dn (Date_Spec.mkDate (tm_year t + 1900) (tm_mon t + 1) (tm_mday t)) - 719528) * 86400
  + tm_hour t * 3600 + tm_min t * 60 + tm_sec t.
Definition gmtime_impl (u : Z) : tm :=
  let k := u / 86400 in let s := u mod 86400 in
  let d := Date_Spec.date_after (Z.to_nat (k + 719528)) in
  mkTm (Date_Spec.year d - 1900) (Date_Spec.month d - 1) (Date_Spec.day d) (s / 3600) (s / 60 mod 60) (s mod 60) ((k + 4) mod 7).
Example library_case : timegm_ok timegm_impl /\ gmtime_ok gmtime_impl
  /\ fromYMDhms timegm_impl 2016 2 29 12 30 0 = Ok (ts 16860 45000000).
Proof.
  split; [|split].
  - intros e n h m s wd E _ _ _ d. rewrite (epoch_num e E). unfold timegm_impl. cbn [tm_year tm_mon tm_mday tm_hour tm_min tm_sec].
    rewrite !Z.sub_add. destruct (Date_Proof.date_after_ok n) as (_ & _ & N). fold d in N.
    assert (X : Date_Spec.mkDate (Date_Spec.year d) (Date_Spec.month d) (Date_Spec.day d) = d) by (destruct d; reflexivity).
    rewrite X, N. lia.
  - intros e n h m s E Hh Hm Hs d. rewrite (epoch_num e E). unfold gmtime_impl.
    set (u := (Z.of_nat n - 719528) * 86400 + h * 3600 + m * 60 + s).
    assert (K : u / 86400 = Z.of_nat n - 719528).
    { symmetry. apply Z.div_unique with (h * 3600 + m * 60 + s); [left; lia|lia]. }
    assert (R : u mod 86400 = h * 3600 + m * 60 + s).
    { symmetry. apply Z.mod_unique with (Z.of_nat n - 719528); [left; lia|lia]. }
    rewrite K, R, Z.sub_add, Nat2Z.id. fold d. f_equal.
    + symmetry. apply Z.div_unique with (m * 60 + s); [left; lia|lia].
    + assert (X : (h * 3600 + m * 60 + s) / 60 = h * 60 + m) by (symmetry; apply Z.div_unique with s; [left; lia|lia]).
      rewrite X. symmetry. apply Z.mod_unique with h; [left; lia|lia].
    + symmetry. apply Z.mod_unique with (h * 60 + m); [left; lia|lia].
  - vm_compute. reflexivity.
Qed.

(** C219: the texts show the nearest second of the time stamp: its date, time of day and
    weekday. *)
Theorem stamp_text : forall gmtime e n h m s a, gmtime_ok gmtime -> epoch e -> stamp_ok a ->
  0 <= h < 24 -> 0 <= m < 60 -> 0 <= s < 60 ->
  (millis a + 500) / 1000 = (Z.of_nat n - Z.of_nat e) * 86400 + h * 3600 + m * 60 + s ->
  let d := Date_Spec.date_after n in
  Date_Spec.year d < 10000 ->
  asDBTime gmtime a = db_text d h m s
  /\ asISO8601Time gmtime a = iso_text d h m s
  /\ asRFC1123Time gmtime a = Ok (rfc1123_text d ((Z.of_nat n - Z.of_nat e + 4) mod 7) h m s).
Proof.
  intros gmtime e n h m s a G E A Hh Hm Hs R d Y.
  pose proof (year_of n) as (Y0 & _ & _). fold d in Y0. pose proof (day_of n) as [M D]. fold d in M, D.
  unfold asDBTime, asISO8601Time, asRFC1123Time.
  rewrite !(format_eq gmtime e n h m s _ _ a G E A Hh Hm Hs R). fold d.
  set (w := (Z.of_nat n - Z.of_nat e + 4) mod 7).
  assert (W : 0 <= w < 7) by (apply Z.mod_pos_bound; lia).
  rewrite db_fmt, iso_fmt, rfc_fmt by lia. split; [reflexivity|]. split; [reflexivity|].
  destruct (weekday_ok w W) as (W1 & W2 & W3). destruct (month_ok _ M) as (m1 & m2 & M1 & M2 & M3).
  rewrite M1. unfold charAt in W1. cbn [nth_error] in W1.
  match goal with |- context [(length ?t <? 30)%nat] => set (text := t) end.
  assert (L : (length text <? 30)%nat = true) by reflexivity. rewrite L.
  assert (C0 : charAt text 0 = Ok w) by exact W1. rewrite C0. cbn [obind]. rewrite W2. cbn [obind].
  destruct (weekday_name w) as [|w1 [|w2 [|w3 [|]]]] eqn:WN; try discriminate.
  assert (C8 : charAt (overlay text 0 [w1; w2; w3]) 8 = Ok (Z.of_N m1 - 48)) by reflexivity.
  assert (C9 : charAt (overlay text 0 [w1; w2; w3]) 9 = Ok (Z.of_N m2 - 48)) by reflexivity.
  rewrite C8, C9. cbn [obind]. rewrite M2. cbn [obind]. unfold rfc1123_text. rewrite WN.
  destruct (month_name (Date_Spec.month d)) as [|n1 [|n2 [|n3 [|]]]] eqn:MN; try discriminate.
  reflexivity.
Qed.
Print Assumptions stamp_text.

(** 29 February 2016, 12:29:59.700 *)
Example text_case : exists n e, epoch e /\ Date_Spec.date_after n = Date_Spec.mkDate 2016 2 29
  /\ (millis (ts 16860 44999700) + 500) / 1000 = (Z.of_nat n - Z.of_nat e) * 86400 + 12 * 3600 + 30 * 60 + 0
  /\ rfc1123_text (Date_Spec.date_after n) ((Z.of_nat n - Z.of_nat e + 4) mod 7) 12 30 0 = codes "Mon, 29 Feb 2016 12:30:00 GMT".
Proof.
  destruct epoch_ex as [e E]. pose proof (epoch_num e E) as EN.
  exists (Z.to_nat (Date_Proof.dn (Date_Spec.mkDate 2016 2 29))), e. split; [assumption|].
  assert (D : Date_Spec.date_after (Z.to_nat (Date_Proof.dn (Date_Spec.mkDate 2016 2 29))) = Date_Spec.mkDate 2016 2 29).
  { apply Date_Proof.date_after_surj; [unfold Date_Spec.valid; cbn; lia|cbn; lia]. }
  split; [exact D|]. rewrite D, EN. rewrite Z2Nat.id by (vm_compute; discriminate). split; vm_compute; reflexivity.
Qed.
