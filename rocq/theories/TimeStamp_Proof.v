(** Lemmas about the model of TimeStamp. *)
From Coq Require Import ZArith String.
From Verif Require Import Common TimeStamp_Spec TimeStamp_Model.
From Verif Require Date_Spec Date_Proof.
Local Open Scope Z_scope.

Definition stamp_ok (a : tstamp) : Prop := - 2 ^ 31 <= day a < 2 ^ 31 /\ 0 <= time a < 86400000.
Definition millis (a : tstamp) : Z := day a * 86400000 + time a.

Lemma dayMillis_eq : dayMillis = 86400000. Proof. reflexivity. Qed.

Lemma s32_id z : - 2 ^ 31 <= z < 2 ^ 31 -> s32 z = z.
Proof. intros H. unfold s32. rewrite Z.mod_small by lia. lia. Qed.
Lemma s64_id z : - 2 ^ 63 <= z < 2 ^ 63 -> s64 z = z.
Proof. intros H. unfold s64. rewrite Z.mod_small by lia. lia. Qed.
Lemma u32_id z : 0 <= z < 2 ^ 32 -> u32 z = z.
Proof. intros H. unfold u32. apply Z.mod_small. lia. Qed.
Lemma u64_id z : 0 <= z < 2 ^ 64 -> u64 z = z.
Proof. intros H. unfold u64. apply Z.mod_small. lia. Qed.
Lemma s32_range z : - 2 ^ 31 <= s32 z < 2 ^ 31.
Proof. unfold s32. pose proof (Z.mod_pos_bound (z + 2 ^ 31) (2 ^ 32)). lia. Qed.
Lemma s32_u64 z : s32 (u64 z) = s32 z.
Proof.
  unfold s32, u64. f_equal. rewrite (Z.div_mod z (2 ^ 64)) at 2 by lia.
  replace (2 ^ 64 * (z / 2 ^ 64) + z mod 2 ^ 64 + 2 ^ 31)
    with (z mod 2 ^ 64 + 2 ^ 31 + (2 ^ 32 * (z / 2 ^ 64)) * 2 ^ 32) by lia.
  rewrite Z.mod_add by lia. reflexivity.
Qed.
Lemma u64_add a b : u64 (u64 a + b) = u64 (a + b).
Proof. unfold u64. apply Zplus_mod_idemp_l. Qed.
Lemma u64_mul a b : u64 (u64 a * b) = u64 (a * b).
Proof. unfold u64. apply Zmult_mod_idemp_l. Qed.
Lemma s64_u64 z : - 2 ^ 63 <= z < 2 ^ 63 -> s64 (u64 z) = z.
Proof.
  intros H. unfold s64, u64. rewrite Z.add_mod_idemp_l by lia. rewrite Z.mod_small by lia. lia.
Qed.
(** a signed number is the unsigned one up to a multiple of 2^32 *)
Lemma s32_cong z : exists k, z - s32 z = k * 2 ^ 32.
Proof.
  exists ((z + 2 ^ 31) / 2 ^ 32). unfold s32.
  pose proof (Z.div_mod (z + 2 ^ 31) (2 ^ 32)). lia.
Qed.

Lemma ts_ok d t : 0 <= t -> stamp_ok (ts d t).
Proof.
  intros H. unfold ts, stamp_ok. cbn [day time]. split; [apply s32_range|].
  rewrite dayMillis_eq. apply Z.mod_pos_bound. lia.
Qed.
Lemma ts_millis d t : 0 <= t -> - 2 ^ 31 <= d + t / 86400000 < 2 ^ 31 -> millis (ts d t) = d * 86400000 + t.
Proof.
  intros H B. unfold ts, millis. cbn [day time]. rewrite s32_u64, dayMillis_eq, s32_id by lia.
  pose proof (Z.div_mod t 86400000). lia.
Qed.
Lemma millis_inj a b : stamp_ok a -> stamp_ok b -> millis a = millis b -> a = b.
Proof.
  destruct a as [d t], b as [d' t']. unfold stamp_ok, millis. cbn [day time]. intros H1 H2 E.
  assert (d = d') by lia. subst. f_equal. lia.
Qed.
Lemma millis_day a : stamp_ok a -> day a = millis a / 86400000 /\ time a = millis a mod 86400000.
Proof.
  intros [_ H]. unfold millis. split.
  - apply Z.div_unique with (time a); [left; lia|]. lia.
  - apply Z.mod_unique with (day a); [left; lia|]. lia.
Qed.

Lemma compare_ok a b : stamp_ok a -> stamp_ok b ->
  compare a b = match millis a ?= millis b with Lt => Less | Eq => Equal | Gt => Greater end.
Proof.
  intros [_ H1] [_ H2]. unfold compare, millis.
  destruct (Z.compare_spec (day a * 86400000 + time a) (day b * 86400000 + time b)) as [E|E|E];
    destruct (Z.eqb_spec (day a) (day b)) as [D|D];
    try destruct (Z.eqb_spec (time a) (time b)); try destruct (Z.ltb_spec (time a) (time b));
    destruct (Z.ltb_spec (day a) (day b)); try reflexivity; lia.
Qed.

Lemma int_op_ok z : - 2 ^ 31 <= z < 2 ^ 31 -> int_op z = Ok z.
Proof.
  intros H. unfold int_op. replace (- 2 ^ 31 <=? z) with true by lia.
  replace (z <? 2 ^ 31) with true by lia. reflexivity.
Qed.

Lemma add_ok a b : stamp_ok a -> stamp_ok b -> - 2 ^ 31 <= day a + day b < 2 ^ 31 - 1 ->
  exists c, op_add a b = Ok c /\ stamp_ok c /\ millis c = millis a + millis b.
Proof.
  intros [A1 A2] [B1 B2] D. unfold op_add. rewrite int_op_ok by lia. cbn [obind].
  unfold fixOverflow. rewrite u32_id, dayMillis_eq by lia. set (t := time a + time b).
  pose proof (Z.mod_pos_bound t 86400000). rewrite u32_id by lia.
  assert (Q : t / 86400000 = 0 \/ t / 86400000 = 1).
  { pose proof (Z.div_mod t 86400000). unfold t in *. lia. }
  eexists. split; [reflexivity|]. split; [apply ts_ok; lia|].
  rewrite ts_millis; [|lia|rewrite (Z.div_small (t mod 86400000)) by lia; lia].
  unfold millis. pose proof (Z.div_mod t 86400000). unfold t in *. lia.
Qed.

Lemma sub_ok a b : stamp_ok a -> stamp_ok b -> - 2 ^ 31 < day a - day b < 2 ^ 31 ->
  exists c, op_sub a b = Ok c /\ stamp_ok c /\ millis c = millis a - millis b.
Proof.
  intros [A1 A2] [B1 B2] D. unfold op_sub. rewrite int_op_ok by lia. cbn [obind].
  destruct (Z.ltb_spec (time a) (time b)) as [L|L].
  - assert (E : u32 (time a - time b) = time a - time b + 2 ^ 32).
    { unfold u32. symmetry. apply Z.mod_unique with (-1); [left; lia|lia]. }
    rewrite E. cbn [fixUnderflow]. replace (2 ^ 31 <? time a - time b + 2 ^ 32) with true by lia.
    assert (E2 : u32 (time a - time b + 2 ^ 32 + dayMillis) = time a - time b + 86400000).
    { unfold u32. symmetry. rewrite dayMillis_eq. apply Z.mod_unique with 1; [left; lia|lia]. }
    rewrite E2. replace (2 ^ 31 <? time a - time b + 86400000) with false by lia. cbn [obind].
    eexists. split; [reflexivity|]. split; [apply ts_ok; lia|].
    rewrite ts_millis; [|lia|rewrite Z.div_small by lia; lia]. unfold millis. lia.
  - rewrite u32_id by lia. cbn [fixUnderflow].
    replace (2 ^ 31 <? time a - time b) with false by lia. cbn [obind].
    eexists. split; [reflexivity|]. split; [apply ts_ok; lia|].
    rewrite ts_millis; [|lia|rewrite Z.div_small by lia; lia]. unfold millis. lia.
Qed.

(** ** Unix time *)
Lemma fromUnixMs_ok t ms : 0 <= t -> 0 <= ms < 2 ^ 32 -> t / 86400 + ms / 86400000 < 2 ^ 31 - 1 ->
  stamp_ok (fromUnixMs t ms) /\ millis (fromUnixMs t ms) = 1000 * t + ms.
Proof.
  intros H M B. unfold fromUnixMs, daySecs, timeResolution.
  pose proof (Z.div_mod t 86400). pose proof (Z.mod_pos_bound t 86400). pose proof (Z.div_pos ms 86400000).
  assert (t < 2 ^ 48) by lia.
  rewrite (u64_id t) by lia. rewrite s64_id by lia. rewrite u64_id by lia.
  split; [apply ts_ok; lia|]. rewrite ts_millis; [lia|lia|].
  pose proof (Z.div_mod (t mod 86400 * 1000 + ms) 86400000).
  pose proof (Z.mod_pos_bound (t mod 86400 * 1000 + ms) 86400000).
  pose proof (Z.div_mod ms 86400000). pose proof (Z.mod_pos_bound ms 86400000). lia.
Qed.
Lemma fromUnix_ms t : fromUnix t = fromUnixMs t 0.
Proof. unfold fromUnix, fromUnixMs. rewrite Z.add_0_r. reflexivity. Qed.
Lemma fromSeconds_ms t : 0 <= t < 2 ^ 64 -> fromSeconds t = fromUnix t.
Proof. intros H. unfold fromSeconds, fromUnix. rewrite (u64_id t) by lia. reflexivity. Qed.

Lemma asUnix_ok a : stamp_ok a -> asUnix a = millis a / 1000.
Proof.
  intros [A B]. unfold asUnix, daySecs, timeResolution. rewrite u64_add, s64_u64.
  - unfold millis. replace (day a * 86400000) with (day a * 86400 * 1000) by lia.
    rewrite Z.div_add_l by lia. reflexivity.
  - pose proof (Z.div_mod (time a) 1000). pose proof (Z.mod_pos_bound (time a) 1000). lia.
Qed.

(** seconds before 1970 come out wrong *)
Lemma unix_neg t : - 2 ^ 63 <= t < 0 ->
  stamp_ok (ts (s64 (u64 t / daySecs)) (u64 (u64 t mod daySecs * 1000)))
  /\ millis (ts (s64 (u64 t / daySecs)) (u64 (u64 t mod daySecs * 1000))) / 1000 <> t.
Proof.
  intros H. unfold daySecs.
  assert (U : u64 t = t + 2 ^ 64).
  { unfold u64. symmetry. apply Z.mod_unique with (-1); [left; lia|lia]. }
  rewrite U. set (u := t + 2 ^ 64) in *.
  pose proof (Z.div_mod u 86400). pose proof (Z.mod_pos_bound u 86400).
  rewrite s64_id by lia. rewrite u64_id by lia. split; [apply ts_ok; lia|].
  unfold ts, millis. cbn [day time]. rewrite s32_u64, dayMillis_eq.
  rewrite (Z.div_small (u mod 86400 * 1000)), (Z.mod_small (u mod 86400 * 1000)), Z.add_0_r by lia.
  replace (s32 (u / 86400) * 86400000 + u mod 86400 * 1000)
    with ((s32 (u / 86400) * 86400 + u mod 86400) * 1000) by lia.
  rewrite Z.div_mul by lia. destruct (s32_cong (u / 86400)) as [k K]. lia.
Qed.

(** ** Reading *)
Lemma get_div a k : stamp_ok a -> 0 <= day a -> 0 < k -> (k | 86400000) ->
  u64 (u64 (u64 (getDay a) * (86400000 / k)) + getTime a / k) = millis a / k.
Proof.
  intros [A B] D K [q Q]. unfold getDay, getTime, millis.
  assert (0 < q) by nia. rewrite Q, Z.div_mul by lia.
  assert (E : (day a * (q * k) + time a) / k = day a * q + time a / k).
  { replace (day a * (q * k)) with (day a * q * k) by lia. apply Z.div_add_l. lia. }
  assert (0 <= time a / k <= time a).
  { split; [apply Z.div_pos; lia|]. apply Z.div_le_upper_bound; nia. }
  assert (q <= 86400000) by nia. assert (0 <= day a * q <= day a * 86400000) by nia.
  rewrite (u64_id (day a)) by lia. rewrite E, u64_add. clear E Q. apply u64_id. lia.
Qed.

(** ** The calendar *)
Lemma epoch_num e : epoch e -> Z.of_nat e = 719528.
Proof.
  intros E. destruct (Date_Proof.date_after_ok e) as (_ & _ & N). unfold epoch in E. rewrite E in N.
  change (Date_Proof.dn (Date_Spec.mkDate 1970 1 1)) with 719528 in N. lia.
Qed.
Lemma epoch_ex : exists e, epoch e.
Proof.
  exists (Z.to_nat (Date_Proof.dn (Date_Spec.mkDate 1970 1 1))). apply Date_Proof.date_after_surj.
  - unfold Date_Spec.valid. cbn. lia.
  - cbn. lia.
Qed.
Lemma year_of n : let y := Date_Spec.year (Date_Spec.date_after n) in
  0 <= y /\ Date_Proof.ydays y <= Z.of_nat n < Date_Proof.ydays (y + 1) /\ 365 * y <= Z.of_nat n.
Proof.
  cbn zeta. destruct (Date_Proof.date_after_ok n) as (V & Y & N).
  pose proof (Date_Proof.dn_year _ V ltac:(lia)). split; [lia|]. split; [lia|].
  pose proof (Date_Proof.ydays_mono 0 (Date_Spec.year (Date_Spec.date_after n)) ltac:(lia) ltac:(lia)) as Q.
  rewrite !Z.add_0_l in Q. lia.
Qed.
Lemma year_ge n y : 0 <= y -> Date_Proof.ydays y <= Z.of_nat n -> y <= Date_Spec.year (Date_Spec.date_after n).
Proof.
  intros Y H. pose proof (year_of n) as (Y0 & B & _).
  destruct (Z_le_gt_dec y (Date_Spec.year (Date_Spec.date_after n))) as [|G]; [assumption|].
  pose proof (Date_Proof.ydays_lt _ y Y0 ltac:(lia)). lia.
Qed.
Lemma year_lt n y : 0 <= y -> Z.of_nat n < Date_Proof.ydays y -> Date_Spec.year (Date_Spec.date_after n) < y.
Proof.
  intros Y H. pose proof (year_of n) as (Y0 & B & _).
  destruct (Z_lt_ge_dec (Date_Spec.year (Date_Spec.date_after n)) y) as [|G]; [assumption|exfalso].
  destruct (Z.eq_dec y (Date_Spec.year (Date_Spec.date_after n))) as [->|Q]; [lia|].
  pose proof (Date_Proof.ydays_lt y (Date_Spec.year (Date_Spec.date_after n)) Y ltac:(lia)). pose proof (Date_Proof.ydays_step y Y).
  destruct (Date_Spec.leap y); lia.
Qed.

Lemma day_of n : 1 <= Date_Spec.month (Date_Spec.date_after n) <= 12 /\ 1 <= Date_Spec.day (Date_Spec.date_after n) <= 31.
Proof.
  destruct (Date_Proof.date_after_ok n) as ((V1 & V2) & _ & _).
  pose proof (Date_Proof.month_length_bounds (Date_Spec.year (Date_Spec.date_after n)) (Date_Spec.month (Date_Spec.date_after n))). lia.
Qed.

(** fromYMDhms of a valid date is the conversion of the seconds that timegm gives *)
Lemma fromYMDhms_eq timegm e n h m s : timegm_ok timegm -> epoch e -> 0 <= h < 24 -> 0 <= m < 60 -> 0 <= s < 60 ->
  let d := Date_Spec.date_after n in 1 <= Date_Spec.year d < 2 ^ 31 ->
  let r := (Z.of_nat n - Z.of_nat e) * 86400 + h * 3600 + m * 60 + s in
  fromYMDhms timegm (Date_Spec.year d) (Date_Spec.month d) (Date_Spec.day d) h m s
  = if r =? -1 then Throw else Ok (fromUnix r).
Proof.
  intros T E Hh Hm Hs d Y r. unfold fromYMDhms. replace (Date_Spec.year d =? 0) with false by lia.
  pose proof (day_of n) as [M D]. fold d in M, D.
  rewrite !s32_u64, !s32_id by lia. pose proof (T e n h m s 0 E Hh Hm Hs) as Q. cbn zeta in Q. fold d r in Q. rewrite Q. unfold fromUnix, timeResolution.
  reflexivity.
Qed.

(** ** Texts *)
Lemma digit_two z : 0 <= z < 100 -> dec2 z = two z.
Proof.
  intros H. unfold dec2, two, digit. do 2 f_equal.
  pose proof (Z.div_mod z 10). pose proof (Z.mod_pos_bound z 10). rewrite (Z.mod_small (z / 10)) by lia. reflexivity.
Qed.
Lemma dec_four z : 0 <= z < 10000 -> dec4 z = four z.
Proof.
  intros H. pose proof (Z.div_mod z 100). pose proof (Z.mod_pos_bound z 100). unfold dec4, four. rewrite digit_two by lia. f_equal.
  rewrite <- digit_two by lia. unfold dec2, digit.
  assert (A : (z / 10) mod 10 = (z mod 100 / 10) mod 10).
  { pose proof (Z.div_mod z 10). pose proof (Z.div_mod (z mod 100) 10).
    pose proof (Z.mod_pos_bound z 10). pose proof (Z.mod_pos_bound (z mod 100) 10).
    assert (E : z / 10 = z mod 100 / 10 + z / 100 * 10) by lia. rewrite E. apply Z.mod_add. lia. }
  assert (B : z mod 10 = (z mod 100) mod 10).
  { assert (E : z = z mod 100 + z / 100 * 10 * 10) by lia. rewrite E at 1. apply Z.mod_add. lia. }
  rewrite A, B. reflexivity.
Qed.

(** the second that is shown: the nearest one *)
Lemma format_eq gmtime e n h m s size fmt a : gmtime_ok gmtime -> epoch e -> stamp_ok a ->
  0 <= h < 24 -> 0 <= m < 60 -> 0 <= s < 60 ->
  (millis a + 500) / 1000 = (Z.of_nat n - Z.of_nat e) * 86400 + h * 3600 + m * 60 + s ->
  let d := Date_Spec.date_after n in
  let text := strftime (mkTm (Date_Spec.year d - 1900) (Date_Spec.month d - 1) (Date_Spec.day d) h m s
                          ((Z.of_nat n - Z.of_nat e + 4) mod 7)) fmt in
  formatTime gmtime size fmt a = if (length text <? size)%nat then text else [].
Proof.
  intros G E [A B] Hh Hm Hs R d text. unfold formatTime.
  assert (Q : s64 (s64 (day a * daySecs) + u32 (time a + 500) / 1000)
            = (Z.of_nat n - Z.of_nat e) * 86400 + h * 3600 + m * 60 + s).
  { rewrite <- R. unfold daySecs. rewrite u32_id by lia.
    pose proof (Z.div_mod (time a + 500) 1000). pose proof (Z.mod_pos_bound (time a + 500) 1000).
    rewrite (s64_id (day a * 86400)) by lia. rewrite s64_id by lia.
    unfold millis. replace (day a * 86400000 + time a + 500) with (day a * 86400 * 1000 + (time a + 500)) by lia.
    rewrite Z.div_add_l by lia. reflexivity. }
  rewrite Q, (G e n h m s E Hh Hm Hs). reflexivity.
Qed.

Section Texts.
  Variables (d : Date_Spec.date) (h m s w : Z).
  Hypothesis Y : 0 <= Date_Spec.year d < 10000.
  Hypothesis M : 1 <= Date_Spec.month d <= 12.
  Hypothesis D : 1 <= Date_Spec.day d <= 31.
  Hypothesis Hh : 0 <= h < 24.
  Hypothesis Hm : 0 <= m < 60.
  Hypothesis Hs : 0 <= s < 60.
  Let t := mkTm (Date_Spec.year d - 1900) (Date_Spec.month d - 1) (Date_Spec.day d) h m s w.

  Lemma fields : dec4 (tm_year t + 1900) = four (Date_Spec.year d) /\ dec2 (tm_mon t + 1) = two (Date_Spec.month d)
    /\ dec2 (tm_mday t) = two (Date_Spec.day d)
    /\ dec2 (tm_hour t) = two h /\ dec2 (tm_min t) = two m /\ dec2 (tm_sec t) = two s.
  Proof.
    unfold t. cbn [tm_year tm_mon tm_mday tm_hour tm_min tm_sec].
    rewrite !Z.sub_add. repeat split; try apply digit_two; try apply dec_four; lia.
  Qed.

  Lemma db_fmt : strftime t [37;89;45;37;109;45;37;100;32;37;72;58;37;77;58;37;83]%N = db_text d h m s.
  Proof.
    destruct fields as (F1 & F2 & F3 & F4 & F5 & F6).
    cbn [strftime strftime1]. rewrite F1, F2, F3, F4, F5, F6. reflexivity.
  Qed.
  Lemma iso_fmt : strftime t [37;89;45;37;109;45;37;100;84;37;72;58;37;77;58;37;83;90]%N = iso_text d h m s.
  Proof.
    destruct fields as (F1 & F2 & F3 & F4 & F5 & F6).
    cbn [strftime strftime1]. rewrite F1, F2, F3, F4, F5, F6. reflexivity.
  Qed.
  Lemma rfc_fmt : strftime t [37;119;45;45;44;32;37;100;32;37;109;45;32;37;89;32;37;72;58;37;77;58;37;83;32;71;77;84]%N
    = [digit w] ++ codes "--, " ++ two (Date_Spec.day d) ++ codes " " ++ two (Date_Spec.month d) ++ codes "- "
      ++ four (Date_Spec.year d) ++ codes " " ++ clock h m s ++ codes " GMT".
  Proof.
    destruct fields as (F1 & F2 & F3 & F4 & F5 & F6).
    cbn [strftime strftime1]. rewrite F1, F2, F3, F4, F5, F6. reflexivity.
  Qed.
End Texts.

Lemma weekday_ok w : 0 <= w < 7 -> charAt [digit w] 0 = Ok w /\ name_of DAY_NAMES w = Ok (weekday_name w) /\ length (weekday_name w) = 3%nat.
Proof.
  intros H. assert (C : w = 0 \/ w = 1 \/ w = 2 \/ w = 3 \/ w = 4 \/ w = 5 \/ w = 6) by lia.
  destruct C as [->|[->|[->|[->|[->|[->| ->]]]]]]; repeat split; reflexivity.
Qed.
Lemma month_ok mo : 1 <= mo <= 12 -> exists a b, two mo = [a; b] /\ name_of MONTH_NAMES ((Z.of_N a - 48) * 10 + (Z.of_N b - 48) - 1) = Ok (month_name mo)
  /\ length (month_name mo) = 3%nat.
Proof.
  intros H. assert (C : mo = 1 \/ mo = 2 \/ mo = 3 \/ mo = 4 \/ mo = 5 \/ mo = 6 \/ mo = 7 \/ mo = 8 \/ mo = 9 \/ mo = 10 \/ mo = 11 \/ mo = 12) by lia.
  destruct C as [->|[->|[->|[->|[->|[->|[->|[->|[->|[->|[->| ->]]]]]]]]]]]; do 2 eexists; repeat split; reflexivity.
Qed.
