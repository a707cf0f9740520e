(** Reading points of time (base/timestamp.cpp, fromDBTime and fromISO8601Time). *)
From Coq Require Import ZArith String Ascii ZifyBool.
From Verif Require Import Common TextParser_Spec TextParser_Model TextParser_Proof.
From Verif Require Import TimeStamp_Spec TimeStamp_Model TimeStamp_Proof TimeStamp_Props.
From Verif Require Import StampParse_Spec StampParse_Model StampParse_Proof.
Local Open Scope Z_scope.

(** C230: the text of a date and a time, in the form that databases use, is read as that
    point of time, for all dates of the years 1970 to 9999 and with any spaces around; so
    what asDBTime writes is read back, up to the rounding to seconds. *)
Theorem stamp_parse_db : forall timegm e n h m s, timegm_ok timegm -> epoch e -> time_of_day h m s ->
  let d := Date_Spec.date_after n in 1970 <= Date_Spec.year d < 10000 ->
  (forall before between after, spaces before -> spaces between -> spaces after -> between <> [] ->
     exists a, fromDBTime timegm (before ++ chars (ymd d) ++ between ++ chars (clock h m s) ++ after) = Ok a
       /\ stamp_ok a /\ millis a = instant e n h m s)
  /\ (forall gmtime b, gmtime_ok gmtime -> stamp_ok b -> (millis b + 500) / 1000 * 1000 = instant e n h m s ->
     exists a, fromDBTime timegm (chars (asDBTime gmtime b)) = Ok a /\ stamp_ok a
       /\ millis a = (millis b + 500) / 1000 * 1000).
Proof.
  intros timegm e n h m s T E TD d Y.
  destruct (ymd_num n Y) as (A1 & A2 & A3 & B1 & B2 & B3 & C1 & C2 & C3). fold d in A1, A2, A3, B1, B2, B3, C1, C2, C3.
  destruct (hms_num h m s TD) as (D1 & D2 & D3 & E1 & E2 & E3 & F1 & F2 & F3).
  destruct (full_stamp timegm e n h m s T E TD Y) as (a & Qa & Oa & Ma). fold d in Qa.
  assert (Main : forall before between after, spaces before -> spaces between -> spaces after -> between <> [] ->
    fromDBTime timegm (before ++ chars (ymd d) ++ between ++ chars (clock h m s) ++ after) = Ok a).
  { intros b1 b2 b3 H1 H2 H3 N2. apply spaces_blank in H1, H2, H3.
    rewrite chars_ymd, chars_clock. unfold dateText, clockText.
    repeat (rewrite <- app_assoc; cbn [app]). rewrite db_full by assumption.
    rewrite A2, B2, C2, D2, E2, F2. exact Qa. }
  split.
  - intros b1 b2 b3 H1 H2 H3 N2. exists a. rewrite Main by assumption. auto.
  - intros gmtime b G Ob R. exists a. destruct TD as (Hh & Hm & Hs).
    assert (R' : (millis b + 500) / 1000 = (Z.of_nat n - Z.of_nat e) * 86400 + h * 3600 + m * 60 + s) by (unfold instant in R; lia).
    destruct (stamp_text gmtime e n h m s b G E Ob Hh Hm Hs R' (proj2 Y)) as [X _]. rewrite X. fold d.
    split; [|split; [exact Oa|rewrite Ma; symmetry; exact R]].
    specialize (Main [] [32] [] ltac:(constructor) ltac:(repeat constructor) ltac:(constructor) ltac:(easy)).
    rewrite app_nil_r in Main. cbn [app] in Main. unfold db_text. rewrite !chars_app. exact Main.
Qed.
Print Assumptions stamp_parse_db.

(** C231: a date, T and a time with the zone Z is read as that point of time; so what
    asISO8601Time writes is read back, up to the rounding to seconds. *)
Theorem stamp_parse_iso : forall timegm e n h m s, timegm_ok timegm -> epoch e -> time_of_day h m s ->
  let d := Date_Spec.date_after n in 1970 <= Date_Spec.year d < 10000 ->
  (exists a, fromISO8601Time timegm (chars (local_text d h m s) ++ chars (codes "Z")) = Ok a
     /\ stamp_ok a /\ millis a = instant e n h m s)
  /\ (forall gmtime b, gmtime_ok gmtime -> stamp_ok b -> (millis b + 500) / 1000 * 1000 = instant e n h m s ->
     exists a, fromISO8601Time timegm (chars (asISO8601Time gmtime b)) = Ok a /\ stamp_ok a
       /\ millis a = (millis b + 500) / 1000 * 1000).
Proof.
  intros timegm e n h m s T E TD d Y.
  destruct (iso_zone timegm e n h m s T E TD Y 90 [] eq_refl) as (da & ti & Oda & Oti & Dda & Dti & M & Q). fold d in Q.
  change (zonePart ti [90]) with (Ok ti) in Q. cbn [obind] in Q.
  pose proof (year_days n e E (proj2 Y)).
  destruct (add_ok da ti Oda Oti) as (c & Qc & Oc & Mc). { destruct Oda. lia. }
  rewrite Qc in Q. rewrite M in Mc.
  split; [exists c; auto|].
  intros gmtime b G Ob R. exists c. destruct TD as (Hh & Hm & Hs).
  assert (R' : (millis b + 500) / 1000 = (Z.of_nat n - Z.of_nat e) * 86400 + h * 3600 + m * 60 + s) by (unfold instant in R; lia).
  destruct (stamp_text gmtime e n h m s b G E Ob Hh Hm Hs R' (proj2 Y)) as [_ [X _]]. rewrite X. fold d.
  split; [|split; [exact Oc|rewrite Mc; symmetry; exact R]].
  rewrite <- Q. reflexivity.
Qed.
Print Assumptions stamp_parse_iso.

(** C232: a date alone is midnight, in both functions and also without separators; a time
    alone is the distance from midnight. *)
Theorem stamp_parse_date : forall timegm e n h m s, timegm_ok timegm -> epoch e -> time_of_day h m s ->
  let d := Date_Spec.date_after n in 1970 <= Date_Spec.year d < 10000 ->
  (exists a, stamp_ok a /\ millis a = instant e n 0 0 0
     /\ fromISO8601Time timegm (chars (ymd d)) = Ok a /\ fromISO8601Time timegm (chars (ymd_basic d)) = Ok a
     /\ forall before after, spaces before -> spaces after -> fromDBTime timegm (before ++ chars (ymd d) ++ after) = Ok a)
  /\ (exists a, stamp_ok a /\ millis a = h * 3600000 + m * 60000 + s * 1000
     /\ forall before after, spaces before -> spaces after -> fromDBTime timegm (before ++ chars (clock h m s) ++ after) = Ok a).
Proof.
  intros timegm e n h m s T E TD d Y.
  destruct (ymd_num n Y) as (A1 & A2 & A3 & B1 & B2 & B3 & C1 & C2 & C3). fold d in A1, A2, A3, B1, B2, B3, C1, C2, C3.
  destruct (hms_num h m s TD) as (D1 & D2 & D3 & E1 & E2 & E3 & F1 & F2 & F3).
  pose proof (year_days n e E (proj2 Y)) as YD.
  destruct (midnight_stamp timegm e n T E Y) as (da & Qda & Oda & Dda & Mda). fold d in Qda.
  assert (Az : op_add da ts_new = Ok da) by (exact (add_zero da Oda ltac:(lia))).
  split.
  - exists da. split; [exact Oda|]. split; [exact Mda|]. split; [|split].
    + rewrite chars_ymd, iso_date_only by assumption. rewrite A2, B2, C2, Qda. exact Az.
    + unfold ymd_basic. rewrite !chars_app.
      change (chars (four (Date_Spec.year d))) with (fourZ (Date_Spec.year d)).
      change (chars (two (Date_Spec.month d))) with (twoZ (Date_Spec.month d)).
      change (chars (two (Date_Spec.day d))) with (twoZ (Date_Spec.day d)).
      set (y := fourZ _) in *. set (mo := twoZ (Date_Spec.month d)) in *. set (dd := twoZ (Date_Spec.day d)) in *.
      assert (N : findOneOf (pat "T ") (y ++ mo ++ dd) = None).
      { rewrite <- (app_nil_r (y ++ mo ++ dd)), findOneOf_app; [reflexivity|].
        apply digit_not_in; [repeat constructor; cbn; lia|]. apply Forall_app; split; [apply A1|]. apply Forall_app; split; [apply B1|apply C1]. }
      unfold fromISO8601Time. rewrite N. unfold head, offset. rewrite firstn_all, skipn_all2 by lia.
      rewrite basic_date by assumption. rewrite A2, B2, C2, Qda. exact Az.
    + intros b1 b3 H1 H3. apply spaces_blank in H1, H3. rewrite chars_ymd. unfold dateText.
      repeat (rewrite <- app_assoc; cbn [app]). rewrite db_date by assumption. rewrite A2, B2, C2. exact Qda.
  - destruct (clock_stamp timegm h m s TD) as (ti & Qti & Oti & Dti & Mti).
    exists ti. split; [exact Oti|]. split; [exact Mti|]. intros b1 b3 H1 H3. apply spaces_blank in H1, H3.
    rewrite chars_clock. unfold clockText.
    repeat (rewrite <- app_assoc; cbn [app]). rewrite db_time by assumption. rewrite D2, E2, F2. exact Qti.
Qed.
Print Assumptions stamp_parse_date.

(** C233 is false: a zone east of Greenwich ("+" and anything) is never accepted. *)
Theorem stamp_parse_east_refuted : forall timegm e n h m s zone, timegm_ok timegm -> epoch e -> time_of_day h m s ->
  let d := Date_Spec.date_after n in 1970 <= Date_Spec.year d < 10000 ->
  forall a, fromISO8601Time timegm (chars (local_text d h m s) ++ chars (codes "+") ++ zone) <> Ok a.
Proof.
  intros timegm e n h m s zone T E TD d Y a.
  destruct (iso_zone timegm e n h m s T E TD Y 43 zone eq_refl) as (da & ti & _ & _ & _ & _ & _ & Q). fold d in Q.
  change (chars (codes "+") ++ zone) with (43 :: zone). rewrite Q. unfold zonePart. cbn [Z.eqb Pos.eqb andb negb].
  destruct (zoneOffset zone); discriminate.
Qed.
Print Assumptions stamp_parse_east_refuted.

Lemma zone_add timegm e n h m s zone ofs : timegm_ok timegm -> epoch e -> time_of_day h m s ->
  let d := Date_Spec.date_after n in 1970 <= Date_Spec.year d < 10000 -> 0 <= ofs < 600000 ->
  zoneOffset zone = Ok (intervalMin ofs) ->
  exists a, fromISO8601Time timegm (chars (local_text d h m s) ++ 45 :: zone) = Ok a /\ stamp_ok a
    /\ millis a = instant e n h m s + millis (intervalMin ofs).
Proof.
  intros T E TD d Y B Z_.
  destruct (iso_zone timegm e n h m s T E TD Y 45 zone eq_refl) as (da & ti & Oda & Oti & Dda & Dti & M & Q). fold d in Q.
  unfold zonePart in Q. cbn [Z.eqb Pos.eqb andb] in Q. rewrite Z_ in Q. cbn [obind] in Q.
  pose proof (year_days n e E (proj2 Y)) as YD.
  assert (NE : Z.of_nat e <= Z.of_nat n + 1000000) by (apply epoch_num in E; lia).
  assert (D0 : 0 <= ofs / 144 < 5000) by lia.
  assert (I1 : stamp_ok (intervalMin ofs)) by (apply ts_ok; unfold timeResolution; lia).
  assert (M1 : millis (intervalMin ofs) = ofs / 144 * 86400000 + ofs mod 144 * 1000 * 60).
  { unfold intervalMin, timeResolution. rewrite s64_id by lia. apply ts_millis; [lia|].
    rewrite (Z.div_small (ofs mod 144 * 1000 * 60)) by lia. lia. }
  assert (I2 : day (intervalMin ofs) = ofs / 144) by (destruct I1; unfold millis in M1; lia).
  destruct (add_ok ti (intervalMin ofs) Oti I1) as (x & Qx & Ox & Mx); [lia|].
  rewrite Qx in Q. cbn [obind] in Q.
  assert (Dx : 0 <= day x <= 5001) by (destruct Ox; destruct Oti; destruct I1; unfold millis in *; lia).
  destruct (add_ok da x Oda Ox) as (c & Qc & Oc & Mc); [lia|].
  exists c. rewrite Q. split; [exact Qc|]. split; [exact Oc|]. lia.
Qed.

(** C234, what holds: a zone "-hh:mm" of less than 144 minutes is read correctly. *)
Theorem stamp_parse_west_partial : forall timegm e n h m s zh zm, timegm_ok timegm -> epoch e -> time_of_day h m s ->
  let d := Date_Spec.date_after n in 1970 <= Date_Spec.year d < 10000 ->
  0 <= zh -> 0 <= zm < 60 -> zh * 60 + zm < 144 ->
  exists a, fromISO8601Time timegm (chars (local_text d h m s) ++ chars (codes "-") ++ chars (zone_text zh zm)) = Ok a
    /\ stamp_ok a /\ millis a = instant e n h m s + (zh * 60 + zm) * 60000.
Proof.
  intros timegm e n h m s zh zm T E TD d Y Zh Zm B.
  destruct (twoZ_num zh ltac:(lia)) as (H1 & H2 & H3). destruct (twoZ_num zm ltac:(lia)) as (M1 & M2 & M3).
  pose proof (zone_colon (twoZ zh) (twoZ zm) H1 M1 H3) as Q. rewrite H2, M2, u64_id in Q by lia.
  destruct (zone_add timegm e n h m s _ (zh * 60 + zm) T E TD Y ltac:(lia) Q) as (a & Qa & Oa & Ma).
  exists a. split; [exact Qa|]. split; [exact Oa|]. rewrite Ma, stamp_minutes_partial by lia. reflexivity.
Qed.
Print Assumptions stamp_parse_west_partial.

(** C234 is false: a zone "-hh:mm" of 144 minutes or more gives a wrong point of time, and so
    does every zone "-hhmm" other than -0000. *)
Theorem stamp_parse_west_refuted : forall timegm e n h m s zh zm, timegm_ok timegm -> epoch e -> time_of_day h m s ->
  let d := Date_Spec.date_after n in 1970 <= Date_Spec.year d < 10000 -> 0 <= zh < 24 -> 0 <= zm < 60 ->
  (144 <= zh * 60 + zm ->
   exists a, fromISO8601Time timegm (chars (local_text d h m s) ++ chars (codes "-") ++ chars (zone_text zh zm)) = Ok a
     /\ stamp_ok a /\ millis a <> instant e n h m s + (zh * 60 + zm) * 60000)
  /\ (0 < zh * 60 + zm ->
   exists a, fromISO8601Time timegm (chars (local_text d h m s) ++ chars (codes "-") ++ chars (zone_basic zh zm)) = Ok a
     /\ stamp_ok a /\ millis a <> instant e n h m s + (zh * 60 + zm) * 60000).
Proof.
  intros timegm e n h m s zh zm T E TD d Y Zh Zm.
  destruct (twoZ_num zh ltac:(lia)) as (H1 & H2 & H3). destruct (twoZ_num zm ltac:(lia)) as (M1 & M2 & M3).
  split; intros B.
  - pose proof (zone_colon (twoZ zh) (twoZ zm) H1 M1 H3) as Q. rewrite H2, M2, u64_id in Q by lia.
    destruct (zone_add timegm e n h m s _ (zh * 60 + zm) T E TD Y ltac:(lia) Q) as (a & Qa & Oa & Ma).
    exists a. split; [exact Qa|]. split; [exact Oa|]. rewrite Ma.
    pose proof (stamp_minutes_refuted (zh * 60 + zm) B ltac:(lia)). lia.
  - assert (X : num (twoZ zh ++ twoZ zm) /\ decimal (twoZ zh ++ twoZ zm) = zh * 100 + zm).
    { assert (D : decimal (twoZ zh ++ twoZ zm) = zh * 100 + zm)
        by (rewrite !twoZ_eq by lia; unfold decimal; cbn [app fold_left]; lia).
      split; [|exact D]. split; [apply numeral_app; [apply H1|apply M1]|rewrite D; lia]. }
    destruct X as [X1 X2]. pose proof (zone_hours _ X1) as Q. rewrite X2, u64_id in Q by lia.
    destruct (zone_add timegm e n h m s _ ((zh * 100 + zm) * 60) T E TD Y ltac:(lia) Q) as (a & Qa & Oa & Ma).
    exists a. split; [exact Qa|]. split; [exact Oa|]. rewrite Ma.
    set (o := (zh * 100 + zm) * 60) in *. unfold intervalMin, timeResolution. rewrite s64_id by lia.
    rewrite ts_millis; [lia|lia|]. rewrite (Z.div_small (o mod 144 * 1000 * 60)) by lia. lia.
Qed.
Print Assumptions stamp_parse_west_refuted.

(** C235 is false: a fraction of the second is ignored, whatever it is. *)
Theorem stamp_parse_fraction_refuted : forall timegm e n h m s digits, timegm_ok timegm -> epoch e -> time_of_day h m s ->
  let d := Date_Spec.date_after n in 1970 <= Date_Spec.year d < 10000 -> Forall (fun c => 48 <= c <= 57) digits ->
  exists a, fromISO8601Time timegm (chars (local_text d h m s) ++ chars (codes ".") ++ digits ++ chars (codes "Z")) = Ok a
    /\ stamp_ok a /\ millis a = instant e n h m s.
Proof.
  intros timegm e n h m s fr T E TD d Y F.
  destruct (stamp_parse_iso timegm e n h m s T E TD Y) as [(a & Qa & Oa & Ma) _]. fold d in Qa.
  exists a. split; [|auto]. rewrite <- Qa. unfold d.
  change (chars (codes ".") ++ fr ++ chars (codes "Z")) with (46 :: fr ++ 90 :: []).
  rewrite (iso_fraction timegm n h m s TD Y 90 [] fr eq_refl); [reflexivity|].
  eapply Forall_impl; [|exact F]. intros c Hc. cbn beta in Hc |- *. change (pat "Z+-") with [90; 43; 45]. cbn [existsb]. lia.
Qed.
Print Assumptions stamp_parse_fraction_refuted.

(** C236 is false: the times without colons, hhmm and hhmmss, are never accepted. *)
Theorem stamp_parse_basic_refuted : forall timegm e n h m s, timegm_ok timegm -> epoch e -> time_of_day h m s ->
  let d := Date_Spec.date_after n in 1970 <= Date_Spec.year d < 10000 ->
  fromISO8601Time timegm (chars (ymd d ++ codes "T") ++ chars (minutes_basic h m)) = Throw
  /\ fromISO8601Time timegm (chars (ymd d ++ codes "T") ++ chars (clock_basic h m s)) = Throw.
Proof.
  intros timegm e n h m s T E TD d Y.
  destruct (hms_num h m s TD) as (D1 & D2 & D3 & E1 & E2 & E3 & F1 & F2 & F3).
  destruct (midnight_stamp timegm e n T E Y) as (da & Qda & _). fold d in Qda.
  assert (K : forall t, numeral t -> length t = 4%nat \/ length t = 6%nat ->
    fromISO8601Time timegm (chars (ymd d ++ codes "T") ++ t) = Throw).
  { intros t N L. unfold d. rewrite iso_other by exact Y. fold d. rewrite Qda. cbn [obind].
    rewrite time_plain by (apply digit_not_in; [repeat constructor; cbn; lia|apply N]).
    rewrite clock_throws by assumption. reflexivity. }
  split; apply K.
  - apply (numeral_app (twoZ h) (twoZ m)); [apply D1|apply E1].
  - left. reflexivity.
  - apply (numeral_app (twoZ h) (twoZ m ++ twoZ s)); [apply D1|apply numeral_app; [apply E1|apply F1]].
  - right. reflexivity.
Qed.
Print Assumptions stamp_parse_basic_refuted.

(** C237 is false: a malformed time is accepted as midnight if its length is none of those
    of a time, for example "noon?!?" (any characters but Z + - and the dot). *)
Theorem stamp_parse_malformed_refuted : forall timegm e n t, timegm_ok timegm -> epoch e ->
  let d := Date_Spec.date_after n in 1970 <= Date_Spec.year d < 10000 ->
  Forall (fun c => c <> 90 /\ c <> 43 /\ c <> 45 /\ c <> 46) t ->
  ~ In (length t) [2; 4; 5; 6; 8]%nat ->
  exists a, fromISO8601Time timegm (chars (ymd d ++ codes "T") ++ t) = Ok a /\ stamp_ok a /\ millis a = instant e n 0 0 0.
Proof.
  intros timegm e n t T E d Y F L.
  destruct (midnight_stamp timegm e n T E Y) as (da & Qda & Oda & Dda & Mda). fold d in Qda.
  pose proof (year_days n e E (proj2 Y)) as YD.
  exists da. split; [|auto]. unfold d. rewrite iso_other by exact Y. fold d. rewrite Qda. cbn [obind].
  rewrite time_plain.
  - assert (C : clockPart timegm t = Ok ts_new).
    { unfold clockPart. cbn [In] in L.
      destruct (Nat.eqb_spec (length t) 2); [lia|]. destruct (Nat.eqb_spec (length t) 4); [lia|].
      destruct (Nat.eqb_spec (length t) 5); [lia|]. destruct (Nat.eqb_spec (length t) 6); [lia|].
      destruct (Nat.eqb_spec (length t) 8); [lia|]. reflexivity. }
    rewrite C. cbn [obind]. exact (add_zero da Oda ltac:(lia)).
  - eapply Forall_impl; [|exact F]. intros c Hc. cbn beta in Hc |- *. change (pat "Z+-.") with [90; 43; 45; 46]. cbn [existsb]. lia.
Qed.
Print Assumptions stamp_parse_malformed_refuted.

(** C238 is false: the week 1 of a year is read as 1 January, also when that day is not a
    Monday and so not the first day of a week. *)
Theorem stamp_parse_week_refuted : forall timegm e n, timegm_ok timegm -> epoch e ->
  let d := Date_Spec.date_after n in 1970 <= Date_Spec.year d < 10000 -> Date_Spec.month d = 1 -> Date_Spec.day d = 1 ->
  exists a, fromISO8601Time timegm (chars (four (Date_Spec.year d) ++ codes "-W01")) = Ok a
    /\ stamp_ok a /\ millis a = instant e n 0 0 0 /\ forall k, monday e k -> ~ monday e n -> millis a <> instant e k 0 0 0.
Proof.
  intros timegm e n T E d Y M1 D1.
  destruct (ymd_num n Y) as (A1 & A2 & A3 & _). fold d in A1, A2, A3.
  destruct (midnight_stamp timegm e n T E Y) as (da & Qda & Oda & Dda & Mda). fold d in Qda.
  pose proof (year_days n e E (proj2 Y)) as YD.
  exists da. split.
  - rewrite chars_app. change (chars (four (Date_Spec.year d))) with (fourZ (Date_Spec.year d)).
    change (chars (codes "-W01")) with (45 :: 87 :: twoZ 1).
    destruct (twoZ_num 1 ltac:(lia)) as (W1 & W2 & W3).
    assert (N : findOneOf (pat "T ") (fourZ (Date_Spec.year d) ++ 45 :: 87 :: twoZ 1) = None).
    { rewrite findOneOf_app; [reflexivity|]. apply digit_not_in; [repeat constructor; cbn; lia|apply A1]. }
    unfold fromISO8601Time. rewrite N. unfold head, offset. rewrite firstn_all, skipn_all2 by lia.
    rewrite week_date by assumption. rewrite A2, W2. change (u64 (1 * 7 - 6)) with 1. rewrite M1, D1 in Qda. rewrite Qda.
    exact (add_zero da Oda ltac:(lia)).
  - split; [exact Oda|]. split; [exact Mda|]. intros k Mk Mn Q. apply Mn. unfold monday in *. rewrite Mda in Q.
    unfold instant in Q. assert (Z.of_nat n = Z.of_nat k) by lia. congruence.
Qed.
Print Assumptions stamp_parse_week_refuted.

(** 29 February 2016 and 1 January 2016, a Friday *)
Example parse_case : exists n k e, epoch e /\ Date_Spec.date_after n = Date_Spec.mkDate 2016 2 29
  /\ Date_Spec.date_after k = Date_Spec.mkDate 2016 1 1 /\ ~ monday e k /\ monday e (k + 3)
  /\ timegm_ok timegm_impl /\ gmtime_ok gmtime_impl /\ time_of_day 12 30 0
  /\ chars (local_text (Date_Spec.date_after n) 12 30 0) = pat "2016-02-29T12:30:00"
  /\ fromISO8601Time timegm_impl (pat "2016-02-29T12:30:00Z") = Ok (ts 16860 45000000)
  /\ fromDBTime timegm_impl (pat " 2016-02-29  12:30:00") = Ok (ts 16860 45000000)
  /\ fromISO8601Time timegm_impl (pat "2016-02-29T12:30:00.75Z") = Ok (ts 16860 45000000)
  /\ fromISO8601Time timegm_impl (pat "2016-02-29T12:30:00-01:30") = Ok (ts 16860 50400000)
  /\ fromISO8601Time timegm_impl (pat "2016-02-29T12:30:00-05:00") = Ok (ts 16862 45720000)
  /\ fromISO8601Time timegm_impl (pat "2016-02-29T12:30:00+01:00") = Throw
  /\ fromISO8601Time timegm_impl (pat "20160229T1230") = Throw
  /\ fromISO8601Time timegm_impl (pat "20160229Tnoon?!?") = Ok (ts 16860 0)
  /\ fromISO8601Time timegm_impl (pat "2016-W01") = Ok (ts 16801 0).
Proof.
  destruct epoch_ex as [e E]. pose proof (epoch_num e E) as EN.
  exists (Z.to_nat (Date_Proof.dn (Date_Spec.mkDate 2016 2 29))), (Z.to_nat (Date_Proof.dn (Date_Spec.mkDate 2016 1 1))), e.
  split; [assumption|].
  assert (D : forall y mo d, 0 <= y -> Date_Spec.valid (Date_Spec.mkDate y mo d) ->
    Date_Spec.date_after (Z.to_nat (Date_Proof.dn (Date_Spec.mkDate y mo d))) = Date_Spec.mkDate y mo d).
  { intros y mo d Hy V. apply Date_Proof.date_after_surj; [exact V|cbn; lia]. }
  rewrite !D by (try lia; unfold Date_Spec.valid; cbn; lia).
  split; [reflexivity|]. split; [reflexivity|].
  assert (Q : Z.of_nat (Z.to_nat (Date_Proof.dn (Date_Spec.mkDate 2016 1 1))) = 736329) by (rewrite Z2Nat.id; vm_compute; easy).
  unfold monday. rewrite Nat2Z.inj_add, Q, EN.
  split; [vm_compute; discriminate|]. split; [vm_compute; reflexivity|]. split; [exact (proj1 library_case)|]. split; [exact (proj1 (proj2 library_case))|].
  split; [unfold time_of_day; lia|]. repeat split; vm_compute; reflexivity.
Qed.
