From Coq Require Import ZArith Lia.
From Verif Require Import Common Date_Model Date_Spec.
Local Open Scope Z_scope.
Ltac Zify.zify_post_hook ::= Z.div_mod_to_equations.

Definition ybound : Z := 10 ^ 15.

Lemma wrap_small z : - 2 ^ 63 <= z < 2 ^ 63 -> wrap64 z = z.
Proof. intros H. unfold wrap64. rewrite Z.mod_small; [lia|]. change (2 ^ 64) with (2 * 2 ^ 63). lia. Qed.

Lemma intDiv_eq v d : 0 <= v < 2 ^ 63 -> 0 < d -> intDiv v d = v / d.
Proof.
  intros Hv Hd. unfold intDiv. destruct (Z.ltb_spec v 0); [lia|].
  rewrite (Z.mod_small v) by (change (2 ^ 64) with (2 * 2 ^ 63); lia). rewrite Z.sub_0_r.
  apply wrap_small. assert (0 <= v / d) by (apply Z.div_pos; lia).
  assert (v / d <= v) by (apply Z.div_le_upper_bound; nia). lia.
Qed.
Lemma intModW_eq v d : 0 <= v < 2 ^ 63 -> 0 < d -> intModW v d (v / d) = v mod d.
Proof.
  intros Hv Hd. unfold intModW. rewrite Z.mod_eq by lia. rewrite (Z.mul_comm d). apply wrap_small.
  pose proof (Z.div_mod v d). pose proof (Z.mod_pos_bound v d). 
  assert (0 <= v / d) by (apply Z.div_pos; lia). nia.
Qed.
Lemma intMod_eq v d : 0 <= v < 2 ^ 63 -> 0 < d -> intMod v d = v mod d.
Proof. intros. unfold intMod. rewrite intDiv_eq by auto. apply intModW_eq; auto. Qed.

Lemma isLeap_eq y : 0 <= y < 2 ^ 63 -> isLeapYear y = leap y.
Proof.
  intros H. unfold isLeapYear, leap. rewrite !intMod_eq by lia.
  destruct (Z.eqb_spec (y mod 4) 0); destruct (Z.eqb_spec (y mod 100) 0); destruct (Z.eqb_spec (y mod 400) 0);
    cbn; auto; lia.
Qed.

Definition ydays (y : Z) : Z := y * 365 + (y + 3) / 4 - (y + 99) / 100 + (y + 399) / 400.
Lemma daysToYear_eq y : 0 <= y <= 2 * ybound -> daysToYear y = ydays y.
Proof.
  intros H. unfold daysToYear, ydays. unfold ybound in H. change (10 ^ 15) with 1000000000000000 in H.
  rewrite !intDiv_eq; try lia; change (2 ^ 63) with 9223372036854775808; lia.
Qed.
Lemma ydays_step y : 0 <= y -> ydays (y + 1) = ydays y + 365 + (if leap y then 1 else 0).
Proof.
  intros H. unfold ydays, leap.
  destruct (Z.eqb_spec (y mod 4) 0); destruct (Z.eqb_spec (y mod 100) 0); destruct (Z.eqb_spec (y mod 400) 0);
    cbn [andb orb negb]; lia.
Qed.
Lemma ydays_mono y k : 0 <= y -> 0 <= k -> ydays y + 365 * k <= ydays (y + k).
Proof. intros H K. unfold ydays. lia. Qed.
Lemma ydays_lt y z : 0 <= y -> y < z -> ydays (y + 1) <= ydays z.
Proof.
  intros. replace z with ((y + 1) + (z - y - 1)) by lia. pose proof (ydays_mono (y + 1) (z - y - 1)). lia.
Qed.

(** length of month m (0 based) read from the table *)
Lemma dpm_eq y m : 0 <= m < 12 -> dpm (leap y) m = Ok (month_length y (m + 1)).
Proof.
  intros H. assert (m = 0 \/ m = 1 \/ m = 2 \/ m = 3 \/ m = 4 \/ m = 5 \/ m = 6 \/ m = 7 \/ m = 8 \/ m = 9 \/ m = 10 \/ m = 11) as D by lia.
  unfold month_length, dpm, daysPerMonth.
  repeat destruct D as [->|D]; try subst m; destruct (leap y); reflexivity.
Qed.
Lemma month_length_bounds y m : 28 <= month_length y m <= 31.
Proof. unfold month_length. destruct (m =? 2); [destruct (leap y)|destruct (_ || _)]; lia. Qed.

Definition msum (y m : Z) : Z := monthSum (leap y) m.
Lemma msum_step y m : 0 <= m < 12 -> msum y (m + 1) = msum y m + month_length y (m + 1).
Proof.
  intros H. assert (m = 0 \/ m = 1 \/ m = 2 \/ m = 3 \/ m = 4 \/ m = 5 \/ m = 6 \/ m = 7 \/ m = 8 \/ m = 9 \/ m = 10 \/ m = 11) as D by lia.
  unfold month_length, msum, monthSum, daysPerMonth.
  repeat destruct D as [->|D]; try subst m; destruct (leap y); reflexivity.
Qed.
Lemma msum_year y : msum y 12 = 365 + (if leap y then 1 else 0).
Proof. unfold msum, monthSum, daysPerMonth. destruct (leap y); reflexivity. Qed.
Lemma msum_0 y : msum y 0 = 0.
Proof. reflexivity. Qed.
Lemma msum_mono y m n : 0 <= m -> m < n -> n <= 12 -> msum y (m + 1) <= msum y n.
Proof.
  intros H1 H2 H3. replace n with ((m + 1) + Z.of_nat (Z.to_nat (n - m - 1))) in * by lia.
  generalize dependent (Z.to_nat (n - m - 1)). clear n. intros k. induction k; intros H2 H3.
  - rewrite Z.add_0_r. lia.
  - replace (m + 1 + Z.of_nat (S k)) with (m + 1 + Z.of_nat k + 1) by lia.
    rewrite (msum_step y (m + 1 + Z.of_nat k)) by lia. specialize (IHk ltac:(lia) ltac:(lia)).
    pose proof (month_length_bounds y (m + 1 + Z.of_nat k + 1)). lia.
Qed.

(** the number of a date, as a formula *)
Definition dn (d : date) : Z := ydays (year d) + msum (year d) (month d - 1) + (day d - 1).

Lemma dn_next d : valid d -> 0 <= year d -> dn (next_day d) = dn d + 1 /\ valid (next_day d) /\ year d <= year (next_day d) <= year d + 1.
Proof.
  destruct d as [y m d]. unfold valid, next_day, dn. cbn [year month day]. intros [Hm Hd] Hy.
  destruct (Z.ltb_spec d (month_length y m)); cbn [year month day].
  - repeat split; lia.
  - destruct (Z.ltb_spec m 12); cbn [year month day].
    + replace (m + 1 - 1) with (m - 1 + 1) by lia. rewrite msum_step by lia. replace (m - 1 + 1) with m by lia.
      pose proof (month_length_bounds y (m + 1)). repeat split; lia.
    + assert (m = 12) by lia. subst m.
      change (1 - 1) with 0. rewrite msum_0, ydays_step by lia.
      pose proof (msum_step y 11 ltac:(lia)) as E. change (11 + 1) with 12 in E. rewrite msum_year in E.
      change (12 - 1) with 11. change (month_length (y + 1) 1) with 31. repeat split; lia.
Qed.

Lemma date_after_ok n : valid (date_after n) /\ 0 <= year (date_after n) <= Z.of_nat n /\ dn (date_after n) = Z.of_nat n.
Proof.
  induction n as [|n (V & Y & D)].
  - cbn. repeat split; try lia; cbn; lia.
  - cbn [date_after]. destruct (dn_next _ V ltac:(lia)) as (D' & V' & Y'). split; [exact V'|]. split; lia.
Qed.

Lemma valid_bounds d : valid d -> 0 <= msum (year d) (month d - 1) /\
  msum (year d) (month d - 1) + (day d - 1) < msum (year d) (month d) <= 365 + (if leap (year d) then 1 else 0).
Proof.
  intros [Hm Hd]. pose proof (msum_step (year d) (month d - 1) ltac:(lia)) as E.
  replace (month d - 1 + 1) with (month d) in E by lia.
  assert (0 <= msum (year d) (month d - 1)).
  { destruct (Z.eq_dec (month d) 1) as [->|]; [rewrite msum_0; lia|].
    pose proof (msum_mono (year d) 0 (month d - 1) ltac:(lia) ltac:(lia) ltac:(lia)).
    pose proof (msum_step (year d) 0 ltac:(lia)). rewrite msum_0 in *.
    pose proof (month_length_bounds (year d) (0 + 1)). lia. }
  split; auto. split; [lia|]. rewrite <- msum_year.
  destruct (Z.eq_dec (month d) 12) as [->|]; [lia|].
  pose proof (msum_mono (year d) (month d - 1) 12 ltac:(lia) ltac:(lia) ltac:(lia)) as M.
  replace (month d - 1 + 1) with (month d) in M by lia. exact M.
Qed.

Lemma dn_year d : valid d -> 0 <= year d -> ydays (year d) <= dn d < ydays (year d + 1).
Proof.
  intros V Y. pose proof (valid_bounds d V). rewrite ydays_step by lia. unfold dn.
  destruct V as [Vm Vd]. lia.
Qed.

Lemma year_unique y n z : 0 <= y -> 0 <= z -> ydays y <= n < ydays (y + 1) -> ydays z <= n < ydays (z + 1) -> y = z.
Proof.
  intros. destruct (Z.lt_trichotomy y z) as [L|[E|L]]; auto.
  - pose proof (ydays_lt y z). lia.
  - pose proof (ydays_lt z y). lia.
Qed.

Lemma dn_inj a b : valid a -> valid b -> 0 <= year a -> 0 <= year b -> dn a = dn b -> a = b.
Proof.
  intros Va Vb Ya Yb E. pose proof (dn_year a Va Ya). pose proof (dn_year b Vb Yb).
  assert (year a = year b) as Ey by (eapply year_unique; eauto; lia).
  pose proof (valid_bounds a Va). pose proof (valid_bounds b Vb).
  destruct a as [y m d], b as [y2 m2 d2]. cbn [year month day] in *. subst y2.
  unfold dn in E. cbn [year month day] in E. destruct Va as [Ma Da], Vb as [Mb Db]. cbn [year month day] in *.
  assert (m = m2).
  { destruct (Z.lt_trichotomy m m2) as [L|[Em|L]]; auto; exfalso.
    - pose proof (msum_mono y (m - 1) (m2 - 1) ltac:(lia) ltac:(lia) ltac:(lia)) as M.
      replace (m - 1 + 1) with m in M by lia. lia.
    - pose proof (msum_mono y (m2 - 1) (m - 1) ltac:(lia) ltac:(lia) ltac:(lia)) as M.
      replace (m2 - 1 + 1) with m2 in M by lia. lia. }
  subst m2. f_equal. lia.
Qed.

Lemma dn_nonneg d : valid d -> 0 <= year d -> 0 <= dn d.
Proof.
  intros V Y. pose proof (dn_year d V Y). assert (0 <= ydays (year d)) by (unfold ydays; lia). lia.
Qed.

Lemma date_after_surj d : valid d -> 0 <= year d -> date_after (Z.to_nat (dn d)) = d.
Proof.
  intros V Y. pose proof (dn_nonneg d V Y). destruct (date_after_ok (Z.to_nat (dn d))) as (V' & Y' & D').
  apply dn_inj; auto; lia.
Qed.

(** the adjusting loop on months 0.. and days 1..365 *)
Lemma adjust_ok f : forall y m d, 0 <= y -> 0 <= m -> y + m + Z.of_nat f <= ybound -> 1 <= d <= 365 -> d <= 28 * Z.of_nat f -> 
  exists y' m' d', adjust f y m d = Ok (y', m', d') /\ valid (mkDate y' (m' + 1) d') /\ 0 <= y' <= ybound
    /\ dn (mkDate y' (m' + 1) d') = ydays (y + m / 12) + msum (y + m / 12) (m mod 12) + d - 1.
Proof.
  induction f as [|f IH]; intros y m d Hy Hm Hb Hd Hf; [lia|].
  assert (Hyb : ybound < 2 ^ 50) by reflexivity. change (2 ^ 50) with 1125899906842624 in Hyb.
  assert (H63 : 2 ^ 63 = 9223372036854775808) by reflexivity.
  cbn [adjust]. rewrite intDiv_eq by lia. rewrite intModW_eq by lia. rewrite isLeap_eq by lia.
  set (y1 := y + m / 12). set (m1 := m mod 12).
  assert (Hm1 : 0 <= m1 < 12) by (unfold m1; lia).
  assert (Hy1 : 0 <= y1) by (unfold y1; lia).
  destruct (Z.ltb_spec (365 + (if leap y1 then 1 else 0)) d); [destruct (leap y1); lia|].
  destruct (Z.ltb_spec d (1 - (365 + (if leap y1 then 1 else 0)))); [destruct (leap y1); lia|].
  rewrite dpm_eq by exact Hm1. cbn [obind].
  pose proof (month_length_bounds y1 (m1 + 1)).
  destruct (Z.ltb_spec (month_length y1 (m1 + 1)) d).
  - destruct (IH y1 (m1 + 1) (d - month_length y1 (m1 + 1))) as (y' & m' & d' & E & V & B & D); try lia.
    exists y', m', d'. split; [exact E|]. split; [exact V|]. split; [exact B|].
    rewrite D. destruct (Z.eq_dec m1 11) as [E11|N11].
    + rewrite E11. change ((11 + 1) / 12) with 1. change ((11 + 1) mod 12) with 0. rewrite ydays_step by lia.
      rewrite msum_0. pose proof (msum_step y1 11 ltac:(lia)) as M. change (11 + 1) with 12 in *.
      rewrite msum_year in M. rewrite E11 in *. change (11 + 1) with 12 in *. lia.
    + rewrite (Z.div_small (m1 + 1)), (Z.mod_small (m1 + 1)) by lia. rewrite Z.add_0_r.
      rewrite msum_step by lia. lia.
  - destruct (Z.ltb_spec d 1); [lia|].
    exists y1, m1, d. split; [reflexivity|]. split; [unfold valid; cbn; lia|]. split; [unfold y1; lia|].
    unfold dn. cbn [year month day]. replace (m1 + 1 - 1) with m1 by lia. lia.
Qed.

Lemma adjust_mono k f : forall y m d r, adjust f y m d = Ok r -> adjust (f + k) y m d = Ok r.
Proof.
  induction f as [|f IH]; intros y m d r; [discriminate|]. cbn [adjust Nat.add].
  repeat match goal with
  | |- context [if ?b then _ else _] => destruct b
  | |- context [obind ?o _] => destruct o; cbn [obind]
  end; auto; try discriminate.
Qed.

Theorem adjusted f y m d : 0 <= y -> 1 <= m -> y + m + 15 <= ybound -> 1 <= d <= 365 ->
  dayNumber (14 + f) y m d = Ok (dn (mkDate (y + (m - 1) / 12) ((m - 1) mod 12 + 1) 1) + (d - 1)).
Proof.
  intros Hy Hm Hb Hd. unfold dayNumber. destruct (Z.eqb_spec m 0); [lia|].
  assert (A : exists y' m' d', adjust (14 + f) y (m - 1) d = Ok (y', m', d') /\ valid (mkDate y' (m' + 1) d') /\ 0 <= y' <= ybound
    /\ dn (mkDate y' (m' + 1) d') = ydays (y + (m - 1) / 12) + msum (y + (m - 1) / 12) ((m - 1) mod 12) + d - 1).
  { destruct (adjust_ok 14 y (m - 1) d) as (y' & m' & d' & E & H); try lia. exists y', m', d'. split; [|exact H].
    apply adjust_mono. exact E. }
  destruct A as (y' & m' & d' & E & V & B & D). rewrite E. cbn [obind]. f_equal.
  assert (ybound < 2 ^ 50) by reflexivity. change (2 ^ 50) with 1125899906842624 in *.
  rewrite isLeap_eq by (change (2 ^ 63) with 9223372036854775808; lia).
  rewrite daysToYear_eq by lia.
  unfold dn in *. cbn [year month day] in *. replace (m' + 1 - 1) with m' in D by lia.
  replace ((m - 1) mod 12 + 1 - 1) with ((m - 1) mod 12) by lia. fold (msum y' m'). lia.
Qed.

Theorem dayNumber_valid f d : valid d -> 0 <= year d -> year d + 30 <= ybound ->
  dayNumber (14 + f) (year d) (month d) (day d) = Ok (dn d).
Proof.
  intros V Y B. pose proof V as [Vm Vd]. pose proof (month_length_bounds (year d) (month d)).
  rewrite adjusted by lia. f_equal. rewrite Z.div_small, Z.mod_small by lia.
  unfold dn. cbn [year month day]. replace (year d + 0) with (year d) by lia.
  replace (month d - 1 + 1 - 1) with (month d - 1) by lia. lia.
Qed.

(** * from a day number to a date *)
Lemma yearBack_ok n (Hn : 0 <= n <= ybound) : forall k y, 0 <= y <= n -> ydays (y - Z.of_nat k) <= n < ydays (y + 1) -> Z.of_nat k <= y ->
  exists y', 0 <= y' <= y /\ ydays y' <= n < ydays (y' + 1) /\ forall fuel, (Z.to_nat y <= fuel)%nat -> yearBack fuel n y = Ok y'.
Proof.
  induction k as [|k IH]; intros y Hy Hk Hky.
  - exists y. rewrite Z.sub_0_r in Hk. split; [lia|]. split; [exact Hk|]. intros fuel _.
    destruct fuel; cbn [yearBack]; rewrite daysToYear_eq by lia; destruct (Z.ltb_spec n (ydays y)); auto; lia.
  - destruct (Z.lt_ge_cases n (ydays y)) as [L|L].
    + destruct (IH (y - 1)) as (y' & B & R & F); try lia.
      { replace (y - 1 - Z.of_nat k) with (y - Z.of_nat (S k)) by lia. replace (y - 1 + 1) with y by lia. lia. }
      exists y'. split; [lia|]. split; [exact R|]. intros fuel Hf. destruct fuel; [lia|]. cbn [yearBack].
      rewrite daysToYear_eq by lia. destruct (Z.ltb_spec n (ydays y)); [|lia]. apply F. lia.
    + exists y. split; [lia|]. split; [lia|]. intros fuel _.
      destruct fuel; cbn [yearBack]; rewrite daysToYear_eq by lia; destruct (Z.ltb_spec n (ydays y)); auto; lia.
Qed.

Lemma year_found n fuel : 0 <= n <= ybound -> (Z.to_nat (n / 365) <= fuel)%nat ->
  yearBack fuel n (intDiv n 365) = Ok (year (date_after (Z.to_nat n))).
Proof.
  intros Hn Hf. assert (ybound < 2 ^ 50) by reflexivity. change (2 ^ 50) with 1125899906842624 in *.
  rewrite intDiv_eq by (change (2 ^ 63) with 9223372036854775808; lia).
  destruct (yearBack_ok n Hn (Z.to_nat (n / 365)) (n / 365)) as (y' & B & R & F); try lia.
  { split.
    - replace (n / 365 - Z.of_nat (Z.to_nat (n / 365))) with 0 by lia. change (ydays 0) with 0. lia.
    - pose proof (ydays_mono 0 (n / 365 + 1) ltac:(lia) ltac:(lia)) as M. change (ydays 0) with 0 in M.
      rewrite !Z.add_0_l in M. lia. }
  rewrite F by exact Hf. f_equal.
  destruct (date_after_ok (Z.to_nat n)) as (V & Y & D).
  pose proof (dn_year _ V ltac:(lia)) as R2. rewrite D, Z2Nat.id in R2 by lia.
  eapply year_unique; eauto; lia.
Qed.

(** the month loop: exact for all days but the first of February to December *)
Lemma monthLoop_ok y : forall k m d, 0 <= m -> 1 <= d -> m + Z.of_nat k <= 11 ->
  forall fuel, (k <= fuel)%nat -> d <= month_length y (m + Z.of_nat k + 1) ->
  monthLoop fuel (leap y) (d + msum y (m + Z.of_nat k) - msum y m) m = Ok (d, m + Z.of_nat k).
Proof.
  induction k as [|k IH]; intros m d Hm Hd Hk fuel Hf Hl.
  - rewrite Z.add_0_r in *. replace (d + msum y m - msum y m) with d by lia.
    destruct fuel; cbn [monthLoop]; rewrite dpm_eq by lia; cbn [obind];
      destruct (Z.ltb_spec (month_length y (m + 1)) d); auto; lia.
  - destruct fuel; [lia|]. cbn [monthLoop]. rewrite dpm_eq by lia. cbn [obind].
    pose proof (msum_step y m ltac:(lia)) as M.
    pose proof (msum_mono y m (m + Z.of_nat (S k)) ltac:(lia) ltac:(lia) ltac:(lia)).
    destruct (Z.ltb_spec (month_length y (m + 1)) (d + msum y (m + Z.of_nat (S k)) - msum y m)); [|lia].
    replace (m + Z.of_nat (S k)) with (m + 1 + Z.of_nat k) in * by lia.
    replace (d + msum y (m + 1 + Z.of_nat k) - msum y m - month_length y (m + 1))
      with (d + msum y (m + 1 + Z.of_nat k) - msum y (m + 1)) by lia.
    apply IH; auto; lia.
Qed.

Lemma monthLoop_zero y : monthLoop 12 (leap y) 0 0 = Ok (0, 0).
Proof. destruct (leap y); reflexivity. Qed.

Definition month_day (d : date) : Z * Z :=
  if (day d =? 1) && negb (month d =? 1) then (month d - 1, month_length (year d) (month d - 1) + 1)
  else (month d, day d).

Theorem fromDayNumber n fuel : 0 <= n <= ybound -> (Z.to_nat (n / 365) <= fuel)%nat ->
  let d := date_after (Z.to_nat n) in
  dateFromDayNumber fuel n = Ok (mkPartsEx (mkParts (snd (month_day d)) (fst (month_day d)) (year d)) (n mod 7)
    (n - dn (mkDate (year d) 1 1) + 1)).
Proof.
  intros Hn Hf d. unfold dateFromDayNumber. rewrite year_found by auto. fold d. cbn [obind].
  assert (ybound < 2 ^ 50) by reflexivity. change (2 ^ 50) with 1125899906842624 in *.
  destruct (date_after_ok (Z.to_nat n)) as (V & Y & D). fold d in V, Y, D. rewrite Z2Nat.id in D, Y by lia.
  rewrite isLeap_eq by (change (2 ^ 63) with 9223372036854775808; lia).
  rewrite daysToYear_eq by lia. rewrite intMod_eq by (change (2 ^ 63) with 9223372036854775808; lia).
  unfold dn at 1. cbn [year month day]. rewrite msum_0, Z.add_0_r, Z.add_0_r.
  pose proof V as [Vm Vd].
  assert (E : monthLoop 12 (leap (year d)) (n - ydays (year d)) 0 = Ok (snd (month_day d) - 1, fst (month_day d) - 1)).
  { replace (n - ydays (year d)) with (msum (year d) (month d - 1) + (day d - 1)) by (unfold dn in D; lia).
    unfold month_day. destruct (Z.eqb_spec (day d) 1) as [E1|N1]; destruct (Z.eqb_spec (month d) 1) as [E2|N2]; cbn [andb negb fst snd].
    - rewrite E1, E2. change (1 - 1) with 0. rewrite msum_0. apply monthLoop_zero.
    - pose proof (msum_step (year d) (month d - 2) ltac:(lia)) as M.
      replace (month d - 2 + 1) with (month d - 1) in M by lia.
      pose proof (month_length_bounds (year d) (month d - 1)).
      pose proof (monthLoop_ok (year d) (Z.to_nat (month d - 2)) 0 (month_length (year d) (month d - 1)) ltac:(lia) ltac:(lia) ltac:(lia) 12) as L.
      rewrite Z2Nat.id, Z.add_0_l in L by lia. replace (month d - 2 + 1) with (month d - 1) in L by lia.
      rewrite msum_0 in L. specialize (L ltac:(lia) ltac:(lia)).
      replace (msum (year d) (month d - 1) + (day d - 1)) with (month_length (year d) (month d - 1) + msum (year d) (month d - 2) - 0) by lia.
      rewrite L. f_equal. f_equal; lia.
    - pose proof (monthLoop_ok (year d) (Z.to_nat (month d - 1)) 0 (day d - 1) ltac:(lia) ltac:(lia) ltac:(lia) 12) as L.
      rewrite Z2Nat.id, Z.add_0_l in L by lia. replace (month d - 1 + 1) with (month d) in L by lia.
      rewrite msum_0 in L. specialize (L ltac:(lia) ltac:(lia)).
      replace (msum (year d) (month d - 1) + (day d - 1)) with (day d - 1 + msum (year d) (month d - 1) - 0) by lia.
      rewrite L. reflexivity.
    - pose proof (monthLoop_ok (year d) (Z.to_nat (month d - 1)) 0 (day d - 1) ltac:(lia) ltac:(lia) ltac:(lia) 12) as L.
      rewrite Z2Nat.id, Z.add_0_l in L by lia. replace (month d - 1 + 1) with (month d) in L by lia.
      rewrite msum_0 in L. specialize (L ltac:(lia) ltac:(lia)).
      replace (msum (year d) (month d - 1) + (day d - 1)) with (day d - 1 + msum (year d) (month d - 1) - 0) by lia.
      rewrite L. reflexivity. }
  rewrite E. cbn [obind]. unfold newPartsEx. repeat f_equal; lia.
Qed.

Theorem unix_days t : 0 <= t < 2 ^ 63 -> unixTimeToDays t = t / 86400
  /\ daysToUnixTime (unixTimeToDays t) = t - t mod 86400.
Proof.
  intros H. change (2 ^ 63) with 9223372036854775808 in H.
  assert (E : unixTimeToDays t = t / 86400).
  { unfold unixTimeToDays. rewrite (Z.mod_small t) by (change (2 ^ 64) with 18446744073709551616; lia).
    apply wrap_small. change (2 ^ 63) with 9223372036854775808. lia. }
  split; [exact E|]. rewrite E. unfold daysToUnixTime.
  rewrite (Z.mod_small (t / 86400)) by (change (2 ^ 64) with 18446744073709551616; lia).
  rewrite (Z.mod_small (t / 86400 * 86400)) by (change (2 ^ 64) with 18446744073709551616; lia).
  rewrite wrap_small by (change (2 ^ 63) with 9223372036854775808; lia). lia.
Qed.
