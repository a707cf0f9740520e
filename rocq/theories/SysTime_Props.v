(** Properties of SysTime and Timeout (C277 to C283). *)
From Coq Require Import ZArith Lia ZifyBool.
From Verif Require Import Common SysTime_Spec SysTime_Model SysTime_Proof.
Local Open Scope Z_scope.

(** C277: sums and differences are exact *)
Theorem systime_arithmetic : forall a b, normal a -> normal b -> isNil a = false -> isNil b = false ->
  (exists c, add a b = Ok c /\ us c = us a + us b /\ 0 <= tusec c < 1000000 /\ (0 <= us a + us b -> isNil c = false)) /\
  (exists c, sub a b = Ok c /\ us c = us a - us b /\ 0 <= tusec c < 1000000 /\ (0 <= us a - us b -> isNil c = false)).
Proof.
  intros a b A B NA NB. split.
  - destruct (add_ok a b A B NA NB) as (c & E & U & V). exists c. split; [exact E|]. split; [exact U|]. split; [exact V|].
    intros H. destruct (isNil c) eqn:N; [|reflexivity]. apply nil_iff in N; [|exact V]. lia.
  - destruct (sub_ok a b A B NA NB) as (c & E & U & V). exists c. split; [exact E|]. split; [exact U|]. split; [exact V|].
    intros H. destruct (isNil c) eqn:N; [|reflexivity]. apply nil_iff in N; [|exact V]. lia.
Qed.
Print Assumptions systime_arithmetic.
Example arithmetic_ex : normal (mkTv 5 300000) /\ normal (mkTv 3 900000) /\ sub (mkTv 5 300000) (mkTv 3 900000) = Ok (mkTv 1 400000) /\
  sub (mkTv 3 900000) (mkTv 5 300000) = Ok (mkTv (-2) 600000).
Proof. unfold normal. cbn [tsec tusec]. repeat split; lia. Qed.

(** C278: a difference is never nil.  In fact one of less than a second below zero is. *)
Theorem systime_negative_refuted : forall a b, normal a -> normal b -> isNil a = false -> isNil b = false -> -1000000 <= us a - us b < 0 ->
  exists c, sub a b = Ok c /\ isNil c = true /\ msecs c = Ok naturalNull /\ forall x, add c x = Ok nilT.
Proof.
  intros a b A B NA NB H. destruct (sub_ok a b A B NA NB) as (c & E & U & V). exists c.
  assert (N : isNil c = true) by (apply nil_iff; [exact V|lia]). unfold msecs, add. rewrite N. auto.
Qed.
Print Assumptions systime_negative_refuted.
Example negative_ex : sub (mkTv 5 300000) (mkTv 5 300001) = Ok (mkTv (-1) 999999) /\ add (mkTv (-1) 999999) (mkTv 5 300001) = Ok nilT.
Proof. split; reflexivity. Qed.

(** C279: the readings of a span *)
Theorem systime_readings : forall t, normal t -> 0 <= tsec t < 2 ^ 53 ->
  msecs t = Ok (us t / 1000) /\ secs t = us t / 1000000 /\ mins t = us t / (60 * 1000000) /\ hours t = us t / (3600 * 1000000) /\ days t = us t / (86400 * 1000000) /\
  0 <= msec t < 1000 /\ 0 <= sec t < 60 /\ 0 <= min t < 60 /\ 0 <= hour t < 24 /\
  us t = span (days t) (hour t) (min t) (sec t) (msec t) + us t mod 1000.
Proof.
  intros t (A & A') B.
  assert (N : isNil t = false) by (unfold isNil; lia).
  assert (S0 : us t / 1000000 = tsec t) by (symmetry; apply (Z.div_unique _ _ _ (tusec t)); unfold us; lia).
  assert (S1 : us t / 1000 = tsec t * 1000 + tusec t / 1000).
  { unfold us. replace (tsec t * 1000000 + tusec t) with ((tsec t * 1000) * 1000 + tusec t) by lia. rewrite Z.div_add_l by lia. reflexivity. }
  assert (S2 : us t mod 1000 = tusec t mod 1000).
  { unfold us. replace (tsec t * 1000000 + tusec t) with (tusec t + (tsec t * 1000) * 1000) by lia. apply Z.mod_add. lia. }
  assert (S3 : forall k, 0 < k -> us t / (k * 1000000) = tsec t / k).
  { intros k K. rewrite (Z.mul_comm k), <- Z.div_div by lia. rewrite S0. reflexivity. }
  assert (D : forall k, 0 < k -> 0 <= tsec t / k <= tsec t).
  { intros k K. split; [apply Z.div_pos; lia|]. rewrite <- (Z.div_1_r (tsec t)) at 2. apply Z.div_le_compat_l; lia. }
  unfold msecs, secs, mins, hours, days, msec, sec, min, hour. rewrite N. change (3600 * 24) with 86400.
  pose proof (D 60 ltac:(lia)) as D1. pose proof (D 3600 ltac:(lia)) as D2. pose proof (D 86400 ltac:(lia)) as D3.
  assert (Q : 0 <= tusec t / 1000 < 1000) by (split; [apply Z.div_pos; lia|apply Z.div_lt_upper_bound; lia]).
  rewrite !quot_nn, !rem_nn by lia. rewrite !S3 by lia. rewrite S0, S1, S2.
  pose proof (Z.mod_pos_bound (tsec t) 60 ltac:(lia)). pose proof (Z.mod_pos_bound (tsec t / 60) 60 ltac:(lia)). pose proof (Z.mod_pos_bound (tsec t / 3600) 24 ltac:(lia)).
  rewrite !u64_small by lia. rewrite i64_ok by lia. cbn [obind]. rewrite i64_ok by lia. cbn [obind]. rewrite u64_small by lia.
  do 5 (split; [reflexivity|]). do 4 (split; [lia|]). unfold us, span.
  pose proof (Z.div_mod (tsec t) 60 ltac:(lia)) as E1. pose proof (Z.div_mod (tsec t / 60) 60 ltac:(lia)) as E2. pose proof (Z.div_mod (tsec t / 3600) 24 ltac:(lia)) as E3.
  pose proof (Z.div_mod (tusec t) 1000 ltac:(lia)) as E4.
  rewrite Z.div_div in E2 by lia. rewrite Z.div_div in E3 by lia. change (60 * 60) with 3600 in E2. change (3600 * 24) with 86400 in E3. lia.
Qed.
Print Assumptions systime_readings.
Example readings_ex : msecs (mkTv 93784 567890) = Ok 93784567 /\ days (mkTv 93784 567890) = 1 /\ hour (mkTv 93784 567890) = 2 /\ min (mkTv 93784 567890) = 3 /\
  sec (mkTv 93784 567890) = 4 /\ msec (mkTv 93784 567890) = 567.
Proof. vm_compute. repeat split. Qed.

(** C280: the span made of parts *)
Theorem systime_parts : forall d h m s ms, 0 <= d -> 0 <= h -> 0 <= m -> 0 <= s -> 0 <= ms -> span d h m s ms < 2 ^ 53 * 1000000 ->
  normal (ofParts d h m s ms) /\ us (ofParts d h m s ms) = span d h m s ms /\ isNil (ofParts d h m s ms) = false /\
  msecs (ofParts d h m s ms) = Ok (span d h m s ms / 1000).
Proof.
  intros d h m s ms D H M S MS B. destruct (ofParts_ok d h m s ms D H M S MS ltac:(lia)) as (U & V & W).
  revert U V W. generalize (ofParts d h m s ms). intros t U V W. assert (K : us t = tsec t * 1000000 + tusec t) by reflexivity.
  assert (N : normal t) by (split; [exact V|]; lia).
  split; [exact N|]. split; [exact U|]. split; [apply Z.eqb_neq; lia|].
  destruct (systime_readings t N) as (R & _); [lia|]. rewrite R, U. reflexivity.
Qed.
Print Assumptions systime_parts.
Example parts_ex : ofParts 1 2 3 4 5678 = mkTv 93789 678000.
Proof. reflexivity. Qed.

(** C281: a timeout a number of milliseconds after a point of time *)
Theorem timeout_after : forall tm ms t, normal tm -> 0 <= tsec tm < 2 ^ 61 -> normal t -> 0 <= tsec t -> 0 <= ms < 2 ^ 64 -> exists e,
  after tm ms = Ok e /\
  (isInfinite e = true <-> ms = naturalNull) /\
  let x := if ms =? naturalNull then None else Some (us tm + ms * 1000) in
  (expired e t = true <-> is_over x (us t)) /\
  exists r, getRemain e t = Ok r /\ view r = remains x (us t).
Proof.
  intros tm ms t A A' B B' M. unfold after. destruct (Z.eqb_spec ms naturalNull) as [E|E].
  - exists nilT. split; [reflexivity|]. split; [split; auto|]. unfold expired, getRemain. cbn [is_over remains].
    assert (X : isNil nilT = true) by reflexivity. rewrite X, Bool.orb_true_r. split; [split; [discriminate|contradiction]|]. exists nilT. split; reflexivity.
  - unfold naturalNull in E. assert (N : isNil tm = false) by (unfold isNil; lia). assert (NT : isNil t = false) by (unfold isNil; lia).
    destruct (ofParts_ok 0 0 0 0 ms) as (U & V & W); [lia..|unfold span; lia|]. unfold span in U.
    revert U V W. generalize (ofParts 0 0 0 0 ms). intros p U V W.
    assert (P : normal p) by (split; [exact V|]; unfold us in U; lia).
    assert (NP : isNil p = false) by (unfold isNil; lia).
    destruct (add_ok tm p A P N NP) as (e & Q & X & Y). exists e. split; [exact Q|].
    assert (R : us e = us tm + ms * 1000) by lia.
    assert (NE : isNil e = false) by (destruct (isNil e) eqn:I; [|reflexivity]; apply nil_iff in I; [unfold us in *; destruct A; lia|exact Y]).
    split; [unfold isInfinite; rewrite NE; unfold naturalNull; split; [discriminate|lia]|]. cbn [is_over remains].
    assert (G : expired e t = (us e <? us t)) by (unfold expired, gtT; rewrite NE, NT; cbn [orb]; destruct B; apply less_us; assumption).
    split; [rewrite G, R; lia|]. unfold getRemain. rewrite NE, NT. cbn [orb]. rewrite G. destruct (Z.ltb_spec (us e) (us t)).
    + exists zeroT. split; [reflexivity|]. unfold view. cbn. f_equal. lia.
    + assert (C : normal e) by (split; [exact Y|]; unfold us in *; destruct A, P; lia).
      destruct (sub_ok e t C B NE NT) as (r & R1 & R2 & R3). exists r. split; [exact R1|]. unfold view.
      assert (NR : isNil r = false) by (destruct (isNil r) eqn:I; [|reflexivity]; apply nil_iff in I; [lia|exact R3]). rewrite NR, R2. f_equal. lia.
Qed.
Print Assumptions timeout_after.
Example after_ex : after (mkTv 1000 900000) 2500 = Ok (mkTv 1003 400000) /\ expired (mkTv 1003 400000) (mkTv 1003 400000) = false /\
  expired (mkTv 1003 400000) (mkTv 1003 400001) = true /\ getRemain (mkTv 1003 400000) (mkTv 1002 500000) = Ok (mkTv 0 900000).
Proof. vm_compute. repeat split. Qed.

(** C282: the order of timeouts is that of their expiry, an infinite one is the last *)
Theorem timeout_order : forall a b, 0 <= tusec a < 1000000 -> 0 <= tusec b < 1000000 -> (lessThan a b = true <-> sooner (view a) (view b)).
Proof.
  intros a b A B. unfold lessThan, view. destruct (isNil a) eqn:NA; cbn [sooner]; [split; [discriminate|contradiction]|].
  destruct (isNil b) eqn:NB; [split; auto|]. rewrite less_us by assumption. cbn [sooner]. lia.
Qed.
Print Assumptions timeout_order.
Example order_ex : lessThan (mkTv 5 3) (mkTv 5 4) = true /\ lessThan (mkTv 5 3) nilT = true /\ lessThan nilT (mkTv 5 3) = false.
Proof. vm_compute. repeat split. Qed.

(** C283: timeouts are equal only if they expire at the same time.  In fact an infinite one is
    equal to every other one, even those it is greater than. *)
Theorem timeout_equal_refuted : forall a, equalTo a nilT = true /\ equalTo nilT a = true /\ (isNil a = false -> lessThan a nilT = true).
Proof.
  intros a. unfold equalTo, lessThan, eqT, less. assert (X : isNil nilT = true) by reflexivity. rewrite X, !Bool.orb_true_r, !Bool.andb_true_r. cbn [orb negb andb].
  destruct (isNil a); repeat split. discriminate.
Qed.
Print Assumptions timeout_equal_refuted.
Example equal_ex : exists a, after (mkTv 1000 0) 10 = Ok a /\ isInfinite a = false /\ equalTo a nilT = true.
Proof. exists (mkTv 1000 10000). repeat split. Qed.
