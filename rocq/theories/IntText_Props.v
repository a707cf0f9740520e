(** C40, C57, C58: integers as text. *)
From Coq Require Import ZArith Lia.
From Verif Require Import Common Rational_Model Rational_Proof IntText_Model IntText_Spec IntText_Proof.
Local Open Scope Z_scope.

(** C40: an unsigned number is formatted as its numeral, without leading zeros, and reading
    it back (with anything behind it that is not a digit) gives the number. *)
Theorem C40_unsigned : forall v b up rest, 0 <= v < 2 ^ 64 -> 2 <= b <= 36 -> no_digit b rest ->
  exists s, formatU v b up = Ok s /\ numeral b s v /\ no_leading_zero s
    /\ parseU u64 b (s ++ rest) = (true, v, rest).
Proof.
  intros v b up rest Hv Hb R. destruct (formatU_ok b Hb up v Hv) as (s & E & N & Z).
  exists s. split; [exact E|]. split; [exact N|]. split; [exact Z|].
  rewrite (parseU_u64 b s v rest N R), u64_small by exact Hv. reflexivity.
Qed.
Print Assumptions C40_unsigned.

Example c40_demo : formatU 18446744073709551615 36 false = Ok [51; 119; 53; 101; 49; 49; 50; 54; 52; 115; 103; 115; 102]
  /\ no_digit 10 [44; 53].
Proof. split; [vm_compute; reflexivity|]. cbn. intros d D. remember 44 as c eqn:E. destruct D; lia. Qed.

(** C57: signed numbers.  All but the smallest one round-trip... *)
Theorem C57_signed_partial : forall v b up rest, - 2 ^ 63 < v < 2 ^ 63 -> 2 <= b <= 36 -> no_digit b rest ->
  exists s, formatS v b up = Ok s /\ parseS b (s ++ rest) = Ok (true, v, rest)
    /\ exists s', numeral b s' (Z.abs v) /\ s = (if v <? 0 then 45 :: s' else s').
Proof. intros v b up rest Hv Hb R. apply formatS_parse; auto. Qed.
Print Assumptions C57_signed_partial.

(** ... and the smallest one is negated, which is undefined, both ways. *)
Theorem C57_signed_refuted : forall b up, 2 <= b <= 36 ->
  formatS (- 2 ^ 63) b up = Undef
  /\ forall s, numeral b s (2 ^ 63) -> parseS b (45 :: s) = Undef.
Proof.
  intros b up Hb. split; [reflexivity|]. intros s N. cbn [parseS].
  change (45 =? 43) with false. change (45 =? 45) with true. cbn iota.
  rewrite <- (app_nil_r s). rewrite (parseU_s64 b s _ [] N I). reflexivity.
Qed.
Print Assumptions C57_signed_refuted.

Example c57_demo : formatS (-255) 16 true = Ok [45; 70; 70] /\ parseS 16 [45; 70; 70] = Ok (true, -255, [])
  /\ exists s, numeral 10 s (2 ^ 63).
Proof.
  split; [reflexivity|]. split; [reflexivity|].
  destruct (formatU_ok 10 ltac:(lia) false (2 ^ 63) ltac:(lia)) as (s & _ & N & _). eauto.
Qed.

(** C58 is false: a numeral too large for the type is accepted; what is stored is its value
    modulo 2^64. *)
Theorem C58_overflow_refuted : forall b s v, 2 <= b <= 36 -> numeral b s v -> 2 ^ 64 <= v ->
  parseU u64 b s = (true, v mod 2 ^ 64, []) /\ v mod 2 ^ 64 <> v.
Proof.
  intros b s v Hb N H. split.
  - rewrite <- (app_nil_r s) at 1. apply (parseU_u64 b s v [] N I).
  - pose proof (Z.mod_pos_bound v (2 ^ 64) ltac:(lia)). lia.
Qed.
Print Assumptions C58_overflow_refuted.

Example c58_demo : parseU u64 10 [49;56;52;52;54;55;52;52;48;55;51;55;48;57;53;53;49;54;49;54] = (true, 0, []).
Proof. reflexivity. Qed.
