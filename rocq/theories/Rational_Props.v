(** C46 and C53-C56: rational numbers. *)
From Coq Require Import ZArith Lia QArith Qround.
From Verif Require Import Common Rational_Model Rational_Spec Rational_Proof.
Local Open Scope Z_scope.

(** C56: [rational::gcd] is the greatest common divisor, for all 64 bit numbers. *)
Theorem C56_gcd : forall u v, 0 <= u < 2 ^ 64 -> 0 <= v < 2 ^ 64 -> gcd u v = Ok (Z.gcd u v).
Proof. exact gcd_ok. Qed.
Print Assumptions C56_gcd.

Example c56_demo : gcd 18446744073709551612 6148914691236517204 = Ok 6148914691236517204 /\ gcd 0 7 = Ok 7.
Proof. vm_compute. auto. Qed.

(** ** C46 *)
(** The raw numerator and denominator an operation computes before it reduces them. *)
Definition raw_add (a b : rational) := (num a * den b + num b * den a, den a * den b).
Definition raw_sub (a b : rational) := (num a * den b - num b * den a, den a * den b).
Definition raw_mul (a b : rational) := (num a * num b, den a * den b).
Definition raw_div (a b : rational) := (num a * (Z.sgn (num b) * den b), den a * Z.abs (num b)).
Definition fits (p : Z * Z) : Prop := - 2 ^ 63 < fst p < 2 ^ 63 /\ 0 < snd p < 2 ^ 64.
(** the results the code gets right *)
Definition benign (p : Z * Z) : Prop := 0 <= fst p \/ Z.gcd (fst p) (snd p) = 1.

Definition exact (o : outcome rational) (q : Q) : Prop :=
  exists r, o = Ok r /\ is_rat r /\ lowest_terms r /\ ratQ r == q.

Lemma normalize_exact p : fits p -> benign p -> exact (normalize 3 (mkRat (fst p) (snd p))) (Qmake (fst p) (Z.to_pos (snd p))).
Proof.
  destruct p as [n d]. cbn [fst snd]. intros [Hn Hd] B. cbn [fst snd] in *.
  assert (R : rat_ok (mkRat n d)) by (split; cbn; lia).
  destruct (Z.lt_ge_cases n 0) as [L|L].
  - destruct B as [B|B]; [cbn in B; lia|]. exists (mkRat n d).
    rewrite normalize_done by auto. split; auto. split; [exact R|]. split; [exact B|]. reflexivity.
  - destruct (normalize_nonneg 2 (mkRat n d) R L) as (g & a & b & E & G & Ea & Eb & C & R' & A).
    cbn [num den] in *. exists (mkRat a b). split; [exact E|]. split; [exact R'|]. split; [exact C|].
    destruct R' as [_ Rb]. cbn [den] in Rb.
    unfold Qeq, ratQ. cbn [Qnum Qden num den]. rewrite !Z2Pos.id by lia. rewrite Ea, Eb. ring.
Qed.

Lemma signed_range z : - 2 ^ 63 < z < 2 ^ 63 -> s64 (u64 z) = z.
Proof. intros H. rewrite s64_u64. apply s64_small. lia. Qed.

(** Exact and in lowest terms, if the raw result fits 64 bits and is not a negative
    fraction that still has to be reduced. *)
Theorem C46_arithmetic_partial : forall a b, is_rat a -> is_rat b ->
  (fits (raw_add a b) -> benign (raw_add a b) -> exact (ratAdd a b) (ratQ a + ratQ b))
  /\ (fits (raw_sub a b) -> benign (raw_sub a b) -> exact (ratSub a b) (ratQ a - ratQ b))
  /\ (fits (raw_mul a b) -> benign (raw_mul a b) -> exact (ratMul a b) (ratQ a * ratQ b))
  /\ (num b <> 0 -> den b < 2 ^ 63 -> fits (raw_div a b) -> benign (raw_div a b) -> exact (ratDiv a b) (ratQ a / ratQ b)).
Proof.
  intros a b [Na Da] [Nb Db].
  assert (K : forall o q q', exact o q -> q == q' -> exact o q').
  { intros o q q' (r & E & H1 & H2 & H3) Q. exists r. split; [exact E|]. split; [exact H1|]. split; [exact H2|].
    rewrite H3. exact Q. }
  assert (P : forall x y, 0 < x -> 0 < y -> Zpos (Z.to_pos x * Z.to_pos y) = x * y).
  { intros x y Hx Hy. rewrite Pos2Z.inj_mul, !Z2Pos.id; auto. }
  repeat split.
  - intros F B. pose proof (normalize_exact _ F B) as X. destruct F as [F1 F2]. cbn [raw_add fst snd] in *.
    unfold ratAdd. rewrite signed_range, u64_small by lia. eapply K; [exact X|].
    unfold Qeq, Qplus, ratQ. cbn [Qnum Qden]. rewrite P by lia. rewrite !Z2Pos.id by nia. reflexivity.
  - intros F B. pose proof (normalize_exact _ F B) as X. destruct F as [F1 F2]. cbn [raw_sub fst snd] in *.
    unfold ratSub. rewrite signed_range, u64_small by lia. eapply K; [exact X|].
    unfold Qeq, Qminus, Qopp, Qplus, ratQ. cbn [Qnum Qden]. rewrite P by lia. rewrite !Z2Pos.id by nia. ring.
  - intros F B. pose proof (normalize_exact _ F B) as X. destruct F as [F1 F2]. cbn [raw_mul fst snd] in *.
    unfold ratMul. rewrite signed_ok, u64_small by lia. cbn [obind]. eapply K; [exact X|].
    unfold Qeq, Qmult, ratQ. cbn [Qnum Qden]. rewrite P by lia. rewrite !Z2Pos.id by nia. reflexivity.
  - intros Hb Hd F B. pose proof (normalize_exact _ F B) as X. destruct F as [F1 F2]. unfold raw_div in *. cbn [fst snd] in *.
    unfold ratDiv, inv. rewrite s64_small by lia. destruct (Z.ltb_spec (num b) 0).
    + rewrite Z.sgn_neg, Z.abs_neq in * by lia.
      rewrite !signed_ok by lia. cbn [obind]. unfold ratMul. cbn [num den]. rewrite (u64_small (- num b)) by lia.
      replace (num a * - den b) with (num a * (-1 * den b)) by lia.
      rewrite signed_ok, u64_small by lia. cbn [obind]. eapply K; [exact X|].
      unfold Qeq, Qdiv, Qmult, Qinv, ratQ. cbn [Qnum Qden]. destruct (num b) as [|p|p] eqn:E; try lia.
      cbn [Qnum Qden]. replace (- Z.neg p) with (Z.pos p) in * by reflexivity.
      rewrite <- (Z2Pos.id (den a)) at 2 by lia. rewrite Z2Pos.id by lia.
      rewrite Pos2Z.inj_mul, Z2Pos.id by lia.
      change (Z.neg (Z.to_pos (den b))) with (- Z.pos (Z.to_pos (den b))). rewrite Z2Pos.id by lia. ring.
    + rewrite Z.sgn_pos, Z.abs_eq in * by lia. cbn [obind]. unfold ratMul. cbn [num den]. rewrite (u64_small (num b)) by lia.
      replace (num a * den b) with (num a * (1 * den b)) by lia.
      rewrite signed_ok, u64_small by lia. cbn [obind]. eapply K; [exact X|].
      unfold Qeq, Qdiv, Qmult, Qinv, ratQ. cbn [Qnum Qden]. destruct (num b) as [|p|p] eqn:E; try lia.
      cbn [Qnum Qden]. rewrite Pos2Z.inj_mul, !Z2Pos.id by lia. ring.
Qed.
Print Assumptions C46_arithmetic_partial.

Example c46_demo : exact (ratAdd (mkRat 1 2) (mkRat 1 6)) (2 # 3) /\ exact (ratSub (mkRat 1 2) (mkRat 5 3)) (-7 # 6)
  /\ fits (raw_sub (mkRat 1 2) (mkRat 5 3)) /\ benign (raw_sub (mkRat 1 2) (mkRat 5 3)).
Proof.
  split; [exists (mkRat 2 3)|split; [exists (mkRat (-7) 6)|]];
    try (split; [vm_compute; reflexivity|]; split; [split; cbn; lia|]; split; [reflexivity|]; vm_compute; reflexivity).
  split; [split; cbn; lia|]. right. reflexivity.
Qed.

(** C46 is false for negative results: whenever such a result still has to be reduced,
    what comes out is positive.  The division is done on the numerator taken as unsigned. *)
Theorem C46_negative_refuted : forall a b,
  (fits (raw_add a b) -> ~ benign (raw_add a b) -> exists r, ratAdd a b = Ok r /\ 0 < num r)
  /\ (fits (raw_sub a b) -> ~ benign (raw_sub a b) -> exists r, ratSub a b = Ok r /\ 0 < num r)
  /\ (fits (raw_mul a b) -> ~ benign (raw_mul a b) -> exists r, ratMul a b = Ok r /\ 0 < num r).
Proof.
  intros a b.
  assert (K : forall p, fits p -> ~ benign p -> exists r, normalize 3 (mkRat (fst p) (snd p)) = Ok r /\ 0 < num r).
  { intros p [F1 F2] N. apply normalize_negative; [split; cbn; lia| |]; unfold benign in N; cbn [num den]; [|tauto].
    destruct (Z.lt_ge_cases (fst p) 0); auto. exfalso. tauto. }
  repeat split; intros F N; pose proof (K _ F N) as X; destruct F as [F1 F2].
  - cbn [raw_add fst snd] in *. unfold ratAdd. rewrite signed_range, u64_small by lia. exact X.
  - cbn [raw_sub fst snd] in *. unfold ratSub. rewrite signed_range, u64_small by lia. exact X.
  - cbn [raw_mul fst snd] in *. unfold ratMul. rewrite signed_ok, u64_small by lia. exact X.
Qed.
Print Assumptions C46_negative_refuted.

Example c46_minus_one : fits (raw_add (mkRat (-1) 2) (mkRat (-1) 2)) /\ ~ benign (raw_add (mkRat (-1) 2) (mkRat (-1) 2))
  /\ ratAdd (mkRat (-1) 2) (mkRat (-1) 2) = Ok (mkRat (2 ^ 62 - 1) 1).
Proof.
  split; [split; cbn; lia|]. split; [|vm_compute; reflexivity].
  intros [H|H]; [cbn in H; lia|vm_compute in H; discriminate].
Qed.

(** C53: comparison is the order of the rationals, whenever the cross products and their
    difference fit 64 bits. *)
Theorem C53_less_than : forall a b, is_rat a -> is_rat b -> den a < 2 ^ 63 -> den b < 2 ^ 63 ->
  - 2 ^ 63 <= num a * den b < 2 ^ 63 -> - 2 ^ 63 <= num b * den a < 2 ^ 63 ->
  - 2 ^ 63 <= num a * den b - num b * den a < 2 ^ 63 ->
  exists r, lessThan a b = Ok r /\ (r = true <-> ratQ a < ratQ b)%Q.
Proof.
  intros a b [Na Da] [Nb Db] Ha Hb H1 H2 H3. unfold lessThan.
  rewrite !s64_small by lia. rewrite !signed_ok by lia. cbn [obind]. rewrite signed_ok by lia. cbn [obind].
  eexists. split; [reflexivity|]. unfold Qlt, ratQ. cbn [Qnum Qden]. rewrite !Z2Pos.id by lia.
  rewrite Z.ltb_lt. lia.
Qed.
Print Assumptions C53_less_than.

Example c53_demo : lessThan (mkRat (-7) 3) (mkRat 1 2) = Ok true /\ (ratQ (mkRat (-7) 3) < ratQ (mkRat 1 2))%Q.
Proof. split; vm_compute; reflexivity. Qed.

(** C54: floor and ceiling.  Right for all non-negative numbers... *)
Theorem C54_floor_partial : forall r, is_rat r -> 0 <= num r -> den r < 2 ^ 63 ->
  ratFloor r = Qfloor (ratQ r) /\ ratCeil r = Qceiling (ratQ r).
Proof.
  intros r [Hn Hd] N D. unfold ratFloor, ratCeil, Qceiling, Qfloor, Qopp, ratQ. cbn [Qnum Qden].
  rewrite Z2Pos.id, u64_small by lia.
  assert (H1 : 0 <= num r mod den r < den r) by (apply Z.mod_pos_bound; lia).
  assert (H2 : 0 <= num r / den r <= num r).
  { split; [apply Z.div_pos; lia|]. apply Z.div_le_upper_bound; nia. }
  rewrite !s64_small by lia. destruct (Z.ltb_spec (num r mod den r) 0); [lia|]. split; [reflexivity|].
  destruct (Z.ltb_spec 0 (num r mod den r)) as [L|L].
  - rewrite Z.div_opp_l_nz by lia. lia.
  - rewrite Z.div_opp_l_z by lia. lia.
Qed.
Print Assumptions C54_floor_partial.

(** ... and wrong for every negative fraction: the result is positive. *)
Theorem C54_floor_refuted : forall r, is_rat r -> num r < 0 -> 2 <= den r < 2 ^ 63 ->
  (Qfloor (ratQ r) < 0)%Z /\ 0 < ratFloor r /\ 0 < ratCeil r.
Proof.
  intros r [Hn Hd] N D. unfold ratFloor, ratCeil, Qfloor, ratQ. cbn [Qnum Qden].
  rewrite Z2Pos.id, u64_neg by lia. split; [apply Z.div_lt_upper_bound; lia|].
  assert (H1 : 0 <= (num r + 2 ^ 64) mod den r < den r) by (apply Z.mod_pos_bound; lia).
  assert (H2 : 0 < (num r + 2 ^ 64) / den r < 2 ^ 63).
  { change (2 ^ 63) with 9223372036854775808 in *. change (2 ^ 64) with 18446744073709551616 in *. split.
    - apply Z.div_str_pos. lia.
    - apply Z.div_lt_upper_bound; nia. }
  rewrite !s64_small by lia. destruct (Z.ltb_spec ((num r + 2 ^ 64) mod den r) 0); [lia|].
  destruct (Z.ltb_spec 0 ((num r + 2 ^ 64) mod den r)); lia.
Qed.
Print Assumptions C54_floor_refuted.

Example c54_demo : is_rat (mkRat (-1) 2) /\ ratFloor (mkRat (-1) 2) = 9223372036854775807 /\ ratFloor (mkRat 11 4) = 2
  /\ ratCeil (mkRat 11 4) = 3 /\ ratRound (mkRat 11 4) = Ok 3.
Proof. split; [split; cbn; lia|]. vm_compute. auto. Qed.

(** C55: powers.  False already for the exponent one: every whole number of at least two
    is squared. *)
Theorem C55_power_refuted : forall n, 2 <= n -> n * n < 2 ^ 63 ->
  ratPower (mkRat n 1) 1 = Ok (mkRat (n * n) 1) /\ n * n <> n ^ 1.
Proof.
  intros n H B. split; [|nia]. unfold ratPower. cbn [Z.eqb]. change (1 =? 0) with false. change (1 <? 0) with false.
  cbn iota. cbn [obind num den]. unfold powerNumberS, powerNumberU.
  change (powerLoop 64 1 1 1) with (Ok 1).
  change (powerLoopS 64 1 n 1) with (let! acc := signed (1 * n) in let! cur := signed (n * n) in Ok cur).
  rewrite !signed_ok by nia. cbn [obind].
  apply normalize_done; [split; cbn; nia|]. cbn [num den]. apply Z.gcd_1_r.
Qed.
Print Assumptions C55_power_refuted.

(** What does hold: exponent zero gives one. *)
Theorem C55_power_partial : forall r, exact (ratPower r 0) 1.
Proof. intros r. exists (mkRat 1 1). split; [reflexivity|]. split; [split; cbn; lia|]. split; reflexivity. Qed.
Print Assumptions C55_power_partial.
