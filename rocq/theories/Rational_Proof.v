(** Proofs about the rational number model. *)
From Coq Require Import ZArith Lia Znumtheory.
From Verif Require Import Common Rational_Model.
Local Open Scope Z_scope.
Ltac Zify.zify_post_hook ::= Z.div_mod_to_equations.

Lemma signed_ok z : - 2 ^ 63 <= z < 2 ^ 63 -> signed z = Ok z.
Proof. intros H. unfold signed. destruct (Z.leb_spec (- 2 ^ 63) z), (Z.ltb_spec z (2 ^ 63)); cbn; auto; lia. Qed.
Lemma signed_inv z r : signed z = Ok r -> r = z /\ - 2 ^ 63 <= z < 2 ^ 63.
Proof.
  unfold signed. destruct (Z.leb_spec (- 2 ^ 63) z), (Z.ltb_spec z (2 ^ 63)); cbn; try discriminate.
  intros E. split; [congruence|lia].
Qed.
Lemma s64_small z : - 2 ^ 63 <= z < 2 ^ 63 -> s64 z = z.
Proof. intros H. unfold s64. change (2 ^ 64) with 18446744073709551616. change (2 ^ 63) with 9223372036854775808 in *. lia. Qed.
Lemma s64_u64 z : s64 (u64 z) = s64 z.
Proof. unfold s64, u64. change (2 ^ 64) with 18446744073709551616. change (2 ^ 63) with 9223372036854775808 in *. lia. Qed.
Lemma u64_small z : 0 <= z < 2 ^ 64 -> u64 z = z.
Proof. intros H. unfold u64. apply Z.mod_small. exact H. Qed.
Lemma u64_neg z : - 2 ^ 63 <= z < 0 -> u64 z = z + 2 ^ 64.
Proof. intros H. unfold u64. change (2 ^ 64) with 18446744073709551616. change (2 ^ 63) with 9223372036854775808 in *. lia. Qed.

(** * gcd *)
Lemma odd_half u : Z.odd u = true -> exists k, u = 2 * k + 1.
Proof. intros H. apply Z.odd_spec in H. exact H. Qed.

Lemma gcd_odd_half u w : Z.odd u = true -> Z.gcd u (2 * w) = Z.gcd u w.
Proof.
  intros Hu. apply odd_half in Hu as [k Hk].
  apply Z.divide_antisym_nonneg; try apply Z.gcd_nonneg.
  - apply Z.gcd_greatest; [apply Z.gcd_divide_l|].
    apply (Z.gauss _ 2); [apply Z.gcd_divide_r|].
    assert (D : (Z.gcd (Z.gcd u (2 * w)) 2 | 1)).
    { replace 1 with (u - 2 * k) by lia. apply Z.divide_sub_r.
      - etransitivity; [apply Z.gcd_divide_l|apply Z.gcd_divide_l].
      - apply Z.divide_mul_l. apply Z.gcd_divide_r. }
    apply Z.divide_1_r_nonneg in D; [exact D|apply Z.gcd_nonneg].
  - apply Z.gcd_greatest; [apply Z.gcd_divide_l|]. apply Z.divide_mul_r. apply Z.gcd_divide_r.
Qed.

Lemma strip2_ok f : forall v, 0 < v < 2 ^ Z.of_nat f -> exists w, strip2 f v = Ok w /\ Z.odd w = true /\ 0 < w <= v
  /\ forall u, Z.odd u = true -> Z.gcd u v = Z.gcd u w.
Proof.
  induction f as [|f IH]; intros v Hv; [cbn in Hv; lia|].
  cbn [strip2]. rewrite <- Z.negb_odd. destruct (Z.odd v) eqn:E; cbn [negb].
  - exists v. split; auto. split; auto. split; [lia|auto].
  - assert (Ev : exists k, v = 2 * k).
    { apply Z.even_spec. rewrite <- Z.negb_odd, E. reflexivity. }
    destruct Ev as [k ->]. replace (2 * k / 2) with k by lia.
    rewrite Nat2Z.inj_succ, Z.pow_succ_r in Hv by lia.
    destruct (IH k) as (w & H1 & H2 & H3 & H4); [lia|]. exists w. split; [exact H1|]. split; [exact H2|]. split; [lia|].
    intros u Hu. rewrite gcd_odd_half by exact Hu. auto.
Qed.

Lemma odd_lor u v : Z.odd (Z.lor u v) = Z.odd u || Z.odd v.
Proof. rewrite <- !Z.bit0_odd. apply Z.lor_spec. Qed.

Lemma common2_ok f : forall u v s, 0 < u < 2 ^ Z.of_nat f -> 0 < v -> 0 <= s -> exists u' v' s',
  common2 f u v s = Ok (u', v', s') /\ 0 < u' <= u /\ 0 < v' <= v /\ 0 <= s' /\ (Z.odd u' = true \/ Z.odd v' = true)
  /\ Z.gcd u v * 2 ^ s = Z.gcd u' v' * 2 ^ s'.
Proof.
  induction f as [|f IH]; intros u v s Hu Hv Hs; [cbn in Hu; lia|].
  cbn [common2]. rewrite <- Z.negb_odd, odd_lor. destruct (Z.odd u || Z.odd v) eqn:E; cbn [negb].
  - exists u, v, s. apply Bool.orb_true_iff in E. repeat split; auto; lia.
  - apply Bool.orb_false_iff in E as [Eu Ev].
    assert (Ku : exists k, u = 2 * k) by (apply Z.even_spec; rewrite <- Z.negb_odd, Eu; reflexivity).
    assert (Kv : exists k, v = 2 * k) by (apply Z.even_spec; rewrite <- Z.negb_odd, Ev; reflexivity).
    destruct Ku as [a ->], Kv as [b ->]. replace (2 * a / 2) with a by lia. replace (2 * b / 2) with b by lia.
    rewrite Nat2Z.inj_succ, Z.pow_succ_r in Hu by lia.
    destruct (IH a b (s + 1)) as (u' & v' & s' & H1 & H2 & H3 & H4 & H5 & H6); try lia.
    exists u', v', s'. split; [exact H1|]. repeat split; try lia; auto.
    rewrite <- H6, Z.gcd_mul_mono_l_nonneg by lia. rewrite Z.pow_add_r by lia. change (2 ^ 1) with 2. lia.
Qed.

Lemma gcdLoop_ok f : forall u v, Z.odd u = true -> 0 < u < 2 ^ 64 -> 0 < v < 2 ^ 64 -> u * v < 2 ^ Z.of_nat f ->
  gcdLoop f u v = Ok (Z.gcd u v).
Proof.
  induction f as [|f IH]; intros u v Ou Hu Hv Hp; [cbn in Hp; nia|].
  cbn [gcdLoop]. destruct (strip2_ok 64 v) as (w & E & Ow & Hw & G); [exact Hv|]. rewrite E. cbn [obind].
  rewrite (G u Ou). rewrite Nat2Z.inj_succ, Z.pow_succ_r in Hp by lia.
  assert (Hp' : u * w < 2 * 2 ^ Z.of_nat f) by nia. clear Hp.
  destruct (odd_half u Ou) as [a Ha]. destruct (odd_half w Ow) as [b Hb].
  destruct (Z.ltb_spec u w).
  - replace ((w - u) / 2) with (b - a) by lia. destruct (Z.eqb_spec (b - a) 0); [lia|].
    assert (u * (2 * (b - a)) < u * w) by (apply Z.mul_lt_mono_pos_l; lia).
    rewrite IH by (auto; lia).
    rewrite <- (gcd_odd_half u (b - a)) by exact Ou. f_equal.
    replace (2 * (b - a)) with (w - u) by lia. apply Z.gcd_sub_diag_r.
  - replace ((u - w) / 2) with (a - b) by lia. destruct (Z.eqb_spec (a - b) 0).
    + replace u with w by lia. rewrite Z.gcd_diag_nonneg by lia. reflexivity.
    + assert (w * (2 * (a - b)) < w * u) by (apply Z.mul_lt_mono_pos_l; lia).
      rewrite IH by (auto; lia).
      rewrite <- (gcd_odd_half w (a - b)) by exact Ow. f_equal.
      replace (2 * (a - b)) with (u - w) by lia. rewrite Z.gcd_sub_diag_r. apply Z.gcd_comm.
Qed.

Theorem gcd_ok u v : 0 <= u < 2 ^ 64 -> 0 <= v < 2 ^ 64 -> gcd u v = Ok (Z.gcd u v).
Proof.
  intros Hu Hv. unfold gcd.
  destruct (Z.eqb_spec u 0) as [->|Nu]; [cbn [orb]; rewrite Z.gcd_0_l_nonneg by lia; reflexivity|].
  destruct (Z.eqb_spec v 0) as [->|Nv]; [cbn [orb]; rewrite Z.lor_0_r, Z.gcd_0_r_nonneg by lia; reflexivity|].
  cbn [orb].
  destruct (common2_ok 64 u v 0) as (u' & v' & s' & E & U & V & S & O & G); try lia.
  rewrite E. cbn [obind].
  destruct (strip2_ok 64 u') as (w & E2 & Ow & Hw & G2).
  { split; [lia|]. change (Z.of_nat 64) with 64. lia. }
  rewrite E2. cbn [obind]. rewrite gcdLoop_ok; auto; try lia.
  2:{ change (Z.of_nat 129) with 129. change (2 ^ 129) with (2 * (2 ^ 64 * 2 ^ 64)). nia. }
  cbn [obind]. f_equal.
  assert (E3 : Z.gcd w v' = Z.gcd u' v').
  { destruct O as [O|O].
    - change (strip2 64 u') with (if Z.even u' then strip2 63 (u' / 2) else Ok u') in E2.
      rewrite <- Z.negb_odd, O in E2. cbn in E2. congruence.
    - rewrite (Z.gcd_comm u'), (G2 v' O). apply Z.gcd_comm. }
  rewrite E3, <- G. rewrite Z.mul_1_r. apply u64_small.
  split; [apply Z.gcd_nonneg|].
  assert (Z.gcd u v <= u) by (apply Z.divide_pos_le; [lia|apply Z.gcd_divide_l]). lia.
Qed.

(** * normalisation *)
Definition rat_ok (r : rational) : Prop := - 2 ^ 63 < num r < 2 ^ 63 /\ 0 < den r < 2 ^ 64.

Lemma ratGcd_ok r : rat_ok r -> ratGcd r = Ok (Z.gcd (num r) (den r)).
Proof.
  intros [Hn Hd]. unfold ratGcd. destruct (Z.ltb_spec (num r) 0).
  - rewrite signed_ok by lia. cbn [obind]. rewrite gcd_ok by lia. rewrite Z.gcd_opp_l. reflexivity.
  - apply gcd_ok; lia.
Qed.

Lemma normalize_done f r : rat_ok r -> Z.gcd (num r) (den r) = 1 -> normalize f r = Ok r.
Proof.
  intros Hr G. destruct f; cbn [normalize]; rewrite ratGcd_ok, G by exact Hr; reflexivity.
Qed.

Lemma gcd_pos_r n d : 0 < d -> 0 < Z.gcd n d.
Proof.
  intros H. pose proof (Z.gcd_nonneg n d). destruct (Z.eq_dec (Z.gcd n d) 0) as [E|]; [|lia].
  apply Z.gcd_eq_0_r in E. lia.
Qed.

Lemma reduce n d : 0 <= n < 2 ^ 63 -> 0 < d < 2 ^ 64 ->
  exists g a b, g = Z.gcd n d /\ 0 < g /\ n = g * a /\ d = g * b /\ 0 <= a < 2 ^ 63 /\ 0 < b < 2 ^ 64 /\ Z.gcd a b = 1.
Proof.
  intros Hn Hd. pose proof (gcd_pos_r n d ltac:(lia)) as G.
  destruct (Z.gcd_divide_l n d) as [a Ha]. destruct (Z.gcd_divide_r n d) as [b Hb].
  exists (Z.gcd n d), a, b.
  assert (0 <= a) by nia. assert (0 < b) by nia.
  repeat split; try lia; try nia.
  pose proof (Z.gcd_div_gcd n d (Z.gcd n d) ltac:(lia) eq_refl) as E.
  assert (Ea : n / Z.gcd n d = a) by (rewrite Ha at 1; apply Z.div_mul; lia).
  assert (Eb : d / Z.gcd n d = b) by (rewrite Hb at 1; apply Z.div_mul; lia).
  rewrite Ea, Eb in E. exact E.
Qed.

Lemma normalize_nonneg f r : rat_ok r -> 0 <= num r -> exists g a b,
  normalize (S f) r = Ok (mkRat a b) /\ 0 < g /\ num r = g * a /\ den r = g * b /\ Z.gcd a b = 1 /\ rat_ok (mkRat a b) /\ 0 <= a.
Proof.
  intros Hr Hn. pose proof Hr as [Rn Rd].
  destruct (reduce (num r) (den r)) as (g & a & b & Eg & G & Ea & Eb & Ha & Hb & C); try lia.
  assert (Hab : rat_ok (mkRat a b)) by (split; cbn; lia).
  exists g, a, b. split; [|repeat split; try exact Hab; auto; cbn; lia].
  cbn [normalize]. rewrite ratGcd_ok by exact Hr. cbn [obind]. rewrite <- Eg.
  destruct (Z.ltb_spec 1 g).
  - rewrite u64_small by lia. rewrite Ea, Eb.
    rewrite (Z.mul_comm g a), (Z.mul_comm g b), !Z.div_mul by lia. rewrite s64_small by lia.
    apply normalize_done; auto.
  - assert (g = 1) by lia. subst g. destruct r as [n d]. cbn [num den] in *. f_equal. f_equal; lia.
Qed.

Lemma normalize_negative f r : rat_ok r -> num r < 0 -> Z.gcd (num r) (den r) <> 1 ->
  exists r', normalize (S (S f)) r = Ok r' /\ 0 < num r'.
Proof.
  intros Hr Hn G. pose proof Hr as [Rn Rd]. pose proof (gcd_pos_r (num r) (den r) ltac:(lia)) as Gp.
  set (g := Z.gcd (num r) (den r)) in *.
  change (normalize (S (S f)) r) with (let! g := ratGcd r in if 1 <? g then normalize (S f) (mkRat (s64 (u64 (num r) / g)) (den r / g)) else Ok r).
  rewrite ratGcd_ok by exact Hr. cbn [obind]. fold g.
  destruct (Z.ltb_spec 1 g); [|lia]. rewrite u64_neg by lia.
  assert (Dn : g <= - num r).
  { apply Z.divide_pos_le; [lia|]. apply Z.divide_opp_r. apply Z.gcd_divide_l. }
  assert (Dd : (g | den r)) by apply Z.gcd_divide_r. destruct Dd as [b Hb].
  assert (Hb2 : den r / g = b) by (rewrite Hb; apply Z.div_mul; lia).
  assert (B : 0 < b <= den r) by nia.
  assert (P : 0 < (num r + 2 ^ 64) / g < 2 ^ 63).
  { change (2 ^ 63) with 9223372036854775808 in *. change (2 ^ 64) with 18446744073709551616 in *. split.
    - apply Z.div_str_pos. lia.
    - apply Z.div_lt_upper_bound; nia. }
  rewrite s64_small by lia. rewrite Hb2.
  destruct (normalize_nonneg f (mkRat ((num r + 2 ^ 64) / g) b)) as (g' & a & c & E & Gp' & Ea & Ec & _ & _ & A).
  { split; cbn [num den]; lia. } { cbn [num]. lia. }
  exists (mkRat a c). split; [exact E|]. cbn [num den] in *. nia.
Qed.
