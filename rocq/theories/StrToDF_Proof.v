(** Rounding of binary64: exact integers, and errors of half a unit of the last place. *)
From Coq Require Import SpecFloat.
From Verif Require Import Common StrToD_Spec StrToD_Model.
Open Scope Z_scope.

Lemma digits2_log : forall p, Zpos (digits2_pos p) = Z.log2 (Zpos p) + 1.
Proof.
  assert (D : forall p, digits2_pos p = Pos.size p) by (induction p; cbn; rewrite ?IHp; reflexivity).
  intros p; rewrite D. destruct p; cbn; rewrite ?Pos2Z.inj_succ; lia.
Qed.
Lemma zdigits : forall z, 0 < z -> Zdigits2 z = Z.log2 z + 1.
Proof. intros [|p|p] H; try lia. apply digits2_log. Qed.
Lemma log2_shift : forall v n, 0 < v -> 0 <= n -> Z.log2 (v * 2 ^ n) = n + Z.log2 v.
Proof. intros. apply Z.log2_mul_pow2; lia. Qed.

(** [rec] stands for the number [num / den]: integer part, half bit, sticky bit *)
Definition stands (rec : shr_record) (num den : Z) : Prop :=
  0 < den /\ 0 <= shr_m rec /\
  let f := num - shr_m rec * den in
  match shr_r rec, shr_s rec with
  | false, false => f = 0
  | false, true => 0 < f /\ 2 * f < den
  | true, false => 2 * f = den
  | true, true => den < 2 * f /\ f < den
  end.
Lemma shr_1_stands : forall rec num den, stands rec num den -> stands (shr_1 rec) num (2 * den).
Proof.
  intros [m r s] num den (D & M & F). cbn [shr_m shr_r shr_s] in *.
  assert (X : exists m' b, m = 2 * m' + (if b : bool then 1 else 0) /\ 0 <= m' /\ shr_1 (Build_shr_record m r s) = Build_shr_record m' b (r || s)).
  { destruct m as [|[p|p|]|p]; [exists 0, false|exists (Zpos p), true|exists (Zpos p), false|exists 0, true|lia]; cbn; repeat split; lia. }
  destruct X as (m' & b & E & M' & ->). unfold stands; cbn [shr_m shr_r shr_s]. split; [lia|]. split; [lia|].
  subst m. destruct b, r, s; cbn [orb]; nia.
Qed.
Lemma shr_stands : forall p rec num den, stands rec num den -> stands (SpecFloat.iter_pos shr_1 p rec) num (2 ^ Zpos p * den).
Proof.
  induction p; intros rec num den H; cbn [SpecFloat.iter_pos].
  - apply shr_1_stands in H. apply IHp in H. apply IHp in H. replace (2 ^ Zpos p~1 * den) with (2 ^ Zpos p * (2 ^ Zpos p * (2 * den))); [exact H|].
    rewrite (Pos2Z.inj_xI p). replace (2 * Zpos p + 1) with (Zpos p + Zpos p + 1) by lia. rewrite !Z.pow_add_r by lia. change (2 ^ 1) with 2. ring.
  - apply IHp in H. apply IHp in H. replace (2 ^ Zpos p~0 * den) with (2 ^ Zpos p * (2 ^ Zpos p * den)); [exact H|].
    rewrite (Pos2Z.inj_xO p). replace (2 * Zpos p) with (Zpos p + Zpos p) by lia. rewrite !Z.pow_add_r by lia. ring.
  - apply shr_1_stands in H. exact H.
Qed.
Lemma shr_m_stands : forall rec num den, stands rec num den -> shr_m rec = num / den.
Proof.
  intros [m r s] num den (D & M & F). cbn [shr_m shr_r shr_s] in *. apply Z.div_unique with (num - m * den); [|ring].
  left. destruct r, s; lia.
Qed.
Lemma nearest_stands : forall rec num den, stands rec num den ->
  let m := round_nearest_even (shr_m rec) (loc_of_shr_record rec) in
  2 * Z.abs (m * den - num) <= den /\ shr_m rec <= m <= shr_m rec + 1.
Proof.
  intros [m r s] num den (D & M & F). cbn [shr_m shr_r shr_s] in *.
  destruct r, s; cbn [loc_of_shr_record round_nearest_even]; [| destruct (Z.even m) | |]; nia.
Qed.

(** rounding of [num / den * 2 ^ ex] to 53 bits *)
Lemma round_half : forall sx mx ex lx num den,
  stands (shr_record_of_loc mx lx) num den -> 2 ^ 52 <= mx -> - 1000 <= ex -> ex + Z.log2 mx <= 1000 ->
  exists m k, binary_round_aux prec emax sx mx ex lx = S754_finite sx m (ex + k) /\ 0 <= k /\ 2 ^ 52 <= Zpos m < 2 ^ 53 /\
    2 * Z.abs (Zpos m * 2 ^ k * den - num) <= 2 ^ k * den.
Proof.
  intros sx mx ex lx num den ST MX LO HI.
  assert (L : 52 <= Z.log2 mx) by (apply Z.log2_le_pow2; lia).
  unfold binary_round_aux.
  assert (S1 : exists rec n, shr_fexp prec emax mx ex lx = (rec, ex + n) /\ n = Z.log2 mx - 52 /\ stands rec num (2 ^ n * den)).
  { unfold shr_fexp. rewrite zdigits by lia. replace (fexp prec emax (Z.log2 mx + 1 + ex) - ex) with (Z.log2 mx - 52)
      by (unfold fexp, emin, prec, emax; lia).
    destruct (Z.log2 mx - 52) as [|n|n] eqn:N; [| |lia].
    - exists (shr_record_of_loc mx lx), 0. cbn [shr]. rewrite Z.add_0_r. split; [reflexivity|]. split; [lia|]. change (2 ^ 0) with 1. rewrite Z.mul_1_l. exact ST.
    - exists (SpecFloat.iter_pos shr_1 n (shr_record_of_loc mx lx)), (Zpos n). split; [reflexivity|]. split; [lia|]. apply shr_stands; exact ST. }
  destruct S1 as (rec & n & -> & N & ST1).
  pose proof (nearest_stands _ _ _ ST1) as (HALF & NEAR). set (m1 := round_nearest_even _ _) in *. clearbody m1.
  assert (MR : shr_m rec = mx / 2 ^ n).
  { rewrite (shr_m_stands _ _ _ ST1). pose proof (shr_m_stands _ _ _ ST) as E. replace (shr_m (shr_record_of_loc mx lx)) with mx in E by (destruct lx as [|[]]; reflexivity).
    destruct ST as (D & _). rewrite E. rewrite Z.mul_comm. rewrite Z.div_div by (try apply Z.pow_nonzero; lia || (apply Z.pow_pos_nonneg; lia)). reflexivity. }
  assert (P2 : 0 < 2 ^ n) by (apply Z.pow_pos_nonneg; lia).
  pose proof (Z.log2_spec mx ltac:(lia)) as (LL & LU).
  assert (B : 2 ^ 52 <= shr_m rec < 2 ^ 53).
  { rewrite MR. replace (Z.log2 mx) with (52 + n) in LL by lia. replace (Z.succ (Z.log2 mx)) with (53 + n) in LU by lia. rewrite Z.pow_add_r in LL, LU by lia.
    split; [apply Z.div_le_lower_bound; lia|apply Z.div_lt_upper_bound; lia]. }
  assert (D : 0 < den) by apply ST.
  destruct (Z.eq_dec m1 (2 ^ 53)) as [C|C].
  - assert (S2 : shr_fexp prec emax m1 (ex + n) loc_Exact = (Build_shr_record (2 ^ 52) false false, ex + n + 1)).
    { rewrite C. unfold shr_fexp. rewrite zdigits by lia. rewrite Z.log2_pow2 by lia.
      replace (fexp prec emax (53 + 1 + (ex + n)) - (ex + n)) with 1 by (unfold fexp, emin, prec, emax; lia). reflexivity. }
    rewrite S2. cbn [shr_m]. exists (Z.to_pos (2 ^ 52)), (n + 1). change (2 ^ 52) with (Zpos (Z.to_pos (2 ^ 52))) at 1. cbv iota.
    replace (Z.leb (ex + n + 1) (emax - prec)) with true by (symmetry; apply Z.leb_le; unfold emax, prec; lia).
    rewrite Z.add_assoc. split; [reflexivity|]. split; [lia|]. rewrite Z2Pos.id by lia. split; [lia|]. rewrite Z.pow_add_r by lia. change (2 ^ 1) with 2. subst m1.
    change (2 ^ 53) with (2 * 2 ^ 52) in HALF. nia.
  - assert (S2 : shr_fexp prec emax m1 (ex + n) loc_Exact = (Build_shr_record m1 false false, ex + n)).
    { unfold shr_fexp. rewrite zdigits by lia. rewrite (Z.log2_unique m1 52) by lia.
      replace (fexp prec emax (52 + 1 + (ex + n)) - (ex + n)) with 0 by (unfold fexp, emin, prec, emax; lia). reflexivity. }
    rewrite S2. cbn [shr_m]. exists (Z.to_pos m1), n. destruct m1 as [|m1|m1]; [lia| |lia]. cbn [Z.to_pos].
    replace (Z.leb (ex + n) (emax - prec)) with true by (symmetry; apply Z.leb_le; unfold emax, prec; lia).
    split; [reflexivity|]. split; [lia|]. split; [lia|]. nia.
Qed.

(** an exact integer *)
Lemma round_exact : forall sx v ex, 0 < v < 2 ^ 53 -> - 400 <= ex <= 0 ->
  exists m e, binary_round_aux prec emax sx (v * 2 ^ (- ex)) ex loc_Exact = S754_finite sx m e /\ - 52 <= e <= 0 /\ Zpos m = v * 2 ^ (- e) /\
    (ex <= Z.log2 v - 52 -> 2 ^ 52 <= Zpos m < 2 ^ 53).
Proof.
  intros sx v ex V EX.
  assert (PX : 0 < 2 ^ (- ex)) by (apply Z.pow_pos_nonneg; lia).
  assert (L : 0 <= Z.log2 v <= 52) by (split; [apply Z.log2_nonneg|]; assert (Z.log2 v < 53) by (apply Z.log2_lt_pow2; lia); lia).
  assert (G : 2 ^ 52 <= v * 2 ^ (52 - Z.log2 v) < 2 ^ 53).
  { pose proof (Z.log2_spec v ltac:(lia)) as (A & B). assert (P : 0 < 2 ^ (52 - Z.log2 v)) by (apply Z.pow_pos_nonneg; lia).
    replace (2 ^ 52) with (2 ^ Z.log2 v * 2 ^ (52 - Z.log2 v)) by (rewrite <- Z.pow_add_r by lia; f_equal; lia).
    replace (2 ^ 53) with (2 ^ Z.succ (Z.log2 v) * 2 ^ (52 - Z.log2 v)) by (rewrite <- Z.pow_add_r by lia; f_equal; lia). nia. }
  unfold binary_round_aux, shr_fexp. rewrite zdigits by nia. rewrite log2_shift by lia.
  replace (fexp prec emax (- ex + Z.log2 v + 1 + ex)) with (Z.log2 v - 52) by (unfold fexp, emin, prec, emax; lia).
  cbn [shr_record_of_loc].
  destruct (Z_le_gt_dec ex (Z.log2 v - 52)) as [C|C].
  - assert (S : shr (Build_shr_record (v * 2 ^ (- ex)) false false) ex (Z.log2 v - 52 - ex) = (Build_shr_record (v * 2 ^ (52 - Z.log2 v)) false false, Z.log2 v - 52)).
    { destruct (Z.log2 v - 52 - ex) as [|n|n] eqn:N; [| |lia].
      - cbn [shr]. replace (52 - Z.log2 v) with (- ex) by lia. f_equal. lia.
      - cbn [shr]. assert (ST : stands (Build_shr_record (v * 2 ^ (- ex)) false false) (v * 2 ^ (- ex)) 1) by (unfold stands; cbn; nia).
        apply (shr_stands n) in ST. pose proof (shr_m_stands _ _ _ ST) as E. rewrite Z.mul_1_r in *.
        assert (Q : v * 2 ^ (- ex) = v * 2 ^ (52 - Z.log2 v) * 2 ^ Zpos n) by (rewrite <- Z.mul_assoc, <- Z.pow_add_r by lia; do 2 f_equal; lia).
        rewrite Q in E at 2. rewrite Z.div_mul in E by (apply Z.pow_nonzero; lia).
        f_equal; [|lia]. destruct ST as (_ & _ & F). rewrite E in F. rewrite Q in F at 1 2 3 4 || idtac.
        destruct (SpecFloat.iter_pos shr_1 n _) as [m r s]. cbn [shr_m shr_r shr_s] in *. subst m. f_equal; destruct r, s; try reflexivity; lia. }
    rewrite S. cbn [shr_m loc_of_shr_record round_nearest_even]. rewrite zdigits by lia.
    rewrite log2_shift by lia. replace (fexp prec emax (52 - Z.log2 v + Z.log2 v + 1 + (Z.log2 v - 52)) - (Z.log2 v - 52)) with 0 by (unfold fexp, emin, prec, emax; lia).
    cbn [shr shr_m]. destruct (v * 2 ^ (52 - Z.log2 v)) as [|m|m] eqn:M; [lia| |lia].
    replace (Z.leb (Z.log2 v - 52) (emax - prec)) with true by (symmetry; apply Z.leb_le; unfold emax, prec; lia).
    exists m, (Z.log2 v - 52). split; [reflexivity|]. split; [lia|]. split; [rewrite <- M; f_equal; f_equal; lia|]. intros _; lia.
  - destruct (Z.log2 v - 52 - ex) as [|n|n] eqn:N; [lia|lia|]. cbn [shr shr_m loc_of_shr_record round_nearest_even]. rewrite zdigits by nia. rewrite log2_shift by lia.
    replace (fexp prec emax (- ex + Z.log2 v + 1 + ex) - ex) with (Zneg n) by (rewrite <- N; unfold fexp, emin, prec, emax; lia). cbn [shr shr_m].
    assert (0 < v * 2 ^ (- ex)) by nia. destruct (v * 2 ^ (- ex)) as [|m|m] eqn:M; [lia| |lia].
    replace (Z.leb ex (emax - prec)) with true by (symmetry; apply Z.leb_le; unfold emax, prec; lia).
    exists m, ex. split; [reflexivity|]. split; [lia|]. split; [symmetry; exact M|]. lia.
Qed.

(** the normal form of the integers below 2^53 *)
Definition rep (f : spec_float) (v : Z) : Prop :=
  (v = 0 /\ f = S754_zero false) \/
  (0 < v < 2 ^ 53 /\ exists m, f = S754_finite false m (Z.log2 v - 52) /\ Zpos m = v * 2 ^ (52 - Z.log2 v)).
Lemma rep_range : forall f v, rep f v -> 0 <= v < 2 ^ 53.
Proof. intros f v [(-> & _)|(H & _)]; lia. Qed.
Lemma log2_small : forall v, 0 < v < 2 ^ 53 -> 0 <= Z.log2 v <= 52.
Proof. intros v V. split; [apply Z.log2_nonneg|]. assert (Z.log2 v < 53) by (apply Z.log2_lt_pow2; lia). lia. Qed.
Lemma rep_norm : forall v, 0 < v < 2 ^ 53 -> 2 ^ 52 <= v * 2 ^ (52 - Z.log2 v) < 2 ^ 53.
Proof.
  intros v V. pose proof (log2_small v V) as L. pose proof (Z.log2_spec v ltac:(lia)) as (A & B). assert (P : 0 < 2 ^ (52 - Z.log2 v)) by (apply Z.pow_pos_nonneg; lia).
  replace (2 ^ 52) with (2 ^ Z.log2 v * 2 ^ (52 - Z.log2 v)) by (rewrite <- Z.pow_add_r by lia; f_equal; lia).
  replace (2 ^ 53) with (2 ^ Z.succ (Z.log2 v) * 2 ^ (52 - Z.log2 v)) by (rewrite <- Z.pow_add_r by lia; f_equal; lia). nia.
Qed.
Lemma round_rep : forall v ex, 0 < v < 2 ^ 53 -> - 400 <= ex <= Z.log2 v - 52 -> rep (binary_round_aux prec emax false (v * 2 ^ (- ex)) ex loc_Exact) v.
Proof.
  intros v ex V EX. pose proof (log2_small v V) as L. right. split; [exact V|].
  destruct (round_exact false v ex V ltac:(lia)) as (m & e & -> & E & M & N). specialize (N ltac:(lia)). exists m.
  assert (Q : Z.log2 (Zpos m) = 52) by (apply Z.log2_unique; lia). rewrite M in Q. rewrite log2_shift in Q by lia.
  replace (52 - Z.log2 v) with (- e) by lia. split; [f_equal; lia|exact M].
Qed.
Lemma shift_pos_z : forall n p, Zpos (shift_pos n p) = Zpos p * 2 ^ Zpos n.
Proof. intros. rewrite shift_pos_correct. rewrite Zpower_pos_nat, Z.mul_comm. rewrite <- Zpower_pos_nat. reflexivity. Qed.
Lemma normalize_rep : forall v ex, 0 <= v < 2 ^ 53 -> - 400 <= ex <= 0 -> rep (binary_normalize prec emax (v * 2 ^ (- ex)) ex false) v.
Proof.
  intros v ex V EX. destruct (Z.eq_dec v 0) as [->|NZ]; [left; split; reflexivity|]. assert (V' : 0 < v < 2 ^ 53) by lia. pose proof (log2_small v V') as L.
  assert (PX : 0 < 2 ^ (- ex)) by (apply Z.pow_pos_nonneg; lia).
  destruct (v * 2 ^ (- ex)) as [|p|p] eqn:P; [nia| |nia]. cbn [binary_normalize]. unfold binary_round.
  assert (LP : Z.log2 (Zpos p) = - ex + Z.log2 v) by (rewrite <- P; apply log2_shift; lia).
  rewrite digits2_log, LP. replace (fexp prec emax (- ex + Z.log2 v + 1 + ex)) with (Z.log2 v - 52) by (unfold fexp, emin, prec, emax; lia).
  unfold shl_align. destruct (Z.log2 v - 52 - ex) as [|n|n] eqn:N.
  - rewrite <- P. apply round_rep; lia.
  - rewrite <- P. apply round_rep; lia.
  - rewrite shift_pos_z, <- P. rewrite <- Z.mul_assoc, <- Z.pow_add_r by lia. replace (- ex + Zpos n) with (- (Z.log2 v - 52)) by lia. apply round_rep; lia.
Qed.
Lemma dbl_rep : forall v, 0 <= v < 2 ^ 53 -> rep (dbl v) v.
Proof. intros v V. pose proof (normalize_rep v 0 V ltac:(lia)) as H. change (2 ^ (- 0)) with 1 in H. rewrite Z.mul_1_r in H. exact H. Qed.
Lemma log2_mul_le : forall a b, 0 < a -> 0 < b -> Z.log2 a + Z.log2 b <= Z.log2 (a * b).
Proof. intros. apply Z.log2_mul_below; lia. Qed.
Lemma mul_rep : forall f g a b, rep f a -> rep g b -> a * b < 2 ^ 53 -> rep (SFmul prec emax f g) (a * b).
Proof.
  intros f g a b [(-> & ->)|(A & m & -> & M)] [(-> & ->)|(B & n & -> & N)] LT; cbn [SFmul xorb]; try (left; split; [ring|reflexivity]).
  pose proof (log2_small a A). pose proof (log2_small b B). pose proof (log2_mul_le a b ltac:(lia) ltac:(lia)).
  rewrite Pos2Z.inj_mul, M, N. replace (a * 2 ^ (52 - Z.log2 a) * (b * 2 ^ (52 - Z.log2 b))) with (a * b * 2 ^ (- (Z.log2 a - 52 + (Z.log2 b - 52)))).
  - apply round_rep; nia.
  - replace (- (Z.log2 a - 52 + (Z.log2 b - 52))) with ((52 - Z.log2 a) + (52 - Z.log2 b)) by lia. rewrite Z.pow_add_r by lia. ring.
Qed.
Lemma align_z : forall m e e', e' <= e -> Zpos (fst (shl_align m e e')) = Zpos m * 2 ^ (e - e').
Proof.
  intros m e e' LE. unfold shl_align. destruct (e' - e) as [|d|d] eqn:D; [|lia|]; cbn [fst].
  - replace (e - e') with 0 by lia. lia.
  - rewrite shift_pos_z. do 2 f_equal. lia.
Qed.
Lemma add_rep : forall f g a b, rep f a -> rep g b -> a + b < 2 ^ 53 -> rep (SFadd prec emax f g) (a + b).
Proof.
  intros f g a b [(-> & ->)|(A & m & -> & M)] [(-> & ->)|(B & n & -> & N)] LT; cbn [SFadd Bool.eqb].
  - left; split; reflexivity.
  - right. split; [exact B|]. exists n; split; [reflexivity|exact N].
  - rewrite Z.add_0_r. right. split; [exact A|]. exists m; split; [reflexivity|exact M].
  - pose proof (log2_small a A). pose proof (log2_small b B). cbv zeta. cbn [cond_Zopp]. set (ez := Z.min _ _).
    assert (EZ : ez <= Z.log2 a - 52 /\ ez <= Z.log2 b - 52 /\ - 52 <= ez <= 0) by (unfold ez; lia). clearbody ez.
    rewrite !align_z by lia. rewrite M, N. rewrite <- !Z.mul_assoc, <- !Z.pow_add_r by lia.
    replace (52 - Z.log2 a + (Z.log2 a - 52 - ez)) with (- ez) by lia. replace (52 - Z.log2 b + (Z.log2 b - 52 - ez)) with (- ez) by lia.
    rewrite <- Z.mul_add_distr_r. apply normalize_rep; lia.
Qed.
Lemma rep_is_int : forall f v, rep f v -> is_int f v.
Proof.
  intros f v [(-> & ->)|(V & m & -> & M)]; [reflexivity|]. pose proof (log2_small v V). cbn [is_int]. rewrite M. rewrite <- Z.mul_assoc, <- Z.pow_add_r by lia.
  f_equal. f_equal. lia.
Qed.
Lemma div_rep : forall f g v b, rep f (v * b) -> rep g b -> 0 < b -> 0 <= v -> rep (SFdiv prec emax f g) v.
Proof.
  intros f g v b [(Z0 & ->)|(A & m & -> & M)] [(-> & ->)|(B & n & -> & N)] PB PV; try lia.
  - cbn [SFdiv xorb]. left. split; [nia|reflexivity].
  - assert (V : 0 < v < 2 ^ 53) by nia. pose proof (log2_small _ A) as LA. pose proof (log2_small _ B) as LB. pose proof (log2_small _ V) as LV.
    cbn [SFdiv]. unfold SFdiv_core_binary. rewrite !zdigits by lia.
    assert (LM : Z.log2 (Zpos m) = 52) by (apply Z.log2_unique; [lia|]; rewrite M; pose proof (rep_norm _ A); lia).
    assert (LN : Z.log2 (Zpos n) = 52) by (apply Z.log2_unique; [lia|]; rewrite N; pose proof (rep_norm _ B); lia).
    rewrite LM, LN. set (e1 := Z.log2 (v * b) - 52) in *. set (e2 := Z.log2 b - 52) in *.
    replace (Z.min (fexp prec emax (52 + 1 + e1 - (52 + 1 + e2))) (e1 - e2)) with (e1 - e2 - 53) by (unfold fexp, emin, prec, emax, e1, e2; lia).
    replace (e1 - e2 - (e1 - e2 - 53)) with 53 by lia. cbv iota. rewrite Z.shiftl_mul_pow2 by lia.
    pose proof (Z.log2_mul_above v b ltac:(lia) ltac:(lia)) as UP. pose proof (log2_mul_le v b ltac:(lia) PB) as LOW.
    assert (Q : Zpos m * 2 ^ 53 = v * 2 ^ (- (e1 - e2 - 53)) * Zpos n).
    { rewrite M, N. replace (v * b * 2 ^ (52 - Z.log2 (v * b)) * 2 ^ 53) with (v * b * (2 ^ (52 - Z.log2 (v * b)) * 2 ^ 53)) by ring.
      rewrite <- Z.pow_add_r by lia. replace (v * 2 ^ (- (e1 - e2 - 53)) * (b * 2 ^ (52 - Z.log2 b))) with (v * b * (2 ^ (- (e1 - e2 - 53)) * 2 ^ (52 - Z.log2 b))) by ring.
      rewrite <- Z.pow_add_r by (unfold e1, e2; lia). do 2 f_equal. unfold e1, e2. lia. }
    assert (DE : Z.div_eucl (Zpos m * 2 ^ 53) (Zpos n) = (v * 2 ^ (- (e1 - e2 - 53)), 0)).
    { rewrite Q. pose proof (Z.div_mul (v * 2 ^ (- (e1 - e2 - 53))) (Zpos n) ltac:(lia)) as D1. pose proof (Z.mod_mul (v * 2 ^ (- (e1 - e2 - 53))) (Zpos n) ltac:(lia)) as D2.
      unfold Z.div, Z.modulo in D1, D2. destruct (Z.div_eucl _ _) as (q, r). congruence. }
    rewrite DE. replace (new_location (Zpos n) 0) with loc_Exact by (unfold new_location, new_location_even, new_location_odd; destruct (Z.even (Zpos n)); reflexivity).
    cbn [xorb]. apply round_rep; [exact V|]. unfold e1, e2. lia.
Qed.

(** powers of ten *)
Definition pow_ok (j : nat) : bool :=
  match power 9 (Z.of_nat j) powersOf10 (dbl 1) with
  | Ok (S754_finite false m e) => (2 ^ 52 <=? Zpos m) && (Zpos m <? 2 ^ 53) && (- 52 <=? e) && (e <=? 100) && (Zpos m * 2 ^ (e + 52) =? 10 ^ Z.of_nat j * 2 ^ 52)
  | _ => false
  end.
Lemma pow_22 : forall j, 0 <= j <= 22 -> exists m e, power 9 j powersOf10 (dbl 1) = Ok (S754_finite false m e) /\
  2 ^ 52 <= Zpos m < 2 ^ 53 /\ - 52 <= e <= 100 /\ Zpos m * 2 ^ (e + 52) = 10 ^ j * 2 ^ 52.
Proof.
  assert (ALL : forallb pow_ok (seq 0 23) = true) by (vm_compute; reflexivity).
  intros j J. rewrite forallb_forall in ALL. specialize (ALL (Z.to_nat j)). rewrite in_seq in ALL. specialize (ALL ltac:(lia)).
  unfold pow_ok in ALL. rewrite Z2Nat.id in ALL by lia. destruct (power 9 j powersOf10 (dbl 1)) as [[| | |[] m e]| | |]; try discriminate ALL.
  exists m, e. split; [reflexivity|]. rewrite !Bool.andb_true_iff in ALL. destruct ALL as ((((A & B) & C) & D) & E).
  apply Z.leb_le in A, C, D. apply Z.ltb_lt in B. apply Z.eqb_eq in E. lia.
Qed.
Lemma pow_rep : forall j, 0 <= j <= 15 -> exists g, power 9 j powersOf10 (dbl 1) = Ok g /\ rep g (10 ^ j).
Proof.
  intros j J. destruct (pow_22 j ltac:(lia)) as (m & e & P & M & E & Q). exists (S754_finite false m e). split; [exact P|].
  assert (V : 0 < 10 ^ j < 2 ^ 53).
  { split; [apply Z.pow_pos_nonneg; lia|]. apply Z.le_lt_trans with (10 ^ 15); [apply Z.pow_le_mono_r; lia|reflexivity]. }
  pose proof (log2_small _ V) as L. right. split; [exact V|]. exists m.
  assert (LM : Z.log2 (Zpos m) = 52) by (apply Z.log2_unique; lia).
  assert (EE : e = Z.log2 (10 ^ j) - 52).
  { pose proof (f_equal Z.log2 Q) as R. rewrite !log2_shift in R by lia. lia. }
  split; [f_equal; exact EE|]. rewrite EE in Q. replace (Z.log2 (10 ^ j) - 52 + 52) with (Z.log2 (10 ^ j)) in Q by lia.
  apply Z.mul_cancel_r with (2 ^ Z.log2 (10 ^ j)); [apply Z.pow_nonzero; lia|]. rewrite Q, <- Z.mul_assoc, <- Z.pow_add_r by lia. do 2 f_equal. lia.
Qed.

Definition scaled (neg : bool) (f g : spec_float) : spec_float := if neg then SFdiv prec emax f g else SFmul prec emax f g.
Lemma scaled_int : forall f M E v, rep f M -> - 15 <= E <= 15 -> 0 <= v < 2 ^ 53 -> v * 10 ^ Z.max 0 (- E) = M * 10 ^ Z.max 0 E ->
  exists g, power 9 (Z.abs E) powersOf10 (dbl 1) = Ok g /\ rep (scaled (E <? 0) f g) v.
Proof.
  intros f M E v R EB V EQ. destruct (pow_rep (Z.abs E) ltac:(lia)) as (g & P & RG). exists g. split; [exact P|]. unfold scaled.
  destruct (Z.ltb_spec E 0) as [N|N].
  - rewrite Z.max_r in EQ by lia. rewrite Z.max_l, Z.pow_0_r, Z.mul_1_r in EQ by lia. rewrite Z.abs_neq in RG by lia.
    apply div_rep with (10 ^ (- E)); [rewrite EQ; exact R|exact RG|apply Z.pow_pos_nonneg; lia|lia].
  - rewrite Z.max_l, Z.pow_0_r, Z.mul_1_r in EQ by lia. rewrite Z.max_r in EQ by lia. rewrite Z.abs_eq in RG by lia. subst v.
    apply mul_rep; [exact R|exact RG|lia].
Qed.

Lemma nearest_shift : forall neg a e m t K, 2 ^ 52 <= Zpos a < 2 ^ 53 -> 0 <= K -> 0 <= e + K ->
  2 * Z.abs (Zpos a * 2 ^ (e + K) * 10 ^ Z.max 0 (- t) - m * 10 ^ Z.max 0 t * 2 ^ K) <= 2 ^ (e + K) * 10 ^ Z.max 0 (- t) ->
  nearest (S754_finite neg a e) neg m t.
Proof.
  intros neg a e m t K A KP EK H. cbn [nearest]. split; [reflexivity|]. split; [exact A|].
  set (d := 10 ^ Z.max 0 (- t)) in *. set (w := m * 10 ^ Z.max 0 t) in *.
  assert (S : exists c, 0 < c /\ 2 ^ (e + K) = 2 ^ Z.max 0 e * c /\ 2 ^ K = 2 ^ Z.max 0 (- e) * c).
  { exists (2 ^ (K - Z.max 0 (- e))). split; [apply Z.pow_pos_nonneg; lia|]. rewrite <- !Z.pow_add_r by lia. split; f_equal; lia. }
  destruct S as (c & C & E1 & E2). rewrite E1, E2 in H.
  set (u := 2 ^ Z.max 0 e) in *. set (u' := 2 ^ Z.max 0 (- e)) in *. clearbody u u' d w.
  replace (Zpos a * (u * c) * d - w * (u' * c)) with ((Zpos a * u * d - w * u') * c) in H by ring.
  rewrite Z.abs_mul, (Z.abs_eq c) in H by lia. nia.
Qed.
Lemma abs_scale : forall x c b z, 0 < c -> 0 < z -> x * c = b * z -> Z.abs x * c = Z.abs b * z.
Proof. intros x c b z C P E. pose proof (f_equal Z.abs E) as F. rewrite !Z.abs_mul in F. rewrite (Z.abs_eq c), (Z.abs_eq z) in F by lia. exact F. Qed.
Lemma scaled_near : forall f M E, rep f M -> 0 < M -> - 22 <= E <= 22 ->
  exists g, power 9 (Z.abs E) powersOf10 (dbl 1) = Ok g /\ nearest (scaled (E <? 0) f g) false M E.
Proof.
  intros f M E [(-> & _)|(A & m & -> & MM)] MP EB; [lia|]. destruct (pow_22 (Z.abs E) ltac:(lia)) as (n & e2 & P & NB & E2 & Q).
  exists (S754_finite false n e2). split; [exact P|]. pose proof (log2_small _ A) as LA. pose proof (rep_norm _ A) as NA. rewrite <- MM in NA.
  set (e1 := Z.log2 M - 52) in *. assert (E1 : - 52 <= e1 <= 0) by (unfold e1; lia).
  assert (Q1 : Zpos m * 2 ^ (e1 + 52) = M * 2 ^ 52).
  { rewrite MM, <- Z.mul_assoc, <- Z.pow_add_r by (unfold e1; lia). do 2 f_equal. unfold e1. lia. }
  assert (LM : Z.log2 (Zpos m) = 52) by (apply Z.log2_unique; lia). assert (LN : Z.log2 (Zpos n) = 52) by (apply Z.log2_unique; lia).
  unfold scaled. destruct (Z.ltb_spec E 0) as [NE|NE].
  - cbn [SFdiv]. unfold SFdiv_core_binary. rewrite !zdigits by lia. rewrite LM, LN.
    replace (Z.min (fexp prec emax (52 + 1 + e1 - (52 + 1 + e2))) (e1 - e2)) with (e1 - e2 - 53) by (unfold fexp, emin, prec, emax; lia).
    replace (e1 - e2 - (e1 - e2 - 53)) with 53 by lia. cbv iota. rewrite Z.shiftl_mul_pow2 by lia.
    pose proof (Z_div_mod (Zpos m * 2 ^ 53) (Zpos n) ltac:(lia)) as DM. destruct (Z.div_eucl (Zpos m * 2 ^ 53) (Zpos n)) as (q, r). destruct DM as (DQ & DR).
    assert (QB : 2 ^ 52 <= q < 2 ^ 54) by nia.
    assert (ST : stands (shr_record_of_loc q (new_location (Zpos n) r)) (Zpos m * 2 ^ 53) (Zpos n)).
    { unfold stands, new_location, new_location_even, new_location_odd. cbv zeta.
      destruct (Z.even (Zpos n)) eqn:EV; destruct (Zeq_bool r 0) eqn:R0; cbn [shr_record_of_loc shr_m shr_r shr_s];
        try (apply Zeq_bool_eq in R0; split; [lia|]; split; [lia|nia]); apply Zeq_bool_neq in R0.
      - destruct (Z.compare_spec (2 * r) (Zpos n)); cbn [shr_record_of_loc shr_m shr_r shr_s]; (split; [lia|split; [lia|nia]]).
      - assert (OD : 2 * r <> Zpos n) by (intros X; rewrite <- X in EV; rewrite Z.even_mul in EV; discriminate EV).
        destruct (Z.compare_spec (2 * r + 1) (Zpos n)); cbn [shr_record_of_loc shr_m shr_r shr_s]; (split; [lia|split; [lia|nia]]). }
    assert (LQ : Z.log2 q <= 54) by (assert (Z.log2 q < 54) by (apply Z.log2_lt_pow2; lia); lia).
    destruct (round_half (xorb false false) q (e1 - e2 - 53) _ _ _ ST ltac:(lia) ltac:(lia) ltac:(lia)) as (a & k & -> & K & AB & H).
    apply nearest_shift with 500; [exact AB|lia|lia|]. rewrite (Z.max_r 0 (- E)), (Z.max_l 0 E) by lia. rewrite Z.pow_0_r, Z.mul_1_r. rewrite Z.abs_neq in Q by lia.
    set (e := e1 - e2 - 53) in *.
    (* scale the inequality *)
    assert (PK : 0 < 2 ^ k) by (apply Z.pow_pos_nonneg; lia).
    assert (W : 2 ^ (e + k + 500) = 2 ^ (e + 500) * 2 ^ k) by (rewrite <- Z.pow_add_r by lia; f_equal; lia). rewrite W.
    assert (T10 : 10 ^ (- E) * 2 ^ 52 = Zpos n * 2 ^ (e2 + 52)) by lia.
    assert (X : M * 2 ^ 500 * 2 ^ 52 = Zpos m * 2 ^ 53 * (2 ^ (e + 500) * 2 ^ (e2 + 52))).
    { replace (M * 2 ^ 500 * 2 ^ 52) with (M * 2 ^ 52 * 2 ^ 500) by ring. rewrite <- Q1. replace (Zpos m * 2 ^ 53 * (2 ^ (e + 500) * 2 ^ (e2 + 52))) with (Zpos m * (2 ^ 53 * 2 ^ (e + 500) * 2 ^ (e2 + 52))) by ring.
      rewrite <- Z.mul_assoc, <- !Z.pow_add_r by lia. do 2 f_equal. unfold e. lia. }
    set (z := 2 ^ (e + 500) * 2 ^ (e2 + 52)) in *. assert (PZ : 0 < z) by (unfold z; apply Z.mul_pos_pos; apply Z.pow_pos_nonneg; lia).
    assert (Y : 2 ^ (e + 500) * 10 ^ (- E) * 2 ^ 52 = Zpos n * z) by (unfold z; rewrite <- Z.mul_assoc, T10; ring).
    apply Z.mul_le_mono_pos_r with (2 ^ 52); [lia|]. 
    replace (2 ^ (e + 500) * 2 ^ k * 10 ^ (- E) * 2 ^ 52) with (2 ^ k * Zpos n * z) by (transitivity (2 ^ k * (2 ^ (e + 500) * 10 ^ (- E) * 2 ^ 52)); [rewrite Y|]; ring).
    assert (G : (Zpos a * (2 ^ (e + 500) * 2 ^ k) * 10 ^ (- E) - M * 2 ^ 500) * 2 ^ 52 = (Zpos a * 2 ^ k * Zpos n - Zpos m * 2 ^ 53) * z).
    { rewrite !Z.mul_sub_distr_r. rewrite <- X. f_equal.
      transitivity (Zpos a * 2 ^ k * (2 ^ (e + 500) * 10 ^ (- E) * 2 ^ 52)); [ring|rewrite Y; ring]. }
    rewrite <- Z.mul_assoc. rewrite (abs_scale _ (2 ^ 52) _ z ltac:(reflexivity) PZ G). rewrite Z.mul_assoc. apply Z.mul_le_mono_nonneg_r; [lia|exact H].
  - cbn [SFmul]. 
    assert (ST : stands (shr_record_of_loc (Zpos (m * n)) loc_Exact) (Zpos (m * n)) 1) by (unfold stands; cbn [shr_record_of_loc shr_m shr_r shr_s]; split; [lia|split; lia]).
    assert (MN : 2 ^ 104 <= Zpos (m * n) < 2 ^ 106) by nia.
    assert (LQ : Z.log2 (Zpos (m * n)) <= 106) by (assert (Z.log2 (Zpos (m * n)) < 106) by (apply Z.log2_lt_pow2; lia); lia).
    destruct (round_half (xorb false false) (Zpos (m * n)) (e1 + e2) _ _ _ ST ltac:(lia) ltac:(lia) ltac:(lia)) as (a & k & -> & K & AB & H).
    apply nearest_shift with 104; [exact AB|lia|lia|]. rewrite (Z.max_l 0 (- E)), (Z.max_r 0 E) by lia. rewrite Z.pow_0_r, !Z.mul_1_r. rewrite !Z.mul_1_r in H. rewrite Z.abs_eq in Q by lia.
    assert (W : 2 ^ (e1 + e2 + k + 104) = 2 ^ k * (2 ^ (e1 + 52) * 2 ^ (e2 + 52))) by (rewrite <- !Z.pow_add_r by lia; f_equal; lia). rewrite W.
    assert (X : M * 10 ^ E * 2 ^ 104 = Zpos (m * n) * (2 ^ (e1 + 52) * 2 ^ (e2 + 52))).
    { rewrite Pos2Z.inj_mul. transitivity ((Zpos m * 2 ^ (e1 + 52)) * (Zpos n * 2 ^ (e2 + 52))); [|ring]. rewrite Q1, Q. change (2 ^ 104) with (2 ^ 52 * 2 ^ 52). ring. }
    rewrite X. set (z := 2 ^ (e1 + 52) * 2 ^ (e2 + 52)) in *. assert (PZ : 0 < z) by (unfold z; apply Z.mul_pos_pos; apply Z.pow_pos_nonneg; lia).
    rewrite Z.mul_assoc, <- Z.mul_sub_distr_r, Z.abs_mul, (Z.abs_eq z) by lia. rewrite Z.mul_assoc. apply Z.mul_le_mono_nonneg_r; [lia|exact H].
Qed.
