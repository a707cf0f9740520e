(** Properties of strtod. *)
From Coq Require Import SpecFloat.
From Verif Require Import Common StrToD_Spec StrToD_Model StrToDF_Proof StrToD_Proof.
Open Scope Z_scope.

(** a numeral of up to 10^9 digits, with an exponent below 10^9 *)
Definition fits (n : numeral) : Prop := wf n /\ Z.of_nat (length (digits n)) < 10 ^ 9 /\ - 10 ^ 9 < exp_of n < 10 ^ 9.
(** -12.5e+3, followed by x *)
Definition n1 : numeral := mkN [32; 9] (Some true) [1; 2] (Some [5]) (Some (false, Some false, [3])).
Example n1_text : text n1 = [32; 9; 45; 49; 50; 46; 53; 101; 43; 51].
Proof. reflexivity. Qed.
Lemma n1_fits : fits n1 /\ ends n1 [120].
Proof.
  assert (B : Forall is_blank (blanks n1)) by (repeat constructor; unfold is_blank; lia).
  assert (D : Forall is_dig (digits n1)) by (repeat constructor; unfold is_dig; lia).
  split; [split; [split; [exact B|]; split; [exact D|]; split; [discriminate|]; split; [discriminate|repeat constructor; unfold is_dig; lia]|vm_compute; repeat split]|].
  cbn. split; [lia|discriminate].
Qed.

(** The characters read are exactly the numeral; the exponent of ten, after the digits behind the eighteenth are dropped, is to be at most 511. *)
Theorem strtod_read : forall n rest, fits n -> ends n rest ->
  let E := tens n + Z.of_nat (length (digits n) - 18) in
  (Z.abs E <= 511 -> exists f, strtod (text n ++ rest) = Ok (f, length (text n))) /\ (511 < Z.abs E -> strtod (text n ++ rest) = Throw).
Proof.
  intros n rest (W & L & X) EN E. destruct (strtod_run n rest W EN L X) as (f1 & f2 & _ & _ & _ & T & O).
  assert (Q : tens n + dropped n = E) by (unfold E, dropped, used; rewrite firstn_length; f_equal; lia). rewrite Q in *.
  split; [|exact T]. intros H. destruct (O H) as (g & _ & R). eexists. exact R.
Qed.
Example strtod_read_ex : Z.abs (tens n1 + Z.of_nat (length (digits n1) - 18)) <= 511 /\ (exists f, strtod (text n1 ++ [120]) = Ok (f, 10%nat)).
Proof. split; [vm_compute; discriminate|]. eexists. vm_compute. reflexivity. Qed.

(** A numeral of at most 18 digits, whose digits make a number below 2^53 and whose value is an integer below 2^53, is read exactly. *)
Theorem strtod_integer : forall n rest v, fits n -> ends n rest -> (length (digits n) <= 18)%nat -> mant n < 2 ^ 53 -> - 15 <= tens n <= 15 ->
  0 <= v < 2 ^ 53 -> v * 10 ^ Z.max 0 (- tens n) = mant n * 10 ^ Z.max 0 (tens n) ->
  exists f, strtod (text n ++ rest) = Ok (f, length (text n)) /\ is_int f (if negative n then - v else v).
Proof.
  intros n rest v (W & L & X) EN LD M T V EQ. destruct (strtod_run n rest W EN L X) as (f1 & f2 & F1 & F2 & U & _ & O).
  destruct (used_all n LD) as (UA & D0). rewrite UA in U. rewrite D0, Z.add_0_r in O. destruct (O ltac:(lia)) as (g & G & R).
  change (num (digits n)) with (mant n) in U. pose proof (fraction_rep f1 f2 ltac:(lia) F2 ltac:(lia)) as RF. rewrite U in RF.
  destruct (scaled_int _ _ _ v RF T V EQ) as (g' & G' & RR). assert (g' = g) by congruence. subst g'.
  eexists. split; [exact R|]. apply is_int_signed. apply rep_is_int. exact RR.
Qed.
Example strtod_integer_ex : (length (digits n1) <= 18)%nat /\ mant n1 < 2 ^ 53 /\ 12500 * 10 ^ Z.max 0 (- tens n1) = mant n1 * 10 ^ Z.max 0 (tens n1) /\
  strtod (text n1 ++ [120]) = Ok (S754_finite true 6871947673600000 (-39), 10%nat) /\ is_int (S754_finite true 6871947673600000 (-39)) (-12500).
Proof. split; [vm_compute; repeat constructor|]. split; [reflexivity|]. split; [reflexivity|]. split; vm_compute; reflexivity. Qed.

(** A numeral of at most 18 digits, whose digits make a number below 2^53 and whose exponent of ten is from -22 to 22, is read as its
    value rounded to 53 bits, with an error of at most half a unit of the last place. *)
Theorem strtod_nearest : forall n rest, fits n -> ends n rest -> (length (digits n) <= 18)%nat -> 0 < mant n < 2 ^ 53 -> - 22 <= tens n <= 22 ->
  exists f, strtod (text n ++ rest) = Ok (f, length (text n)) /\ nearest f (negative n) (mant n) (tens n).
Proof.
  intros n rest (W & L & X) EN LD M T. destruct (strtod_run n rest W EN L X) as (f1 & f2 & F1 & F2 & U & _ & O).
  destruct (used_all n LD) as (UA & D0). rewrite UA in U. rewrite D0, Z.add_0_r in O. destruct (O ltac:(lia)) as (g & G & R).
  change (num (digits n)) with (mant n) in U. pose proof (fraction_rep f1 f2 ltac:(lia) F2 ltac:(lia)) as RF. rewrite U in RF.
  destruct (scaled_near _ _ _ RF (proj1 M) T) as (g' & G' & RR). assert (g' = g) by congruence. subst g'.
  eexists. split; [exact R|]. apply nearest_signed. exact RR.
Qed.
(** 0.1 *)
Example strtod_nearest_ex : let n := mkN [] None [0] (Some [1]) None in
  fits n /\ ends n [] /\ mant n = 1 /\ tens n = -1 /\ strtod (text n ++ []) = Ok (S754_finite false 7205759403792794 (-56), 3%nat).
Proof.
  assert (D : Forall is_dig [0; 1]) by (repeat constructor; unfold is_dig; lia).
  split; [|vm_compute; repeat split]. split; [|vm_compute; repeat split]. split; [constructor|]. split; [exact D|]. split; [discriminate|exact I].
Qed.

(** A text with no digit behind the blanks, the sign and a possible point gives zero and no character is read. *)
Theorem strtod_no_number : forall b s p, Forall is_blank b ->
  match p with c :: d :: _ => ~ (48 <= c <= 57) /\ (c = 46 -> ~ (48 <= d <= 57)) | [c] => ~ (48 <= c <= 57) | [] => True end ->
  (s = None -> match p with c :: _ => ~ is_blank c /\ c <> 45 /\ c <> 43 | [] => True end) ->
  strtod (b ++ sign_text s ++ p) = Ok (S754_zero (match s with Some true => true | _ => false end), 0%nat).
Proof.
  intros b s p B N S. apply strtod_none; [exact B|exact N| |].
  - destruct s as [[]|]; cbn [sign_text app chr]; [unfold is_blank; lia|unfold is_blank; lia|]. specialize (S eq_refl). destruct p; [cbn; unfold is_blank; lia|]. apply S.
  - intros Q. specialize (S Q). destruct p; [split; discriminate|]. cbn [chr]. tauto.
Qed.
Example strtod_no_number_ex : strtod [32; 45; 46; 120] = Ok (S754_zero true, 0%nat).
Proof. reflexivity. Qed.

(** FALSE: a numeral that is zero is read as zero.  0e400 is read as not a number: zero times infinity. *)
Theorem strtod_zero_refuted : exists n, fits n /\ ends n [] /\ mant n = 0 /\ text n = [48; 101; 52; 48; 48] /\ strtod (text n) = Ok (S754_nan, 5%nat).
Proof.
  exists (mkN [] None [0] None (Some (false, None, [4; 0; 0]))).
  assert (D : Forall is_dig [0]) by (repeat constructor; unfold is_dig; lia).
  assert (D2 : Forall is_dig [4; 0; 0]) by (repeat constructor; unfold is_dig; lia).
  split; [|split; [exact I|vm_compute; repeat split]]. split; [|vm_compute; repeat split].
  split; [constructor|]. split; [exact D|]. split; [discriminate|]. split; [discriminate|exact D2].
Qed.
(** FALSE: a value in the range of normal doubles is not lost.  1.23456789012345678e-303 written as 123456789012345678e-320 is read as zero:
    10^320 is infinity. *)
Theorem strtod_small_refuted : exists n, fits n /\ ends n [] /\ (length (digits n) <= 18)%nat /\ 10 ^ 17 <= mant n /\ tens n = -320 /\ strtod (text n) = Ok (S754_zero false, 23%nat).
Proof.
  exists (mkN [] None [1; 2; 3; 4; 5; 6; 7; 8; 9; 0; 1; 2; 3; 4; 5; 6; 7; 8] None (Some (false, Some true, [3; 2; 0]))).
  assert (D : Forall is_dig [1; 2; 3; 4; 5; 6; 7; 8; 9; 0; 1; 2; 3; 4; 5; 6; 7; 8]) by (repeat constructor; unfold is_dig; lia).
  assert (D2 : Forall is_dig [3; 2; 0]) by (repeat constructor; unfold is_dig; lia).
  split; [|split; [exact I|split; [cbn; lia|split; [vm_compute; discriminate|vm_compute; repeat split]]]]. split; [|vm_compute; repeat split].
  split; [constructor|]. split; [exact D|]. split; [discriminate|]. split; [discriminate|exact D2].
Qed.
(** FALSE: only digits that cannot change the value are dropped.  In 0.0000000000000000001 the leading zeros use up the eighteen digits. *)
Theorem strtod_zeros_refuted : exists n, fits n /\ ends n [] /\ mant n = 1 /\ tens n = -19 /\ strtod (text n) = Ok (S754_zero false, length (text n)).
Proof.
  exists (mkN [] None [0] (Some (repeat 0 18 ++ [1])) None).
  assert (D : Forall is_dig ([0] ++ repeat 0 18 ++ [1])) by (repeat constructor; unfold is_dig; lia).
  split; [|split; [exact I|vm_compute; repeat split]]. split; [|vm_compute; repeat split].
  split; [constructor|]. split; [exact D|]. split; [discriminate|exact I].
Qed.
(** FALSE: the characters read are a numeral.  Of "1e" and "1e+" the letter and the sign are read too. *)
Theorem strtod_exponent_refuted : (exists f, strtod [49; 101] = Ok (f, 2%nat)) /\ (exists f, strtod [49; 101; 43; 120] = Ok (f, 3%nat)) /\
  (forall n, wf n -> text n <> [49; 101] /\ text n <> [49; 101; 43]).
Proof.
  split; [eexists; vm_compute; reflexivity|]. split; [eexists; vm_compute; reflexivity|].
  assert (H : forall n, wf n -> In 101 (text n) -> exists l x, text n = l ++ [dig x] /\ is_dig x).
  { intros n (WB & WD & _ & WE) IN. destruct (expo n) as [[[cap s] d]|] eqn:E.
    - destruct WE as (DN & DD). destruct (exists_last DN) as (d' & x & ->). apply Forall_app in DD. destruct DD as (_ & DX). inversion DX as [|? ? DX1 _].
      unfold text. rewrite E. rewrite map_app. cbn [map]. eexists _, x. split; [|exact DX1]. rewrite (app_comm_cons _ _ (if cap then 69 else 101)). rewrite !app_assoc. reflexivity.
    - exfalso. unfold text in IN. rewrite E in IN. unfold digits in WD. apply Forall_app in WD. destruct WD as (W1 & W2).
      assert (DG : forall l, Forall is_dig l -> ~ In 101 (map dig l)).
      { intros l L Q. apply in_map_iff in Q. destruct Q as (x & Q & X). rewrite Forall_forall in L. specialize (L x X). unfold is_dig, dig in *. lia. }
      rewrite !in_app_iff in IN. destruct IN as [IN|[IN|[IN|[IN|[]]]]].
      + rewrite Forall_forall in WB. specialize (WB _ IN). unfold is_blank in WB. lia.
      + destruct (sgn n) as [[]|]; cbn in IN; [destruct IN as [IN|[]]; discriminate IN|destruct IN as [IN|[]]; discriminate IN|exact IN].
      + exact (DG _ W1 IN).
      + destruct (fracs n) as [f|]; [|exact IN]. destruct IN as [IN|IN]; [discriminate IN|exact (DG _ W2 IN)]. }
  intros n W. split; intros Q; (destruct (H n W) as (l & x & T & D); [rewrite Q; right; left; reflexivity|]).
  - rewrite Q in T. apply (app_inj_tail [49] l) in T. destruct T as (_ & T). unfold dig, is_dig in *. lia.
  - rewrite Q in T. apply (app_inj_tail [49; 101] l) in T. destruct T as (_ & T). unfold dig, is_dig in *. lia.
Qed.
(** FALSE: every text is read or refused.  The exponent of 1e9999999999 leaves the range of int: undefined behaviour. *)
Theorem strtod_overflow_refuted : exists n, wf n /\ ends n [] /\ text n = [49; 101; 57; 57; 57; 57; 57; 57; 57; 57; 57; 57] /\ strtod (text n) = Undef.
Proof.
  exists (mkN [] None [1] None (Some (false, None, repeat 9 10))).
  assert (D : Forall is_dig [1]) by (repeat constructor; unfold is_dig; lia).
  assert (D2 : Forall is_dig (repeat 9 10)) by (repeat constructor; unfold is_dig; lia).
  split; [|split; [exact I|vm_compute; repeat split]].
  split; [constructor|]. split; [exact D|]. split; [discriminate|]. split; [discriminate|exact D2].
Qed.
(** FALSE: only values out of the range of doubles are refused.  Zero written as 0e512 is refused. *)
Theorem strtod_range_refuted : exists n, fits n /\ ends n [] /\ mant n = 0 /\ strtod (text n) = Throw.
Proof.
  exists (mkN [] None [0] None (Some (false, None, [5; 1; 2]))).
  assert (D : Forall is_dig [0]) by (repeat constructor; unfold is_dig; lia).
  assert (D2 : Forall is_dig [5; 1; 2]) by (repeat constructor; unfold is_dig; lia).
  split; [|split; [exact I|vm_compute; repeat split]]. split; [|vm_compute; repeat split].
  split; [constructor|]. split; [exact D|]. split; [discriminate|]. split; [discriminate|exact D2].
Qed.
Print Assumptions strtod_read.
Print Assumptions strtod_integer.
Print Assumptions strtod_nearest.
Print Assumptions strtod_no_number.
Print Assumptions strtod_zero_refuted.
Print Assumptions strtod_small_refuted.
Print Assumptions strtod_zeros_refuted.
Print Assumptions strtod_exponent_refuted.
Print Assumptions strtod_overflow_refuted.
Print Assumptions strtod_range_refuted.
