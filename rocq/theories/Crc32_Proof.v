(** Proofs about CRC-32. *)
From Verif Require Import Common Crc32_Model Crc32_Spec.
Local Open Scope N_scope.

Lemma lxor_lt a b n : a < 2 ^ n -> b < 2 ^ n -> N.lxor a b < 2 ^ n.
Proof.
  intros Ha Hb. destruct (N.eq_dec (N.lxor a b) 0) as [->|Hz].
  - destruct (N.eq_dec (2 ^ n) 0) as [E|E]; [|lia]. now apply N.pow_nonzero in E.
  - apply N.log2_lt_pow2; [lia|].
    eapply N.le_lt_trans; [apply N.log2_lxor|].
    destruct (N.eq_dec a 0) as [->|Ea]; destruct (N.eq_dec b 0) as [->|Eb].
    + exfalso. apply Hz. reflexivity.
    + cbn [N.log2]. rewrite N.max_0_l. apply N.log2_lt_pow2; lia.
    + cbn [N.log2]. rewrite N.max_0_r. apply N.log2_lt_pow2; lia.
    + apply N.max_lub_lt; apply N.log2_lt_pow2; lia.
Qed.

Lemma bit_step_lin a b : bit_step (N.lxor a b) = N.lxor (bit_step a) (bit_step b).
Proof.
  unfold bit_step. rewrite N.lxor_spec, N.shiftr_lxor.
  destruct (N.testbit a 0), (N.testbit b 0); cbn [xorb].
  - rewrite (N.lxor_comm (N.shiftr b 1)), N.lxor_assoc, <- (N.lxor_assoc poly poly), N.lxor_nilpotent, N.lxor_0_l. reflexivity.
  - rewrite !N.lxor_assoc. f_equal. apply N.lxor_comm.
  - rewrite !N.lxor_assoc. reflexivity.
  - reflexivity.
Qed.

Fixpoint steps (n : nat) (r : N) : N :=
  match n with O => r | S k => steps k (bit_step r) end.

Lemma steps_S n r : steps (S n) r = steps n (bit_step r).
Proof. reflexivity. Qed.

Lemma steps_lin n a b : steps n (N.lxor a b) = N.lxor (steps n a) (steps n b).
Proof. revert a b; induction n; intros; [reflexivity|]. rewrite !steps_S, bit_step_lin. apply IHn. Qed.

Lemma bit_step_double x : bit_step (N.shiftl x 1) = x.
Proof.
  unfold bit_step. rewrite N.shiftl_spec_low by lia. rewrite N.shiftr_shiftl_l by lia. apply N.shiftl_0_r.
Qed.

Lemma steps_shift n x : steps n (N.shiftl x (N.of_nat n)) = x.
Proof.
  revert x; induction n; intros x; [apply N.shiftl_0_r|].
  rewrite steps_S. replace (N.of_nat (S n)) with (N.of_nat n + 1) by lia.
  rewrite <- N.shiftl_shiftl, bit_step_double. apply IHn.
Qed.

Lemma bit_step_bound r : r < 2 ^ 32 -> bit_step r < 2 ^ 32.
Proof.
  intros H. unfold bit_step.
  assert (A : N.shiftr r 1 < 2 ^ 32).
  { rewrite N.shiftr_div_pow2. change (2 ^ 1) with 2. apply N.div_lt_upper_bound; lia. }
  destruct (N.testbit r 0); auto. apply lxor_lt; auto. now compute.
Qed.

Lemma steps_bound n r : r < 2 ^ 32 -> steps n r < 2 ^ 32.
Proof. revert r; induction n; intros r H; auto. rewrite steps_S. apply IHn, bit_step_bound, H. Qed.

Lemma bit_step_zero d : d < 2 ^ 32 -> bit_step d = 0 -> d = 0.
Proof.
  intros H. unfold bit_step. rewrite N.bit0_odd.
  pose proof (N.div2_odd d) as E.
  rewrite <- N.div2_spec.
  destruct (N.odd d) eqn:O; cbn [N.b2n] in E; intros Z.
  - apply N.lxor_eq in Z. exfalso. rewrite Z in E.
    change (2 ^ 32) with 4294967296 in H. unfold poly in E. lia.
  - rewrite Z in E. lia.
Qed.

Lemma steps_zero n d : d < 2 ^ 32 -> steps n d = 0 -> d = 0.
Proof.
  revert d; induction n; intros d H E; auto. rewrite steps_S in E.
  apply bit_step_zero; auto. apply IHn; auto. apply bit_step_bound; auto.
Qed.

Lemma steps_inj n a b : a < 2 ^ 32 -> b < 2 ^ 32 -> steps n a = steps n b -> a = b.
Proof.
  intros Ha Hb E. apply N.lxor_eq. apply (steps_zero n).
  - apply lxor_lt; auto.
  - rewrite steps_lin, E. apply N.lxor_nilpotent.
Qed.

(** value of a bit string, first bit least significant *)
Fixpoint val (l : list bool) : N :=
  match l with [] => 0 | m :: t => N.lxor (N.b2n m) (N.shiftl (val t) 1) end.

Lemma feed_val l r : fold_left feed_bit l r = steps (length l) (N.lxor r (val l)).
Proof.
  revert r; induction l as [|m l IH]; intros r.
  - cbn. now rewrite N.lxor_0_r.
  - cbn [fold_left length val]. rewrite IH, steps_S. f_equal.
    unfold feed_bit. rewrite <- (N.lxor_assoc r (N.b2n m)).
    rewrite (bit_step_lin (N.lxor r (N.b2n m)) (N.shiftl (val l) 1)), bit_step_double. reflexivity.
Qed.

Lemma val_add l m : val (m :: l) = N.b2n m + 2 * val l.
Proof.
  cbn [val]. rewrite <- N.add_nocarry_lxor.
  - rewrite N.shiftl_mul_pow2. change (2 ^ 1) with 2. lia.
  - apply N.bits_inj_0. intros k. rewrite N.land_spec.
    destruct (N.eq_dec k 0) as [->|Hk].
    + rewrite N.shiftl_spec_low by lia. apply andb_false_r.
    + replace (N.testbit (N.b2n m) k) with false; [reflexivity|].
      destruct m; cbn [N.b2n]; [|now rewrite N.bits_0].
      symmetry. apply N.bits_above_log2. cbn. lia.
Qed.

Lemma val_bound l : val l < 2 ^ N.of_nat (length l).
Proof.
  induction l as [|m l IH]; [now compute|].
  rewrite val_add. cbn [length]. rewrite Nat2N.inj_succ, N.pow_succ_r'. destruct m; cbn [N.b2n]; lia.
Qed.

Lemma val_inj l1 : forall l2, length l1 = length l2 -> val l1 = val l2 -> l1 = l2.
Proof.
  induction l1 as [|a l1 IH]; intros [|b l2] L E; try discriminate; auto.
  rewrite !val_add in E. cbn [length] in L. f_equal.
  - destruct a, b; auto; cbn [N.b2n] in E; lia.
  - apply IH; [lia|]. destruct a, b; cbn [N.b2n] in E; lia.
Qed.

Lemma val_byte b : byte_ok b -> val (byte_bits b) = b.
Proof.
  intros H. apply (sweep1 (fun b => val (byte_bits b) =? b)) in H; [now apply N.eqb_eq in H|].
  vm_compute. reflexivity.
Qed.

Lemma byte_bits_length b : length (byte_bits b) = 8%nat.
Proof. reflexivity. Qed.

Lemma feed_byte r b : byte_ok b -> fold_left feed_bit (byte_bits b) r = steps 8 (N.lxor r b).
Proof. intros H. rewrite feed_val, val_byte, byte_bits_length; auto. Qed.

Lemma table_ok b : byte_ok b -> nth (N.to_nat b) kCrc32Table 0 = steps 8 b.
Proof.
  intros H. apply (sweep1 (fun b => nth (N.to_nat b) kCrc32Table 0 =? steps 8 b)) in H; [now apply N.eqb_eq in H|].
  vm_compute. reflexivity.
Qed.

Lemma write_ok r b : byte_ok b -> crc_write r b = fold_left feed_bit (byte_bits b) r.
Proof.
  intros H. rewrite feed_byte by auto. unfold crc_write.
  change 0xff with (N.ones 8). rewrite land_mod. change (2 ^ 8) with 256.
  rewrite table_ok by (unfold byte_ok; apply N.mod_lt; lia).
  assert (E : N.lxor r b = N.lxor (N.shiftl (N.shiftr r 8) 8) (N.lxor r b mod 256)).
  { apply N.bits_inj. intros k. change 256 with (2 ^ 8). rewrite !N.lxor_spec.
    destruct (N.lt_ge_cases k 8).
    - rewrite N.shiftl_spec_low by auto. rewrite N.mod_pow2_bits_low by auto. rewrite N.lxor_spec.
      now rewrite xorb_false_l.
    - rewrite N.mod_pow2_bits_high by auto. rewrite N.shiftl_spec_high', N.shiftr_spec' by auto.
      replace (k - 8 + 8) with k by lia.
      replace (N.testbit b k) with false; auto.
      symmetry. destruct (N.eq_dec b 0) as [->|Hb]; [apply N.bits_0|].
      apply N.bits_above_log2. assert (N.log2 b < 8); [|lia]. apply N.log2_lt_pow2; [lia|exact H]. }
  rewrite E at 2. rewrite steps_lin. f_equal. symmetry. apply (steps_shift 8).
Qed.

Lemma blockWrite_ok data : forall r, bytes_ok data ->
  crc_blockWrite r data = fold_left feed_bit (flat_map byte_bits data) r.
Proof.
  induction data as [|b t IH]; intros r H; [reflexivity|].
  inversion H as [|? ? Hb Ht]; subst. cbn [crc_blockWrite flat_map]. rewrite fold_left_app.
  rewrite IH by auto. f_equal. exact (write_ok r b Hb).
Qed.

Lemma run_ok cs : Forall (fun c => bytes_ok (call_bytes c)) cs ->
  crc_run cs = crc32 (flat_map call_bytes cs).
Proof.
  intros H. unfold crc_run, crc32, getCrc32. f_equal.
  change crc_reset with 0xFFFFFFFF. generalize 0xFFFFFFFF as r.
  induction H as [|c cs Hc _ IH]; intros r; [reflexivity|].
  cbn [fold_left flat_map]. rewrite flat_map_app, fold_left_app, IH. f_equal.
  destruct c; cbn [crc_run1 call_bytes].
  - rewrite write_ok by (now inversion Hc). cbn [flat_map]. now rewrite app_nil_r.
  - now apply blockWrite_ok.
Qed.

Lemma burst m1 m2 p x y s :
  flat_map byte_bits m1 = p ++ x ++ s -> flat_map byte_bits m2 = p ++ y ++ s ->
  length x = length y -> (length x <= 32)%nat -> x <> y -> crc32 m1 <> crc32 m2.
Proof.
  intros E1 E2 L L32 Hne E. unfold crc32 in E. rewrite E1, E2 in E.
  assert (E' : fold_left feed_bit (p ++ x ++ s) 0xFFFFFFFF = fold_left feed_bit (p ++ y ++ s) 0xFFFFFFFF).
  { set (a := fold_left _ (p ++ x ++ s) _) in *. set (b := fold_left _ (p ++ y ++ s) _) in *.
    assert (N.lxor (N.lxor a 0xFFFFFFFF) 0xFFFFFFFF = N.lxor (N.lxor b 0xFFFFFFFF) 0xFFFFFFFF) by congruence.
    rewrite !N.lxor_assoc, !N.lxor_nilpotent, !N.lxor_0_r in H. exact H. }
  clear E. rewrite !fold_left_app in E'.
  assert (B : forall l r, (length l <= 32)%nat -> r < 2 ^ 32 -> N.lxor r (val l) < 2 ^ 32).
  { intros l r Hl Hr. apply lxor_lt; auto. eapply N.lt_le_trans; [apply val_bound|].
    apply N.pow_le_mono_r; lia. }
  assert (Bf : forall l r, r < 2 ^ 32 -> fold_left feed_bit l r < 2 ^ 32).
  { induction l as [|m l IH]; intros r Hr; [exact Hr|]. cbn [fold_left]. apply IH.
    unfold feed_bit. apply bit_step_bound. apply lxor_lt; auto. destruct m; now compute. }
  set (r := fold_left feed_bit p 0xFFFFFFFF) in *.
  assert (Hr : r < 2 ^ 32) by (apply Bf; now compute).
  assert (Inj : forall l a b, a < 2 ^ 32 -> b < 2 ^ 32 -> fold_left feed_bit l a = fold_left feed_bit l b -> a = b).
  { induction l as [|m l IH]; intros a b Ha Hb Hab; [exact Hab|]. cbn [fold_left] in Hab.
    assert (Hm : N.b2n m < 2 ^ 32) by (destruct m; now compute).
    apply IH in Hab; try (unfold feed_bit; apply bit_step_bound, lxor_lt; auto).
    unfold feed_bit in Hab. apply (steps_inj 1) in Hab; try (apply lxor_lt; auto).
    rewrite <- (N.lxor_0_r a), <- (N.lxor_0_r b), <- (N.lxor_nilpotent (N.b2n m)), <- !N.lxor_assoc. congruence. }
  apply Inj in E'; auto.
  rewrite !feed_val, <- L in E'.
  apply steps_inj in E'; try (apply B; auto; lia).
  apply Hne. apply val_inj; auto.
  rewrite <- (N.lxor_0_l (val x)), <- (N.lxor_0_l (val y)), <- (N.lxor_nilpotent r), !N.lxor_assoc. congruence.
Qed.

Lemma bits_inj l1 : forall l2, bytes_ok l1 -> bytes_ok l2 -> length l1 = length l2 ->
  flat_map byte_bits l1 = flat_map byte_bits l2 -> l1 = l2.
Proof.
  induction l1 as [|a l1 IH]; intros [|b l2] H1 H2 L E; try discriminate; auto.
  inversion H1; inversion H2; subst. cbn [flat_map] in E.
  assert (EE : forall (A B C D : list bool), length A = length C -> A ++ B = C ++ D -> A = C /\ B = D).
  { induction A as [|q A IHA]; intros B [|q' C] D LL EQ; try discriminate; [now split|].
    cbn in EQ. injection EQ as -> EQ. cbn in LL. destruct (IHA B C D ltac:(lia) EQ); subst; auto. }
  apply EE in E; [|reflexivity]. destruct E as [Ea El].
  f_equal; [|apply IH; auto].
  rewrite <- (val_byte a), <- (val_byte b) by auto. now rewrite Ea.
Qed.

Lemma burst_bytes p x y s : bytes_ok x -> bytes_ok y ->
  length x = length y -> (length x <= 4)%nat -> x <> y ->
  crc32 (p ++ x ++ s) <> crc32 (p ++ y ++ s).
Proof.
  intros Hx Hy L L4 Hne.
  assert (FL : forall l, length (flat_map byte_bits l) = (8 * length l)%nat).
  { induction l; auto. cbn [flat_map length]. rewrite app_length, IHl, byte_bits_length. lia. }
  apply (burst _ _ (flat_map byte_bits p) (flat_map byte_bits x) (flat_map byte_bits y) (flat_map byte_bits s)).
  - now rewrite !flat_map_app.
  - now rewrite !flat_map_app.
  - rewrite !FL. lia.
  - rewrite FL. lia.
  - intros E. apply Hne, bits_inj; auto.
Qed.
