(** Proofs about the Base64 converters. *)
From Verif Require Import Common Conv_Model Conv_Proof Base64_Model Rfc4648_Spec.
Local Open Scope N_scope.

Ltac Zify.zify_post_hook ::= Z.div_mod_to_equations.

(** an alphabet is usable when it has 64 distinct 7-bit characters *)
Definition alphabet_ok (t : list N) : Prop :=
  length t = 64%nat /\ NoDup t /\ Forall (fun c => c < 128) t.

Definition chr (t : list N) (v : N) : N := nth (N.to_nat v) t 0.

Lemma tab_ok t v : length t = 64%nat -> v < 64 -> tab t v = Ok (chr t v).
Proof.
  intros Hl Hv. unfold tab, chr. rewrite nth_error_nth' with (d := 0); auto. lia.
Qed.

(** symbols of a group *)
Definition s0 (b0 : N) := N.shiftr b0 2.
Definition s1 (b0 b1 : N) := N.lor (N.shiftl (N.land b0 3) 4) (N.shiftr b1 4).
Definition s1' (b0 : N) := N.shiftl (N.land b0 3) 4.
Definition s2 (b1 b2 : N) := N.lor (N.shiftl (N.land b1 15) 2) (N.shiftr b2 6).
Definition s2' (b1 : N) := N.shiftl (N.land b1 15) 2.
Definition s3 (b2 : N) := N.land b2 63.

Lemma s0_arith b0 : byte_ok b0 -> s0 b0 = b0 / 4.
Proof. intros _. unfold s0. rewrite N.shiftr_div_pow2. reflexivity. Qed.
Lemma s1_arith b0 b1 : byte_ok b0 -> byte_ok b1 -> s1 b0 b1 = (b0 mod 4) * 16 + b1 / 16.
Proof.
  unfold byte_ok. intros H0 H1. unfold s1. change 3 with (N.ones 2). rewrite land_mod, lor_add.
  - rewrite N.shiftr_div_pow2. reflexivity.
  - rewrite N.shiftr_div_pow2. change (2 ^ 4) with 16. lia.
Qed.
Lemma s1'_arith b0 : byte_ok b0 -> s1' b0 = (b0 mod 4) * 16.
Proof. intros _. unfold s1'. change 3 with (N.ones 2). rewrite land_mod, N.shiftl_mul_pow2. reflexivity. Qed.
Lemma s2_arith b1 b2 : byte_ok b1 -> byte_ok b2 -> s2 b1 b2 = (b1 mod 16) * 4 + b2 / 64.
Proof.
  unfold byte_ok. intros H0 H1. unfold s2. change 15 with (N.ones 4). rewrite land_mod, lor_add.
  - rewrite N.shiftr_div_pow2. reflexivity.
  - rewrite N.shiftr_div_pow2. change (2 ^ 6) with 64. change (2 ^ 2) with 4. lia.
Qed.
Lemma s2'_arith b1 : byte_ok b1 -> s2' b1 = (b1 mod 16) * 4.
Proof. intros _. unfold s2'. change 15 with (N.ones 4). rewrite land_mod, N.shiftl_mul_pow2. reflexivity. Qed.
Lemma s3_arith b2 : byte_ok b2 -> s3 b2 = b2 mod 64.
Proof. intros _. unfold s3. change 63 with (N.ones 6). rewrite land_mod. reflexivity. Qed.

Ltac sarith := unfold byte_ok in *;
  rewrite ?s0_arith, ?s1_arith, ?s1'_arith, ?s2_arith, ?s2'_arith, ?s3_arith by assumption; lia.

Lemma s0_lt b0 : byte_ok b0 -> s0 b0 < 64.  Proof. intros. sarith. Qed.
Lemma s1_lt b0 b1 : byte_ok b0 -> byte_ok b1 -> s1 b0 b1 < 64.  Proof. intros. sarith. Qed.
Lemma s1'_lt b0 : byte_ok b0 -> s1' b0 < 64.  Proof. intros. sarith. Qed.
Lemma s2_lt b1 b2 : byte_ok b1 -> byte_ok b2 -> s2 b1 b2 < 64.  Proof. intros. sarith. Qed.
Lemma s2'_lt b1 : byte_ok b1 -> s2' b1 < 64.  Proof. intros. sarith. Qed.
Lemma s3_lt b2 : byte_ok b2 -> s3 b2 < 64.  Proof. intros. sarith. Qed.

(** symbols against the bit-string specification *)
Lemma s0_bits b0 : byte_ok b0 ->
  bits_value [N.testbit b0 7; N.testbit b0 6; N.testbit b0 5; N.testbit b0 4; N.testbit b0 3; N.testbit b0 2] = s0 b0.
Proof.
  intros H. apply N.eqb_eq. revert b0 H.
  apply (sweep1 (fun b0 => bits_value [N.testbit b0 7; N.testbit b0 6; N.testbit b0 5; N.testbit b0 4; N.testbit b0 3; N.testbit b0 2] =? s0 b0)).
  vm_compute. reflexivity.
Qed.
Lemma s1_bits b0 b1 : byte_ok b0 -> byte_ok b1 ->
  bits_value [N.testbit b0 1; N.testbit b0 0; N.testbit b1 7; N.testbit b1 6; N.testbit b1 5; N.testbit b1 4] = s1 b0 b1.
Proof.
  intros H0 H1. apply N.eqb_eq. revert b0 b1 H0 H1.
  apply (sweep2 (fun b0 b1 => bits_value [N.testbit b0 1; N.testbit b0 0; N.testbit b1 7; N.testbit b1 6; N.testbit b1 5; N.testbit b1 4] =? s1 b0 b1)).
  vm_compute. reflexivity.
Qed.
Lemma s1'_bits b0 : byte_ok b0 ->
  bits_value [N.testbit b0 1; N.testbit b0 0; false; false; false; false] = s1' b0.
Proof.
  intros H0. apply N.eqb_eq. revert b0 H0.
  apply (sweep1 (fun b0 => bits_value [N.testbit b0 1; N.testbit b0 0; false; false; false; false] =? s1' b0)).
  vm_compute. reflexivity.
Qed.
Lemma s2_bits b1 b2 : byte_ok b1 -> byte_ok b2 ->
  bits_value [N.testbit b1 3; N.testbit b1 2; N.testbit b1 1; N.testbit b1 0; N.testbit b2 7; N.testbit b2 6] = s2 b1 b2.
Proof.
  intros H0 H1. apply N.eqb_eq. revert b1 b2 H0 H1.
  apply (sweep2 (fun b1 b2 => bits_value [N.testbit b1 3; N.testbit b1 2; N.testbit b1 1; N.testbit b1 0; N.testbit b2 7; N.testbit b2 6] =? s2 b1 b2)).
  vm_compute. reflexivity.
Qed.
Lemma s2'_bits b1 : byte_ok b1 ->
  bits_value [N.testbit b1 3; N.testbit b1 2; N.testbit b1 1; N.testbit b1 0; false; false] = s2' b1.
Proof.
  intros H0. apply N.eqb_eq. revert b1 H0.
  apply (sweep1 (fun b1 => bits_value [N.testbit b1 3; N.testbit b1 2; N.testbit b1 1; N.testbit b1 0; false; false] =? s2' b1)).
  vm_compute. reflexivity.
Qed.
Lemma s3_bits b2 : byte_ok b2 ->
  bits_value [N.testbit b2 5; N.testbit b2 4; N.testbit b2 3; N.testbit b2 2; N.testbit b2 1; N.testbit b2 0] = s3 b2.
Proof.
  intros H0. apply N.eqb_eq. revert b2 H0.
  apply (sweep1 (fun b2 => bits_value [N.testbit b2 5; N.testbit b2 4; N.testbit b2 3; N.testbit b2 2; N.testbit b2 1; N.testbit b2 0] =? s3 b2)).
  vm_compute. reflexivity.
Qed.

Lemma rfc_symbols_group b0 b1 b2 rest : byte_ok b0 -> byte_ok b1 -> byte_ok b2 ->
  rfc_symbols 6 (b0 :: b1 :: b2 :: rest)
  = s0 b0 :: s1 b0 b1 :: s2 b1 b2 :: s3 b2 :: rfc_symbols 6 rest.
Proof.
  intros H0 H1 H2. unfold rfc_symbols, bit_string, byte_bits.
  cbn [flat_map map app bit_groups length Nat.eqb rev].
  rewrite s0_bits, s1_bits, s2_bits, s3_bits by assumption. reflexivity.
Qed.
Lemma rfc_symbols_1 b0 : byte_ok b0 -> rfc_symbols 6 [b0] = [s0 b0; s1' b0].
Proof.
  intros H0. unfold rfc_symbols, bit_string, byte_bits.
  cbn [flat_map map app bit_groups length Nat.eqb rev repeat minus].
  rewrite s0_bits, s1'_bits by assumption. reflexivity.
Qed.
Lemma rfc_symbols_2 b0 b1 : byte_ok b0 -> byte_ok b1 -> rfc_symbols 6 [b0; b1] = [s0 b0; s1 b0 b1; s2' b1].
Proof.
  intros H0 H1. unfold rfc_symbols, bit_string, byte_bits.
  cbn [flat_map map app bit_groups length Nat.eqb rev repeat minus].
  rewrite s0_bits, s1_bits, s2'_bits by assumption. reflexivity.
Qed.

(** induction over groups of three *)
Lemma list_ind3 {A} (P : list A -> Prop) :
  P [] -> (forall a, P [a]) -> (forall a b, P [a; b]) ->
  (forall a b c l, P l -> P (a :: b :: c :: l)) -> forall l, P l.
Proof.
  intros H0 H1 H2 H3.
  assert (H : forall n l, (length l <= n)%nat -> P l).
  { induction n as [|n IH]; intros [|a [|b [|c l]]] Hl; simpl in *; auto; try lia.
    apply H3, IH. lia. }
  intros l. apply (H (length l)); auto.
Qed.

Section Enc.
  Variables (t : list N) (pad : N).
  Hypothesis Ht : length t = 64%nat.

  Notation C := (enc64_conv t pad).

  Lemma enc_write0 a b c d rd nd b0 : byte_ok b0 ->
    enc64_write t (mkE64 [a;b;c;d] 0%nat rd false nd false) b0
    = Ok (mkE64 [Some (chr t (s0 b0)); Some (s1' b0); c; d] 1%nat rd true nd false).
  Proof. intros H0. unfold enc64_write; cbn. fold (s0 b0) (s1' b0). rewrite tab_ok by (auto using s0_lt). reflexivity. Qed.
  Lemma enc_write1 a c d rd nd b0 b1 : byte_ok b0 -> byte_ok b1 ->
    enc64_write t (mkE64 [a;Some (s1' b0);c;d] 1%nat rd false nd false) b1
    = Ok (mkE64 [a; Some (chr t (s1 b0 b1)); Some (s2' b1); d] 2%nat rd true nd false).
  Proof. intros H0 H1. unfold enc64_write; cbn. fold (s2' b1). unfold s1'. fold (s1 b0 b1). rewrite tab_ok by (auto using s1_lt). reflexivity. Qed.
  Lemma enc_write2 a b d rd nd b1 b2 : byte_ok b1 -> byte_ok b2 ->
    enc64_write t (mkE64 [a;b;Some (s2' b1);d] 2%nat rd false nd false) b2
    = Ok (mkE64 [a; b; Some (chr t (s2 b1 b2)); Some (chr t (s3 b2))] 4%nat rd true false false).
  Proof.
    intros H0 H1. unfold enc64_write; cbn. fold (s3 b2). unfold s2'. fold (s2 b1 b2).
    rewrite tab_ok by (auto using s2_lt). cbn. rewrite tab_ok by (auto using s3_lt). reflexivity.
  Qed.

  (** enough fuel, one step at a time *)
  Lemma drain_fuel_S : drain_fuel = S 299.  Proof. reflexivity. Qed.

  Ltac wr1 H := cbn [block_loop cv_eolb enc64_conv e_eolb cv_write]; rewrite H by assumption; cbn [obind].
  Ltac dr := unfold drain; rewrite drain_fuel_S; cbn [drain_n cv_has enc64_conv e_has cv_next enc64_next];
             cbn.

  Lemma enc_b1 a b c d nd b0 xs : byte_ok b0 ->
    block_loop C (mkE64 [a;b;c;d] 0%nat 0%nat false nd false) (b0 :: xs)
    = (let! (o, s, n) := block_loop C (mkE64 [Some (chr t (s0 b0)); Some (s1' b0); c; d] 1%nat 1%nat false nd false) xs in
       Ok (chr t (s0 b0) :: o, s, S n)).
  Proof. intros H0. wr1 enc_write0. dr. reflexivity. Qed.
  Lemma enc_b2 a c d nd b0 b1 xs : byte_ok b0 -> byte_ok b1 ->
    block_loop C (mkE64 [a;Some (s1' b0);c;d] 1%nat 1%nat false nd false) (b1 :: xs)
    = (let! (o, s, n) := block_loop C (mkE64 [a; Some (chr t (s1 b0 b1)); Some (s2' b1); d] 2%nat 2%nat false nd false) xs in
       Ok (chr t (s1 b0 b1) :: o, s, S n)).
  Proof. intros H0 H1. wr1 enc_write1. dr. reflexivity. Qed.
  Lemma enc_b3 a b d nd b1 b2 xs : byte_ok b1 -> byte_ok b2 ->
    block_loop C (mkE64 [a;b;Some (s2' b1);d] 2%nat 2%nat false nd false) (b2 :: xs)
    = (let! (o, s, n) := block_loop C (mkE64 [a; b; Some (chr t (s2 b1 b2)); Some (chr t (s3 b2))] 0%nat 0%nat false true false) xs in
       Ok (chr t (s2 b1 b2) :: chr t (s3 b2) :: o, s, S n)).
  Proof. intros H0 H1. wr1 enc_write2. dr. reflexivity. Qed.

  Definition enc_done (o2 : list N) (st : enc64) : Prop :=
    exists st2 st3, cv_flush C st = Ok st2 /\ drain C st2 = Ok (o2, st3) /\ e_eolb st3 = true
                    /\ e_has st3 = false.

  (** the encoder, in block mode, emits the RFC text *)
  Lemma enc_run xs : bytes_ok xs -> forall a b c d nd,
    exists o1 st1 o2,
      block_loop C (mkE64 [a;b;c;d] 0%nat 0%nat false nd false) xs = Ok (o1, st1, length xs)
      /\ enc_done o2 st1
      /\ o1 ++ o2 = rfc_text 6 4 t pad xs.
  Proof.
    induction xs as [|b0|b0 b1|b0 b1 b2 xs IH] using list_ind3; intros Hb a b c d nd.
    - exists [], (mkE64 [a;b;c;d] 0%nat 0%nat false nd false), []. repeat split; auto.
      + do 2 eexists. cbn. repeat split.
      + unfold rfc_text, rfc_padding. cbn. destruct (pad =? 0); reflexivity.
    - inversion Hb; subst. rewrite enc_b1 by assumption. cbn [block_loop obind length].
      do 2 eexists. exists (chr t (s1' b0) :: if pad =? 0 then [] else [pad; pad]).
      split; [reflexivity|]. split.
      + unfold enc_done. cbn. rewrite tab_ok by (auto using s1'_lt). cbn.
        destruct (pad =? 0); cbn; do 2 eexists; repeat split.
      + unfold rfc_text. rewrite rfc_symbols_1 by assumption. unfold rfc_padding. cbn.
        destruct (pad =? 0); reflexivity.
    - inversion Hb as [|? ? Hb0 Hb']; subst. inversion Hb'; subst.
      rewrite enc_b1 by assumption. rewrite enc_b2 by assumption. cbn [block_loop obind length].
      do 2 eexists. exists (chr t (s2' b1) :: if pad =? 0 then [] else [pad]).
      split; [reflexivity|]. split.
      + unfold enc_done. cbn. rewrite tab_ok by (auto using s2'_lt). cbn.
        destruct (pad =? 0); cbn; do 2 eexists; repeat split.
      + unfold rfc_text. rewrite rfc_symbols_2 by assumption. unfold rfc_padding. cbn.
        destruct (pad =? 0); reflexivity.
    - inversion Hb as [|? ? Hb0 Hb']; subst. inversion Hb' as [|? ? Hb1 Hb'']; subst. inversion Hb''; subst.
      rewrite enc_b1, enc_b2, enc_b3 by assumption.
      destruct (IH ltac:(assumption) (Some (chr t (s0 b0))) (Some (chr t (s1 b0 b1)))
                   (Some (chr t (s2 b1 b2))) (Some (chr t (s3 b2))) true) as (o1 & st1 & o2 & E1 & E2 & E3).
      rewrite E1. cbn [obind length].
      do 2 eexists. exists o2. split; [reflexivity|]. split; [exact E2|].
      unfold rfc_text in *. rewrite rfc_symbols_group by assumption.
      cbn [map app]. rewrite E3. do 5 f_equal.
      unfold rfc_padding. destruct (pad =? 0); auto. f_equal. cbn [length].
      generalize (length (rfc_symbols 6 xs)) as n. clear. intros n. lia.
  Qed.
End Enc.

(** decode table: the entry of every alphabet character is its position *)
Lemma initTable_from_ok t : forall i tbl,
  Forall (fun c => c < 128) t -> length tbl = 256%nat ->
  exists tbl', initTable_from i t tbl = Ok tbl' /\ length tbl' = 256%nat
    /\ (forall c, ~ In c t -> nth_error tbl' (N.to_nat c) = nth_error tbl (N.to_nat c)).
Proof.
  induction t as [|ch t IH]; intros i tbl Hc Hl; cbn [initTable_from].
  - exists tbl. auto.
  - inversion Hc; subst. destruct (N.ltb_spec ch 128); [|lia].
    unfold setc. rewrite Hl.
    destruct (Nat.ltb_spec (N.to_nat ch) 256); [|lia]. cbn [obind].
    destruct (IH (i + 1) (upd tbl (N.to_nat ch) (Some (N.land i 63)))) as (tbl' & E1 & E2 & E3); auto.
    { rewrite upd_length; auto. }
    exists tbl'. repeat split; auto.
    intros c Hn. rewrite E3 by (intros K; apply Hn; right; auto).
    apply nth_error_upd_ne. intros K. apply Hn. left. lia.
Qed.

Lemma initTable_from_at t : forall i tbl,
  Forall (fun c => c < 128) t -> NoDup t -> length tbl = 256%nat ->
  forall tbl', initTable_from i t tbl = Ok tbl' ->
  forall k, (k < length t)%nat ->
  nth_error tbl' (N.to_nat (nth k t 0)) = Some (Some (N.land (i + N.of_nat k) 63)).
Proof.
  induction t as [|ch t IH]; intros i tbl Hc Hd Hl tbl' E k Hk; [simpl in Hk; lia|].
  cbn [initTable_from] in E.
  inversion Hc; subst. inversion Hd; subst. destruct (N.ltb_spec ch 128); [|lia].
  unfold setc in E. rewrite Hl in E.
  destruct (Nat.ltb_spec (N.to_nat ch) 256); [|lia]. cbn [obind] in E.
  destruct k as [|k].
  - cbn [nth]. destruct (initTable_from_ok t (i + 1) (upd tbl (N.to_nat ch) (Some (N.land i 63)))) as (tbl2 & E1 & E2 & E3); auto.
    { rewrite upd_length; auto. }
    rewrite E1 in E. injection E as <-. rewrite E3 by assumption.
    rewrite nth_error_upd_eq by lia. do 2 f_equal. f_equal. lia.
  - cbn [nth]. simpl in Hk. rewrite (IH (i + 1) (upd tbl (N.to_nat ch) (Some (N.land i 63)))); auto; try lia.
    + do 2 f_equal. f_equal. lia.
    + rewrite upd_length; auto.
Qed.

(** a decode table is adequate for an alphabet *)
Definition table_for (t : list N) (tbl : list (option N)) : Prop :=
  forall v, v < 64 -> cell tbl (N.to_nat (chr t v)) = Ok v.

Lemma initTable_for t : alphabet_ok t -> exists tbl, initTable t = Ok tbl /\ table_for t tbl.
Proof.
  intros (Hl & Hd & Hc).
  destruct (initTable_from_ok t 0 (repeat None 256)) as (tbl & E & _ & _); auto.
  exists tbl. split; [exact E|]. intros v Hv. unfold cell, chr.
  rewrite (initTable_from_at t 0 (repeat None 256) Hc Hd eq_refl tbl E) by lia.
  f_equal. rewrite N.add_0_l, N2Nat.id. change 63 with (N.ones 6). rewrite land_mod.
  apply N.mod_small. exact Hv.
Qed.

Lemma table_default_for : exists tbl, dec_table_default = Ok tbl /\ table_for std_alphabet tbl /\ table_for url_alphabet tbl.
Proof.
  destruct dec_table_default as [tbl| | |] eqn:E; try (vm_compute in E; discriminate).
  exists tbl. split; auto.
  assert (H : forall t, t = std_alphabet \/ t = url_alphabet ->
    forallb (fun v => match cell tbl (N.to_nat (chr t v)) with Ok w => w =? v | _ => false end) (Nrange 64) = true).
  { vm_compute in E. injection E as <-. intros t [-> | ->]; vm_compute; reflexivity. }
  assert (G : forall t, t = std_alphabet \/ t = url_alphabet -> table_for t tbl).
  { intros t Ht v Hv. specialize (H t Ht). rewrite forallb_forall in H. specialize (H v (in_Nrange 64 v Hv)).
    destruct (cell tbl (N.to_nat (chr t v))); try discriminate. apply N.eqb_eq in H. congruence. }
  auto.
Qed.

(** bytes reassembled from symbols *)
Definition r0 (v0 v1 : N) := to_byte (N.lor (to_byte (N.shiftl v0 2)) (N.shiftr v1 4)).
Definition r1 (v1 v2 : N) := to_byte (N.lor (to_byte (N.shiftl v1 4)) (N.shiftr v2 2)).
Definition r2 (v2 v3 : N) := to_byte (N.lor (to_byte (N.shiftl v2 6)) v3).

Lemma sweep64 (P : N -> N -> bool) :
  forallb (fun a => forallb (P a) (Nrange 64)) (Nrange 64) = true ->
  forall a b, a < 64 -> b < 64 -> P a b = true.
Proof.
  intros H a b Ha Hb. rewrite forallb_forall in H.
  specialize (H a (in_Nrange 64 a Ha)). rewrite forallb_forall in H.
  apply H, (in_Nrange 64 b Hb).
Qed.

Lemma r0_arith v0 v1 : v0 < 64 -> v1 < 64 -> r0 v0 v1 = (v0 * 4) mod 256 + v1 / 16.
Proof.
  intros H0 H1. apply N.eqb_eq. revert v0 v1 H0 H1.
  apply (sweep64 (fun v0 v1 => r0 v0 v1 =? (v0 * 4) mod 256 + v1 / 16)). vm_compute. reflexivity.
Qed.
Lemma r1_arith v0 v1 : v0 < 64 -> v1 < 64 -> r1 v0 v1 = (v0 * 16) mod 256 + v1 / 4.
Proof.
  intros H0 H1. apply N.eqb_eq. revert v0 v1 H0 H1.
  apply (sweep64 (fun v0 v1 => r1 v0 v1 =? (v0 * 16) mod 256 + v1 / 4)). vm_compute. reflexivity.
Qed.
Lemma r2_arith v0 v1 : v0 < 64 -> v1 < 64 -> r2 v0 v1 = (v0 * 64) mod 256 + v1.
Proof.
  intros H0 H1. apply N.eqb_eq. revert v0 v1 H0 H1.
  apply (sweep64 (fun v0 v1 => r2 v0 v1 =? (v0 * 64) mod 256 + v1)). vm_compute. reflexivity.
Qed.

Lemma r0_s b0 b1 : byte_ok b0 -> byte_ok b1 -> r0 (s0 b0) (s1 b0 b1) = b0.
Proof. intros. rewrite r0_arith by auto using s0_lt, s1_lt. sarith. Qed.
Lemma r0_s' b0 : byte_ok b0 -> r0 (s0 b0) (s1' b0) = b0.
Proof. intros. rewrite r0_arith by auto using s0_lt, s1'_lt. sarith. Qed.
Lemma r1_s b0 b1 b2 : byte_ok b0 -> byte_ok b1 -> byte_ok b2 -> r1 (s1 b0 b1) (s2 b1 b2) = b1.
Proof. intros. rewrite r1_arith by auto using s1_lt, s2_lt. sarith. Qed.
Lemma r1_s' b0 b1 : byte_ok b0 -> byte_ok b1 -> r1 (s1 b0 b1) (s2' b1) = b1.
Proof. intros. rewrite r1_arith by auto using s1_lt, s2'_lt. sarith. Qed.
Lemma r2_s b1 b2 : byte_ok b1 -> byte_ok b2 -> r2 (s2 b1 b2) (s3 b2) = b2.
Proof. intros. rewrite r2_arith by auto using s2_lt, s3_lt. sarith. Qed.

Section Dec.
  Variables (t : list N) (tbl : list (option N)) (pad : N).
  Hypothesis Htbl : table_for t tbl.
  Hypothesis Hpad : forall v, v < 64 -> chr t v <> pad.

  Notation D := (dec64_conv tbl pad).

  Lemma not_pad v : v < 64 -> (chr t v =? pad) = false.
  Proof. intros. apply N.eqb_neq. auto. Qed.

  Ltac step := cbn [block_loop cv_eolb dec64_conv d_eolb cv_write]; unfold dec64_write;
     rewrite not_pad by assumption; rewrite Htbl by assumption; cbn;
     unfold drain; try rewrite drain_fuel_S; cbn.

  Lemma dec_b1 a b c nd v xs : v < 64 ->
    block_loop D (mkD64 [a;b;c] 0%nat 0%nat false nd false) (chr t v :: xs)
    = (let! (o, s, n) := block_loop D (mkD64 [Some (to_byte (N.shiftl v 2)); b; c] 1%nat 0%nat false nd false) xs in
       Ok (o, s, S n)).
  Proof. intros H. step. reflexivity. Qed.
  Lemma dec_b2 b c nd v0 v1 xs : v0 < 64 -> v1 < 64 ->
    block_loop D (mkD64 [Some (to_byte (N.shiftl v0 2)); b; c] 1%nat 0%nat false nd false) (chr t v1 :: xs)
    = (let! (o, s, n) := block_loop D (mkD64 [Some (r0 v0 v1); Some (to_byte (N.shiftl v1 4)); c] 2%nat 1%nat false nd false) xs in
       Ok (r0 v0 v1 :: o, s, S n)).
  Proof. intros H0 H. step. reflexivity. Qed.
  Lemma dec_b3 a c nd v1 v2 xs : v1 < 64 -> v2 < 64 ->
    block_loop D (mkD64 [a; Some (to_byte (N.shiftl v1 4)); c] 2%nat 1%nat false nd false) (chr t v2 :: xs)
    = (let! (o, s, n) := block_loop D (mkD64 [a; Some (r1 v1 v2); Some (to_byte (N.shiftl v2 6))] 3%nat 2%nat false nd false) xs in
       Ok (r1 v1 v2 :: o, s, S n)).
  Proof. intros H0 H. step. reflexivity. Qed.
  Lemma dec_b4 a b nd v2 v3 xs : v2 < 64 -> v3 < 64 ->
    block_loop D (mkD64 [a; b; Some (to_byte (N.shiftl v2 6))] 3%nat 2%nat false nd false) (chr t v3 :: xs)
    = (let! (o, s, n) := block_loop D (mkD64 [a; b; Some (r2 v2 v3)] 0%nat 0%nat false true false) xs in
       Ok (r2 v2 v3 :: o, s, S n)).
  Proof. intros H0 H. step. reflexivity. Qed.

  (** the decoder on a symbol text: all bytes recovered, all items consumed *)
  Lemma dec_run xs : bytes_ok xs -> forall a b c nd,
    exists st,
      block_loop D (mkD64 [a;b;c] 0%nat 0%nat false nd false) (map (chr t) (rfc_symbols 6 xs))
        = Ok (xs, st, length (rfc_symbols 6 xs)) /\ d_has st = false /\ d_eolb st = false.
  Proof.
    induction xs as [|b0|b0 b1|b0 b1 b2 xs IH] using list_ind3; intros Hb a b c nd.
    - eexists. cbn. auto.
    - inversion Hb; subst. rewrite rfc_symbols_1 by assumption. cbn [map length].
      rewrite dec_b1, dec_b2 by auto using s0_lt, s1'_lt. rewrite r0_s' by assumption.
      eexists. cbn. auto.
    - inversion Hb as [|? ? Hb0 Hb']; subst. inversion Hb'; subst.
      rewrite rfc_symbols_2 by assumption. cbn [map length].
      rewrite dec_b1, dec_b2, dec_b3 by auto using s0_lt, s1_lt, s2'_lt.
      rewrite r0_s, r1_s' by assumption. eexists. cbn. auto.
    - inversion Hb as [|? ? Hb0 Hb']; subst. inversion Hb' as [|? ? Hb1 Hb'']; subst. inversion Hb''; subst.
      rewrite rfc_symbols_group by assumption. cbn [map length].
      rewrite dec_b1, dec_b2, dec_b3, dec_b4 by auto using s0_lt, s1_lt, s2_lt, s3_lt.
      rewrite r0_s, r1_s, r2_s by assumption.
      edestruct IH as (st & E1 & E2 & E3); [assumption|].
      rewrite E1. cbn [obind]. exists st. auto.
  Qed.

  Lemma dec_pads st n : d_has st = false ->
    exists st', writes D st (repeat pad n) = Ok ([], st') /\ d_has st' = false.
  Proof.
    revert st; induction n as [|n IH]; intros st Hst; cbn [repeat writes].
    - exists st. auto.
    - unfold writeToIter. rewrite drain_empty by exact Hst.
      cbn [obind cv_write dec64_conv]. unfold dec64_write. rewrite N.eqb_refl. cbn [obind].
      rewrite drain_empty by exact Hst. cbn [obind app].
      edestruct (IH (mkD64 (d_out st) (d_wr st) (d_rd st) (d_has st) (d_need st) true)) as (st' & E & E'); [exact Hst|].
      exists st'. rewrite E. auto.
  Qed.

  Lemma dec_pads_block st n : d_has st = false -> d_eolb st = false ->
    exists st' k, block_loop D st (repeat pad n) = Ok ([], st', k) /\ d_has st' = false.
  Proof.
    intros Hst He. destruct n as [|n]; cbn [repeat block_loop].
    - exists st, 0%nat. auto.
    - cbn [cv_eolb dec64_conv]. rewrite He. cbn [cv_write dec64_conv]. unfold dec64_write.
      rewrite N.eqb_refl. cbn [obind]. rewrite drain_empty by exact Hst. cbn [obind app].
      destruct n; cbn [repeat block_loop cv_eolb dec64_conv d_eolb obind app]; do 2 eexists; split; try reflexivity; exact Hst.
  Qed.

  Lemma dec_push xs : bytes_ok xs ->
    push_all D dec64_init (rfc_text 6 4 t pad xs) = Ok xs.
  Proof.
    intros Hb. destruct (dec_run xs Hb None None None true) as (st & E1 & E2 & E3).
    unfold push_all, rfc_text, rfc_padding.
    set (m := if pad =? 0 then 0%nat else ((4 - length (rfc_symbols 6 xs) mod 4) mod 4)%nat).
    assert (Em : (if pad =? 0 then [] else repeat pad ((4 - length (rfc_symbols 6 xs) mod 4) mod 4)%nat) = repeat pad m)
      by (unfold m; destruct (pad =? 0); reflexivity).
    rewrite Em. destruct (dec_pads st m E2) as (st' & E4 & E5).
    rewrite (writes_app _ _ _ _ xs st [] st').
    - cbn [obind]. unfold flushToIter. cbn [cv_flush dec64_conv dec64_flush obind].
      rewrite drain_empty by exact E5. cbn [obind]. rewrite !app_nil_r. reflexivity.
    - apply block_loop_writes; [reflexivity|]. fold (chr t). rewrite map_length. exact E1.
    - exact E4.
  Qed.

  Lemma dec_pull xs : bytes_ok xs -> forall fuel, (length xs <= fuel)%nat ->
    pull_n D fuel dec64_init (rfc_text 6 4 t pad xs) = Ok xs.
  Proof.
    intros Hb fuel Hf. destruct (dec_run xs Hb None None None true) as (st & E1 & E2 & E3).
    unfold rfc_text, rfc_padding.
    set (m := if pad =? 0 then 0%nat else ((4 - length (rfc_symbols 6 xs) mod 4) mod 4)%nat).
    assert (Em : (if pad =? 0 then [] else repeat pad ((4 - length (rfc_symbols 6 xs) mod 4) mod 4)%nat) = repeat pad m)
      by (unfold m; destruct (pad =? 0); reflexivity).
    rewrite Em. destruct (dec_pads_block st m E2 E3) as (st' & k & E4 & E5).
    rewrite <- (map_length (chr t)) in E1.
    pose proof (block_loop_app D _ _ _ _ _ _ _ _ E1 E4) as E.
    rewrite app_nil_r in E.
    assert (R : pull_n D fuel dec64_init (map (chr t) (rfc_symbols 6 xs) ++ repeat pad m) = Ok (xs ++ [])).
    { eapply pull_eq_block; [reflexivity|exact E|reflexivity|apply drain_empty; exact E5
        |right; reflexivity|reflexivity|exact E5|].
      rewrite app_nil_r. exact Hf. }
    rewrite app_nil_r in R. exact R.
  Qed.
End Dec.

Lemma chr_in t v : length t = 64%nat -> v < 64 -> In (chr t v) t.
Proof. intros Hl Hv. unfold chr. apply nth_In. lia. Qed.

Lemma enc_push t pad xs : length t = 64%nat -> bytes_ok xs ->
  base64_encode t pad xs = Ok (rfc_text 6 4 t pad xs).
Proof.
  intros Ht Hb. unfold base64_encode.
  destruct (enc_run t pad Ht xs Hb None None None None true) as (o1 & st & o2 & E1 & (st2 & st3 & E2 & E3 & _ & _) & E4).
  rewrite <- E4. eapply push_all_block; eauto; reflexivity.
Qed.

Lemma enc_pull t pad xs : length t = 64%nat -> bytes_ok xs ->
  forall fuel, (length (rfc_text 6 4 t pad xs) <= fuel)%nat ->
  pull_n (enc64_conv t pad) fuel enc64_init xs = Ok (rfc_text 6 4 t pad xs).
Proof.
  intros Ht Hb fuel Hf.
  destruct (enc_run t pad Ht xs Hb None None None None true) as (o1 & st & o2 & E1 & (st2 & st3 & E2 & E3 & E5 & E6) & E4).
  rewrite <- E4 in *. eapply pull_eq_block; [reflexivity|exact E1|exact E2|exact E3|auto| | |exact Hf].
  - cbn [cv_flush enc64_conv]. unfold enc64_flush. rewrite E5. reflexivity.
  - exact E6.
Qed.

Lemma base64_roundtrip_lem t pad xs :
  alphabet_ok t -> ~ In pad t -> bytes_ok xs ->
  exists txt, base64_encode t pad xs = Ok txt /\ base64_decode (initTable t) pad txt = Ok xs.
Proof.
  intros Ht Hp Hb. pose proof Ht as (Hl & _).
  exists (rfc_text 6 4 t pad xs). split; [apply enc_push; auto|].
  destruct (initTable_for t Ht) as (tbl & E & Htb). unfold base64_decode. rewrite E. cbn [obind].
  apply dec_push; auto. intros v Hv K. apply Hp. rewrite <- K. apply chr_in; auto.
Qed.

Lemma base64_roundtrip_default_lem t pad xs : t = std_alphabet \/ t = url_alphabet ->
  pad = standardPadding \/ pad = noPadding -> bytes_ok xs ->
  exists txt, base64_encode t pad xs = Ok txt /\ base64_decode dec_table_default pad txt = Ok xs.
Proof.
  intros Ht Hp Hb. exists (rfc_text 6 4 t pad xs).
  assert (Hl : length t = 64%nat) by (destruct Ht as [-> | ->]; reflexivity).
  split; [apply enc_push; auto|].
  destruct table_default_for as (tbl & E & Ht1 & Ht2). unfold base64_decode. rewrite E. cbn [obind].
  assert (Htb : table_for t tbl) by (destruct Ht as [-> | ->]; auto).
  apply dec_push; auto. intros v Hv K.
  assert (In pad t) by (rewrite <- K; apply chr_in; auto).
  destruct Ht as [-> | ->], Hp as [-> | ->]; vm_compute in H; intuition discriminate.
Qed.

Lemma nodupb_sound l : (fix nd (l : list N) := match l with [] => true | x :: l => negb (existsb (N.eqb x) l) && nd l end) l = true -> NoDup l.
Proof.
  induction l as [|x l IH]; intros H; constructor.
  - apply andb_prop in H as [H _]. intros K. apply negb_true_iff in H.
    rewrite <- not_true_iff_false in H. apply H. apply existsb_exists. exists x. split; auto. apply N.eqb_refl.
  - apply andb_prop in H as [_ H]. auto.
Qed.

Lemma std_alphabet_ok : alphabet_ok std_alphabet.
Proof.
  split; [reflexivity|]. split; [apply nodupb_sound; vm_compute; reflexivity|].
  apply Forall_forall. intros x Hx.
  assert (H : forallb (fun c => c <? 128) std_alphabet = true) by (vm_compute; reflexivity).
  rewrite forallb_forall in H. apply N.ltb_lt, H, Hx.
Qed.
Lemma url_alphabet_ok : alphabet_ok url_alphabet.
Proof.
  split; [reflexivity|]. split; [apply nodupb_sound; vm_compute; reflexivity|].
  apply Forall_forall. intros x Hx.
  assert (H : forallb (fun c => c <? 128) url_alphabet = true) by (vm_compute; reflexivity).
  rewrite forallb_forall in H. apply N.ltb_lt, H, Hx.
Qed.
