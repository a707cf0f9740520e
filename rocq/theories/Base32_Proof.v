(** Proofs about the Base32 converters. *)
From Verif Require Import Common Conv_Model Conv_Proof Base64_Model Base64_Proof Base32_Model Rfc4648_Spec.
Local Open Scope N_scope.
Ltac Zify.zify_post_hook ::= Z.div_mod_to_equations.

Definition alphabet32_ok (t : list N) : Prop :=
  length t = 32%nat /\ NoDup t /\ Forall (fun c => c < 128) t.

Lemma tab32_ok t v : length t = 32%nat -> v < 32 -> tab t v = Ok (chr t v).
Proof. intros Hl Hv. unfold tab, chr. rewrite nth_error_nth' with (d := 0); auto. lia. Qed.

(** symbols of a group of five bytes; primed versions end the text *)
Definition t0 (b0 : N) := N.shiftr b0 3.
Definition t1' (b0 : N) := N.shiftl (N.land b0 7) 2.
Definition t1 (b0 b1 : N) := N.lor (t1' b0) (N.shiftr b1 6).
Definition t2 (b1 : N) := N.land (N.shiftr b1 1) 31.
Definition t3' (b1 : N) := N.shiftl (N.land b1 1) 4.
Definition t3 (b1 b2 : N) := N.lor (t3' b1) (N.shiftr b2 4).
Definition t4' (b2 : N) := N.shiftl (N.land b2 15) 1.
Definition t4 (b2 b3 : N) := N.lor (t4' b2) (N.shiftr b3 7).
Definition t5 (b3 : N) := N.land (N.shiftr b3 2) 31.
Definition t6' (b3 : N) := N.shiftl (N.land b3 3) 3.
Definition t6 (b3 b4 : N) := N.lor (t6' b3) (N.shiftr b4 5).
Definition t7 (b4 : N) := N.land b4 31.

Lemma t0_arith b : byte_ok b -> t0 b = b / 8.
Proof.
  intros Hb. apply N.eqb_eq. revert b Hb.
  apply (sweep1 (fun b => t0 b =? b / 8)). vm_compute. reflexivity.
Qed.
Lemma t0_bits b : byte_ok b -> bits_value [N.testbit b 7; N.testbit b 6; N.testbit b 5; N.testbit b 4; N.testbit b 3] = t0 b.
Proof.
  intros Hb. apply N.eqb_eq. revert b Hb.
  apply (sweep1 (fun b => bits_value [N.testbit b 7; N.testbit b 6; N.testbit b 5; N.testbit b 4; N.testbit b 3] =? t0 b)). vm_compute. reflexivity.
Qed.
Lemma t0_lt b : byte_ok b -> t0 b < 32.
Proof. intros. rewrite t0_arith by assumption. unfold byte_ok in *. lia. Qed.
Lemma t1'_arith b : byte_ok b -> t1' b = (b mod 8) * 4.
Proof.
  intros Hb. apply N.eqb_eq. revert b Hb.
  apply (sweep1 (fun b => t1' b =? (b mod 8) * 4)). vm_compute. reflexivity.
Qed.
Lemma t1'_bits b : byte_ok b -> bits_value [N.testbit b 2; N.testbit b 1; N.testbit b 0; false; false] = t1' b.
Proof.
  intros Hb. apply N.eqb_eq. revert b Hb.
  apply (sweep1 (fun b => bits_value [N.testbit b 2; N.testbit b 1; N.testbit b 0; false; false] =? t1' b)). vm_compute. reflexivity.
Qed.
Lemma t1'_lt b : byte_ok b -> t1' b < 32.
Proof. intros. rewrite t1'_arith by assumption. unfold byte_ok in *. lia. Qed.
Lemma t1_arith b c : byte_ok b -> byte_ok c -> t1 b c = (b mod 8) * 4 + c / 64.
Proof.
  intros Hb Hc. apply N.eqb_eq. revert b c Hb Hc.
  apply (sweep2 (fun b c => t1 b c =? (b mod 8) * 4 + c / 64)). vm_compute. reflexivity.
Qed.
Lemma t1_bits b c : byte_ok b -> byte_ok c -> bits_value [N.testbit b 2; N.testbit b 1; N.testbit b 0; N.testbit c 7; N.testbit c 6] = t1 b c.
Proof.
  intros Hb Hc. apply N.eqb_eq. revert b c Hb Hc.
  apply (sweep2 (fun b c => bits_value [N.testbit b 2; N.testbit b 1; N.testbit b 0; N.testbit c 7; N.testbit c 6] =? t1 b c)). vm_compute. reflexivity.
Qed.
Lemma t1_lt b c : byte_ok b -> byte_ok c -> t1 b c < 32.
Proof. intros. rewrite t1_arith by assumption. unfold byte_ok in *. lia. Qed.
Lemma t2_arith b : byte_ok b -> t2 b = (b / 2) mod 32.
Proof.
  intros Hb. apply N.eqb_eq. revert b Hb.
  apply (sweep1 (fun b => t2 b =? (b / 2) mod 32)). vm_compute. reflexivity.
Qed.
Lemma t2_bits b : byte_ok b -> bits_value [N.testbit b 5; N.testbit b 4; N.testbit b 3; N.testbit b 2; N.testbit b 1] = t2 b.
Proof.
  intros Hb. apply N.eqb_eq. revert b Hb.
  apply (sweep1 (fun b => bits_value [N.testbit b 5; N.testbit b 4; N.testbit b 3; N.testbit b 2; N.testbit b 1] =? t2 b)). vm_compute. reflexivity.
Qed.
Lemma t2_lt b : byte_ok b -> t2 b < 32.
Proof. intros. rewrite t2_arith by assumption. unfold byte_ok in *. lia. Qed.
Lemma t3'_arith b : byte_ok b -> t3' b = (b mod 2) * 16.
Proof.
  intros Hb. apply N.eqb_eq. revert b Hb.
  apply (sweep1 (fun b => t3' b =? (b mod 2) * 16)). vm_compute. reflexivity.
Qed.
Lemma t3'_bits b : byte_ok b -> bits_value [N.testbit b 0; false; false; false; false] = t3' b.
Proof.
  intros Hb. apply N.eqb_eq. revert b Hb.
  apply (sweep1 (fun b => bits_value [N.testbit b 0; false; false; false; false] =? t3' b)). vm_compute. reflexivity.
Qed.
Lemma t3'_lt b : byte_ok b -> t3' b < 32.
Proof. intros. rewrite t3'_arith by assumption. unfold byte_ok in *. lia. Qed.
Lemma t3_arith b c : byte_ok b -> byte_ok c -> t3 b c = (b mod 2) * 16 + c / 16.
Proof.
  intros Hb Hc. apply N.eqb_eq. revert b c Hb Hc.
  apply (sweep2 (fun b c => t3 b c =? (b mod 2) * 16 + c / 16)). vm_compute. reflexivity.
Qed.
Lemma t3_bits b c : byte_ok b -> byte_ok c -> bits_value [N.testbit b 0; N.testbit c 7; N.testbit c 6; N.testbit c 5; N.testbit c 4] = t3 b c.
Proof.
  intros Hb Hc. apply N.eqb_eq. revert b c Hb Hc.
  apply (sweep2 (fun b c => bits_value [N.testbit b 0; N.testbit c 7; N.testbit c 6; N.testbit c 5; N.testbit c 4] =? t3 b c)). vm_compute. reflexivity.
Qed.
Lemma t3_lt b c : byte_ok b -> byte_ok c -> t3 b c < 32.
Proof. intros. rewrite t3_arith by assumption. unfold byte_ok in *. lia. Qed.
Lemma t4'_arith b : byte_ok b -> t4' b = (b mod 16) * 2.
Proof.
  intros Hb. apply N.eqb_eq. revert b Hb.
  apply (sweep1 (fun b => t4' b =? (b mod 16) * 2)). vm_compute. reflexivity.
Qed.
Lemma t4'_bits b : byte_ok b -> bits_value [N.testbit b 3; N.testbit b 2; N.testbit b 1; N.testbit b 0; false] = t4' b.
Proof.
  intros Hb. apply N.eqb_eq. revert b Hb.
  apply (sweep1 (fun b => bits_value [N.testbit b 3; N.testbit b 2; N.testbit b 1; N.testbit b 0; false] =? t4' b)). vm_compute. reflexivity.
Qed.
Lemma t4'_lt b : byte_ok b -> t4' b < 32.
Proof. intros. rewrite t4'_arith by assumption. unfold byte_ok in *. lia. Qed.
Lemma t4_arith b c : byte_ok b -> byte_ok c -> t4 b c = (b mod 16) * 2 + c / 128.
Proof.
  intros Hb Hc. apply N.eqb_eq. revert b c Hb Hc.
  apply (sweep2 (fun b c => t4 b c =? (b mod 16) * 2 + c / 128)). vm_compute. reflexivity.
Qed.
Lemma t4_bits b c : byte_ok b -> byte_ok c -> bits_value [N.testbit b 3; N.testbit b 2; N.testbit b 1; N.testbit b 0; N.testbit c 7] = t4 b c.
Proof.
  intros Hb Hc. apply N.eqb_eq. revert b c Hb Hc.
  apply (sweep2 (fun b c => bits_value [N.testbit b 3; N.testbit b 2; N.testbit b 1; N.testbit b 0; N.testbit c 7] =? t4 b c)). vm_compute. reflexivity.
Qed.
Lemma t4_lt b c : byte_ok b -> byte_ok c -> t4 b c < 32.
Proof. intros. rewrite t4_arith by assumption. unfold byte_ok in *. lia. Qed.
Lemma t5_arith b : byte_ok b -> t5 b = (b / 4) mod 32.
Proof.
  intros Hb. apply N.eqb_eq. revert b Hb.
  apply (sweep1 (fun b => t5 b =? (b / 4) mod 32)). vm_compute. reflexivity.
Qed.
Lemma t5_bits b : byte_ok b -> bits_value [N.testbit b 6; N.testbit b 5; N.testbit b 4; N.testbit b 3; N.testbit b 2] = t5 b.
Proof.
  intros Hb. apply N.eqb_eq. revert b Hb.
  apply (sweep1 (fun b => bits_value [N.testbit b 6; N.testbit b 5; N.testbit b 4; N.testbit b 3; N.testbit b 2] =? t5 b)). vm_compute. reflexivity.
Qed.
Lemma t5_lt b : byte_ok b -> t5 b < 32.
Proof. intros. rewrite t5_arith by assumption. unfold byte_ok in *. lia. Qed.
Lemma t6'_arith b : byte_ok b -> t6' b = (b mod 4) * 8.
Proof.
  intros Hb. apply N.eqb_eq. revert b Hb.
  apply (sweep1 (fun b => t6' b =? (b mod 4) * 8)). vm_compute. reflexivity.
Qed.
Lemma t6'_bits b : byte_ok b -> bits_value [N.testbit b 1; N.testbit b 0; false; false; false] = t6' b.
Proof.
  intros Hb. apply N.eqb_eq. revert b Hb.
  apply (sweep1 (fun b => bits_value [N.testbit b 1; N.testbit b 0; false; false; false] =? t6' b)). vm_compute. reflexivity.
Qed.
Lemma t6'_lt b : byte_ok b -> t6' b < 32.
Proof. intros. rewrite t6'_arith by assumption. unfold byte_ok in *. lia. Qed.
Lemma t6_arith b c : byte_ok b -> byte_ok c -> t6 b c = (b mod 4) * 8 + c / 32.
Proof.
  intros Hb Hc. apply N.eqb_eq. revert b c Hb Hc.
  apply (sweep2 (fun b c => t6 b c =? (b mod 4) * 8 + c / 32)). vm_compute. reflexivity.
Qed.
Lemma t6_bits b c : byte_ok b -> byte_ok c -> bits_value [N.testbit b 1; N.testbit b 0; N.testbit c 7; N.testbit c 6; N.testbit c 5] = t6 b c.
Proof.
  intros Hb Hc. apply N.eqb_eq. revert b c Hb Hc.
  apply (sweep2 (fun b c => bits_value [N.testbit b 1; N.testbit b 0; N.testbit c 7; N.testbit c 6; N.testbit c 5] =? t6 b c)). vm_compute. reflexivity.
Qed.
Lemma t6_lt b c : byte_ok b -> byte_ok c -> t6 b c < 32.
Proof. intros. rewrite t6_arith by assumption. unfold byte_ok in *. lia. Qed.
Lemma t7_arith b : byte_ok b -> t7 b = b mod 32.
Proof.
  intros Hb. apply N.eqb_eq. revert b Hb.
  apply (sweep1 (fun b => t7 b =? b mod 32)). vm_compute. reflexivity.
Qed.
Lemma t7_bits b : byte_ok b -> bits_value [N.testbit b 4; N.testbit b 3; N.testbit b 2; N.testbit b 1; N.testbit b 0] = t7 b.
Proof.
  intros Hb. apply N.eqb_eq. revert b Hb.
  apply (sweep1 (fun b => bits_value [N.testbit b 4; N.testbit b 3; N.testbit b 2; N.testbit b 1; N.testbit b 0] =? t7 b)). vm_compute. reflexivity.
Qed.
Lemma t7_lt b : byte_ok b -> t7 b < 32.
Proof. intros. rewrite t7_arith by assumption. unfold byte_ok in *. lia. Qed.

Ltac tlt := auto using t0_lt, t1'_lt, t1_lt, t2_lt, t3'_lt, t3_lt, t4'_lt, t4_lt, t5_lt, t6'_lt, t6_lt, t7_lt.
Ltac tarith := rewrite ?t0_arith, ?t1'_arith, ?t1_arith, ?t2_arith, ?t3'_arith, ?t3_arith, ?t4'_arith, ?t4_arith, ?t5_arith, ?t6'_arith, ?t6_arith, ?t7_arith by assumption; unfold byte_ok in *; lia.

Lemma rfc5_group b0 b1 b2 b3 b4 rest :
  byte_ok b0 -> byte_ok b1 -> byte_ok b2 -> byte_ok b3 -> byte_ok b4 ->
  rfc_symbols 5 (b0 :: b1 :: b2 :: b3 :: b4 :: rest)
  = t0 b0 :: t1 b0 b1 :: t2 b1 :: t3 b1 b2 :: t4 b2 b3 :: t5 b3 :: t6 b3 b4 :: t7 b4 :: rfc_symbols 5 rest.
Proof.
  intros. unfold rfc_symbols, bit_string, byte_bits.
  cbn [flat_map map app bit_groups length Nat.eqb rev repeat minus].
  rewrite ?t0_bits, ?t1'_bits, ?t1_bits, ?t2_bits, ?t3'_bits, ?t3_bits, ?t4'_bits, ?t4_bits, ?t5_bits, ?t6'_bits, ?t6_bits, ?t7_bits by assumption. reflexivity.
Qed.
Lemma rfc5_1 b0 : byte_ok b0 -> rfc_symbols 5 [b0] = [t0 b0; t1' b0].
Proof.
  intros. unfold rfc_symbols, bit_string, byte_bits.
  cbn [flat_map map app bit_groups length Nat.eqb rev repeat minus].
  rewrite ?t0_bits, ?t1'_bits, ?t1_bits, ?t2_bits, ?t3'_bits, ?t3_bits, ?t4'_bits, ?t4_bits, ?t5_bits, ?t6'_bits, ?t6_bits, ?t7_bits by assumption. reflexivity.
Qed.
Lemma rfc5_2 b0 b1 : byte_ok b0 -> byte_ok b1 -> rfc_symbols 5 [b0; b1] = [t0 b0; t1 b0 b1; t2 b1; t3' b1].
Proof.
  intros. unfold rfc_symbols, bit_string, byte_bits.
  cbn [flat_map map app bit_groups length Nat.eqb rev repeat minus].
  rewrite ?t0_bits, ?t1'_bits, ?t1_bits, ?t2_bits, ?t3'_bits, ?t3_bits, ?t4'_bits, ?t4_bits, ?t5_bits, ?t6'_bits, ?t6_bits, ?t7_bits by assumption. reflexivity.
Qed.
Lemma rfc5_3 b0 b1 b2 : byte_ok b0 -> byte_ok b1 -> byte_ok b2 -> rfc_symbols 5 [b0; b1; b2] = [t0 b0; t1 b0 b1; t2 b1; t3 b1 b2; t4' b2].
Proof.
  intros. unfold rfc_symbols, bit_string, byte_bits.
  cbn [flat_map map app bit_groups length Nat.eqb rev repeat minus].
  rewrite ?t0_bits, ?t1'_bits, ?t1_bits, ?t2_bits, ?t3'_bits, ?t3_bits, ?t4'_bits, ?t4_bits, ?t5_bits, ?t6'_bits, ?t6_bits, ?t7_bits by assumption. reflexivity.
Qed.
Lemma rfc5_4 b0 b1 b2 b3 : byte_ok b0 -> byte_ok b1 -> byte_ok b2 -> byte_ok b3 -> rfc_symbols 5 [b0; b1; b2; b3] = [t0 b0; t1 b0 b1; t2 b1; t3 b1 b2; t4 b2 b3; t5 b3; t6' b3].
Proof.
  intros. unfold rfc_symbols, bit_string, byte_bits.
  cbn [flat_map map app bit_groups length Nat.eqb rev repeat minus].
  rewrite ?t0_bits, ?t1'_bits, ?t1_bits, ?t2_bits, ?t3'_bits, ?t3_bits, ?t4'_bits, ?t4_bits, ?t5_bits, ?t6'_bits, ?t6_bits, ?t7_bits by assumption. reflexivity.
Qed.

Lemma list_ind5 {A} (P : list A -> Prop) :
  P [] -> (forall a, P [a]) -> (forall a b, P [a; b]) -> (forall a b c, P [a; b; c]) ->
  (forall a b c d, P [a; b; c; d]) ->
  (forall a b c d e l, P l -> P (a :: b :: c :: d :: e :: l)) -> forall l, P l.
Proof.
  intros H0 H1 H2 H3 H4 H5.
  assert (H : forall n l, (length l <= n)%nat -> P l).
  { induction n as [|n IH]; intros [|a [|b [|c [|d [|e l]]]]] Hl; simpl in *; auto; try lia.
    apply H5, IH. lia. }
  intros l. apply (H (length l)); auto.
Qed.

Section Enc32.
  Variables (t : list N) (pad : N).
  Hypothesis Ht : length t = 32%nat.
  Notation C := (enc32_conv t pad).

  Ltac rtab := repeat (rewrite tab32_ok by (try exact Ht; tlt); cbn).
  Lemma e32_1 a b c d e f g h nd b0 xs : byte_ok b0 ->
    block_loop C (mkE32 [a;b;c;d;e;f;g;h] 0%nat 0%nat false nd false) (b0 :: xs)
    = (let! (o, s, n) := block_loop C (mkE32 [Some (chr t (t0 b0)); Some (t1' b0); c;d;e;f;g;h] 1%nat 1%nat false nd false) xs in
       Ok (chr t (t0 b0) :: o, s, S n)).
  Proof.
    intros. cbn [block_loop cv_eolb enc32_conv f_eolb cv_write]. unfold enc32_write. cbn.
    fold (t0 b0) (t1' b0). rtab. unfold drain; try rewrite drain_fuel_S; cbn. reflexivity.
  Qed.
  Lemma e32_2 a c d e f g h nd b0 b1 xs : byte_ok b0 -> byte_ok b1 ->
    block_loop C (mkE32 [a;Some (t1' b0);c;d;e;f;g;h] 1%nat 1%nat false nd false) (b1 :: xs)
    = (let! (o, s, n) := block_loop C (mkE32 [a; Some (chr t (t1 b0 b1)); Some (chr t (t2 b1)); Some (t3' b1);e;f;g;h] 2%nat 3%nat false nd false) xs in
       Ok (chr t (t1 b0 b1) :: chr t (t2 b1) :: o, s, S n)).
  Proof.
    intros. cbn [block_loop cv_eolb enc32_conv f_eolb cv_write]. unfold enc32_write. cbn.
    fold (t1 b0 b1) (t2 b1) (t3' b1). rtab. unfold drain; try rewrite drain_fuel_S; cbn. reflexivity.
  Qed.
  Lemma e32_3 a b c e f g h nd b1 b2 xs : byte_ok b1 -> byte_ok b2 ->
    block_loop C (mkE32 [a;b;c;Some (t3' b1);e;f;g;h] 2%nat 3%nat false nd false) (b2 :: xs)
    = (let! (o, s, n) := block_loop C (mkE32 [a; b; c; Some (chr t (t3 b1 b2)); Some (t4' b2); f;g;h] 3%nat 4%nat false nd false) xs in
       Ok (chr t (t3 b1 b2) :: o, s, S n)).
  Proof.
    intros. cbn [block_loop cv_eolb enc32_conv f_eolb cv_write]. unfold enc32_write. cbn.
    fold (t3 b1 b2) (t4' b2). rtab. unfold drain; try rewrite drain_fuel_S; cbn. reflexivity.
  Qed.
  Lemma e32_4 a b c d f g h nd b2 b3 xs : byte_ok b2 -> byte_ok b3 ->
    block_loop C (mkE32 [a;b;c;d;Some (t4' b2);f;g;h] 3%nat 4%nat false nd false) (b3 :: xs)
    = (let! (o, s, n) := block_loop C (mkE32 [a; b; c; d; Some (chr t (t4 b2 b3)); Some (chr t (t5 b3)); Some (t6' b3); h] 4%nat 6%nat false nd false) xs in
       Ok (chr t (t4 b2 b3) :: chr t (t5 b3) :: o, s, S n)).
  Proof.
    intros. cbn [block_loop cv_eolb enc32_conv f_eolb cv_write]. unfold enc32_write. cbn.
    fold (t4 b2 b3) (t5 b3) (t6' b3). rtab. unfold drain; try rewrite drain_fuel_S; cbn. reflexivity.
  Qed.
  Lemma e32_5 a b c d e f h nd b3 b4 xs : byte_ok b3 -> byte_ok b4 ->
    block_loop C (mkE32 [a;b;c;d;e;f;Some (t6' b3);h] 4%nat 6%nat false nd false) (b4 :: xs)
    = (let! (o, s, n) := block_loop C (mkE32 [a; b; c; d; e; f; Some (chr t (t6 b3 b4)); Some (chr t (t7 b4))] 0%nat 0%nat false true false) xs in
       Ok (chr t (t6 b3 b4) :: chr t (t7 b4) :: o, s, S n)).
  Proof.
    intros. cbn [block_loop cv_eolb enc32_conv f_eolb cv_write]. unfold enc32_write. cbn.
    fold (t6 b3 b4) (t7 b4). rtab. unfold drain; try rewrite drain_fuel_S; cbn. reflexivity.
  Qed.

  Definition enc32_done (o2 : list N) (st : enc32) : Prop :=
    exists st2 st3, cv_flush C st = Ok st2 /\ drain C st2 = Ok (o2, st3) /\ f_eolb st3 = true
                    /\ f_has st3 = false.

  (** what the encoder really emits: the RFC text with padding; without padding the
      last character of an incomplete group is missing *)
  Definition emitted32 (xs : list N) : list N :=
    if (pad =? 0) && negb (Nat.eqb (Nat.modulo (length xs) 5) 0)
    then removelast (rfc_text 5 8 t pad xs) else rfc_text 5 8 t pad xs.

  Ltac tail_case n L :=
    do 2 eexists; exists n; split; [reflexivity|]; split;
    [ unfold enc32_done; destruct (pad =? 0) eqn:Hp;
      (do 2 eexists; split;
       [cbn; rewrite tab32_ok by (try exact Ht; tlt); cbn; rewrite Hp; cbn; reflexivity|]; split;
       [cbv -[chr t0 t1 t2 t3 t4 t5 t6 t7 t1' t3' t4' t6']; reflexivity | split; reflexivity])
    | unfold emitted32, rfc_text; rewrite L by assumption; unfold rfc_padding; cbn;
      destruct (pad =? 0); reflexivity ].

  Lemma enc32_run xs : bytes_ok xs -> forall a b c d e f g h nd,
    exists o1 st1 o2,
      block_loop C (mkE32 [a;b;c;d;e;f;g;h] 0%nat 0%nat false nd false) xs = Ok (o1, st1, length xs)
      /\ enc32_done o2 st1
      /\ o1 ++ o2 = emitted32 xs.
  Proof.
    induction xs as [|b0|b0 b1|b0 b1 b2|b0 b1 b2 b3|b0 b1 b2 b3 b4 xs IH] using list_ind5;
      intros Hb a b c d e f g h nd;
      repeat match goal with H : bytes_ok (_ :: _) |- _ => inversion H; clear H; subst
                        | H : Forall byte_ok (_ :: _) |- _ => inversion H; clear H; subst end.
    - exists [], (mkE32 [a;b;c;d;e;f;g;h] 0%nat 0%nat false nd false), []. repeat split; auto.
      + do 2 eexists. cbn. repeat split.
      + unfold emitted32, rfc_text, rfc_padding. cbn. destruct (pad =? 0); reflexivity.
    - rewrite e32_1 by assumption. cbn [block_loop obind length].
      tail_case (if pad =? 0 then [] else chr t (t1' b0) :: repeat pad 6) rfc5_1.
    - rewrite e32_1, e32_2 by assumption. cbn [block_loop obind length].
      tail_case (if pad =? 0 then [] else chr t (t3' b1) :: repeat pad 4) rfc5_2.
    - rewrite e32_1, e32_2, e32_3 by assumption. cbn [block_loop obind length].
      tail_case (if pad =? 0 then [] else chr t (t4' b2) :: repeat pad 3) rfc5_3.
    - rewrite e32_1, e32_2, e32_3, e32_4 by assumption. cbn [block_loop obind length].
      tail_case (if pad =? 0 then [] else chr t (t6' b3) :: repeat pad 1) rfc5_4.
    - rewrite e32_1, e32_2, e32_3, e32_4, e32_5 by assumption.
      edestruct IH as (o1 & st1 & o2 & E1 & E2 & E3); [assumption|].
      rewrite E1. cbn [obind length].
      do 2 eexists. exists o2. split; [reflexivity|]. split; [exact E2|].
      cbn [app]. rewrite E3. unfold emitted32, rfc_text. rewrite rfc5_group by assumption.
      cbn [map app].
      assert (Hpd : rfc_padding 8 pad (length (t0 b0 :: t1 b0 b1 :: t2 b1 :: t3 b1 b2 :: t4 b2 b3 :: t5 b3 :: t6 b3 b4 :: t7 b4 :: rfc_symbols 5 xs))
                    = rfc_padding 8 pad (length (rfc_symbols 5 xs))).
      { unfold rfc_padding. destruct (pad =? 0); auto. f_equal. cbn [length].
        generalize (length (rfc_symbols 5 xs)) as n. clear. intros n. lia. }
      rewrite Hpd.
      assert (Hm : Nat.modulo (length (b0 :: b1 :: b2 :: b3 :: b4 :: xs)) 5 = Nat.modulo (length xs) 5).
      { cbn [length]. generalize (length xs) as n. clear. intros n. lia. }
      rewrite Hm.
      destruct ((pad =? 0) && negb (Nat.eqb (Nat.modulo (length xs) 5) 0)) eqn:Hc; [|reflexivity].
      apply andb_prop in Hc as [Hc1 Hc2].
      assert (Hne : exists y l, map (fun v : N => nth (N.to_nat v) t 0) (rfc_symbols 5 xs) ++ rfc_padding 8 pad (length (rfc_symbols 5 xs)) = y :: l).
      { destruct xs as [|x xs]; [discriminate|].
        unfold rfc_symbols, bit_string, byte_bits. cbn [flat_map map app bit_groups length Nat.eqb rev].
        eexists. eexists. cbn [map app]. reflexivity. }
      destruct Hne as (y & l & Hyl). rewrite Hyl. reflexivity.
  Qed.
End Enc32.

Lemma enc32_push t pad xs : length t = 32%nat -> bytes_ok xs ->
  base32_encode t pad xs = Ok (emitted32 t pad xs).
Proof.
  intros Ht Hb. unfold base32_encode.
  destruct (enc32_run t pad Ht xs Hb None None None None None None None None true) as (o1 & st & o2 & E1 & (st2 & st3 & E2 & E3 & _ & _) & E4).
  rewrite <- E4. eapply push_all_block; eauto; reflexivity.
Qed.

Lemma enc32_pull t pad xs : length t = 32%nat -> bytes_ok xs ->
  forall fuel, (length (emitted32 t pad xs) <= fuel)%nat ->
  pull_n (enc32_conv t pad) fuel enc32_init xs = Ok (emitted32 t pad xs).
Proof.
  intros Ht Hb fuel Hf.
  destruct (enc32_run t pad Ht xs Hb None None None None None None None None true) as (o1 & st & o2 & E1 & (st2 & st3 & E2 & E3 & E5 & E6) & E4).
  rewrite <- E4 in *. eapply pull_eq_block; [reflexivity|exact E1|exact E2|exact E3|auto| | |exact Hf].
  - cbn [cv_flush enc32_conv]. unfold enc32_flush. rewrite E5. reflexivity.
  - exact E6.
Qed.

(** ---- decoder ---- *)
Definition table32_for (t : list N) (tbl : list (option N)) : Prop :=
  forall v, v < 32 -> cell tbl (N.to_nat (chr t v)) = Ok v.

Lemma initCase_from_ok mask t : forall i tbl,
  Forall (fun c => c < 128) t -> length tbl = 256%nat ->
  exists tbl', initTableCase_from mask false i t tbl = Ok tbl' /\ length tbl' = 256%nat
    /\ (forall c, ~ In c t -> nth_error tbl' (N.to_nat c) = nth_error tbl (N.to_nat c)).
Proof.
  induction t as [|ch t IH]; intros i tbl Hc Hl; cbn [initTableCase_from].
  - exists tbl. auto.
  - inversion Hc; subst. destruct (N.ltb_spec ch 128); [|lia].
    unfold setc. rewrite Hl.
    destruct (Nat.ltb_spec (N.to_nat ch) 256); [|lia]. cbn [obind].
    destruct (IH (i + 1) (upd tbl (N.to_nat ch) (Some (N.land i mask)))) as (tbl' & E1 & E2 & E3); auto.
    { rewrite upd_length; auto. }
    exists tbl'. repeat split; auto.
    intros c Hn. rewrite E3 by (intros K; apply Hn; right; auto).
    apply nth_error_upd_ne. intros K. apply Hn. left. lia.
Qed.

Lemma initCase_from_at mask t : forall i tbl,
  Forall (fun c => c < 128) t -> NoDup t -> length tbl = 256%nat ->
  forall tbl', initTableCase_from mask false i t tbl = Ok tbl' ->
  forall k, (k < length t)%nat ->
  nth_error tbl' (N.to_nat (nth k t 0)) = Some (Some (N.land (i + N.of_nat k) mask)).
Proof.
  induction t as [|ch t IH]; intros i tbl Hc Hd Hl tbl' E k Hk; [simpl in Hk; lia|].
  cbn [initTableCase_from] in E.
  inversion Hc; subst. inversion Hd; subst. destruct (N.ltb_spec ch 128); [|lia].
  unfold setc in E. rewrite Hl in E.
  destruct (Nat.ltb_spec (N.to_nat ch) 256); [|lia]. cbn [obind] in E.
  destruct k as [|k].
  - cbn [nth]. destruct (initCase_from_ok mask t (i + 1) (upd tbl (N.to_nat ch) (Some (N.land i mask)))) as (tbl2 & E1 & E2 & E3); auto.
    { rewrite upd_length; auto. }
    rewrite E1 in E. injection E as <-. rewrite E3 by assumption.
    rewrite nth_error_upd_eq by lia. do 2 f_equal. f_equal. lia.
  - cbn [nth]. simpl in Hk. rewrite (IH (i + 1) (upd tbl (N.to_nat ch) (Some (N.land i mask)))); auto; try lia.
    + do 2 f_equal. f_equal. lia.
    + rewrite upd_length; auto.
Qed.

Lemma initTable32_for t : alphabet32_ok t -> exists tbl, initTableCase 31 false t = Ok tbl /\ table32_for t tbl.
Proof.
  intros (Hl & Hd & Hc).
  destruct (initCase_from_ok 31 t 0 (repeat None 256)) as (tbl & E & _ & _); auto.
  exists tbl. split; [exact E|]. intros v Hv. unfold cell, chr.
  rewrite (initCase_from_at 31 t 0 (repeat None 256) Hc Hd eq_refl tbl E) by lia.
  f_equal. rewrite N.add_0_l, N2Nat.id. change 31 with (N.ones 5). rewrite land_mod.
  apply N.mod_small. exact Hv.
Qed.

(** reassembled bytes *)
Definition q0 (v0 v1 : N) := to_byte (N.lor (to_byte (N.shiftl v0 3)) (N.shiftr v1 2)).
Definition q1a (v1 v2 : N) := to_byte (N.lor (to_byte (N.shiftl v1 6)) (N.shiftl v2 1)).
Definition q1 (v1 v2 v3 : N) := to_byte (N.lor (q1a v1 v2) (N.shiftr v3 4)).
Definition q2 (v3 v4 : N) := to_byte (N.lor (to_byte (N.shiftl v3 4)) (N.shiftr v4 1)).
Definition q3a (v4 v5 : N) := to_byte (N.lor (to_byte (N.shiftl v4 7)) (N.shiftl v5 2)).
Definition q3 (v4 v5 v6 : N) := to_byte (N.lor (q3a v4 v5) (N.shiftr v6 3)).
Definition q4 (v6 v7 : N) := to_byte (N.lor (to_byte (N.shiftl v6 5)) v7).

Lemma sweep32_2 (P : N -> N -> bool) :
  forallb (fun a => forallb (P a) (Nrange 32)) (Nrange 32) = true ->
  forall a b, a < 32 -> b < 32 -> P a b = true.
Proof.
  intros H a b Ha Hb. rewrite forallb_forall in H.
  specialize (H a (in_Nrange 32 a Ha)). rewrite forallb_forall in H.
  apply H, (in_Nrange 32 b Hb).
Qed.
Lemma sweep32_3 (P : N -> N -> N -> bool) :
  forallb (fun a => forallb (fun b => forallb (P a b) (Nrange 32)) (Nrange 32)) (Nrange 32) = true ->
  forall a b c, a < 32 -> b < 32 -> c < 32 -> P a b c = true.
Proof.
  intros H a b c Ha Hb Hc. rewrite forallb_forall in H.
  specialize (H a (in_Nrange 32 a Ha)). rewrite forallb_forall in H.
  specialize (H b (in_Nrange 32 b Hb)). rewrite forallb_forall in H.
  apply H, (in_Nrange 32 c Hc).
Qed.

Lemma q0_arith a b : a < 32 -> b < 32 -> q0 a b = a * 8 + b / 4.
Proof. intros Ha Hb. apply N.eqb_eq. revert a b Ha Hb.
  apply (sweep32_2 (fun a b => q0 a b =? a * 8 + b / 4)). vm_compute. reflexivity. Qed.
Lemma q1_arith a b c : a < 32 -> b < 32 -> c < 32 -> q1 a b c = (a mod 4) * 64 + b * 2 + c / 16.
Proof. intros Ha Hb Hc. apply N.eqb_eq. revert a b c Ha Hb Hc.
  apply (sweep32_3 (fun a b c => q1 a b c =? (a mod 4) * 64 + b * 2 + c / 16)). vm_compute. reflexivity. Qed.
Lemma q2_arith a b : a < 32 -> b < 32 -> q2 a b = (a mod 16) * 16 + b / 2.
Proof. intros Ha Hb. apply N.eqb_eq. revert a b Ha Hb.
  apply (sweep32_2 (fun a b => q2 a b =? (a mod 16) * 16 + b / 2)). vm_compute. reflexivity. Qed.
Lemma q3_arith a b c : a < 32 -> b < 32 -> c < 32 -> q3 a b c = (a mod 2) * 128 + b * 4 + c / 8.
Proof. intros Ha Hb Hc. apply N.eqb_eq. revert a b c Ha Hb Hc.
  apply (sweep32_3 (fun a b c => q3 a b c =? (a mod 2) * 128 + b * 4 + c / 8)). vm_compute. reflexivity. Qed.
Lemma q4_arith a b : a < 32 -> b < 32 -> q4 a b = (a mod 8) * 32 + b.
Proof. intros Ha Hb. apply N.eqb_eq. revert a b Ha Hb.
  apply (sweep32_2 (fun a b => q4 a b =? (a mod 8) * 32 + b)). vm_compute. reflexivity. Qed.

Lemma q0_t b0 b1 : byte_ok b0 -> byte_ok b1 -> q0 (t0 b0) (t1 b0 b1) = b0.
Proof. intros. rewrite q0_arith by tlt. tarith. Qed.
Lemma q0_t' b0 : byte_ok b0 -> q0 (t0 b0) (t1' b0) = b0.
Proof. intros. rewrite q0_arith by tlt. tarith. Qed.
Lemma q1_t b0 b1 b2 : byte_ok b0 -> byte_ok b1 -> byte_ok b2 -> q1 (t1 b0 b1) (t2 b1) (t3 b1 b2) = b1.
Proof. intros. rewrite q1_arith by tlt. tarith. Qed.
Lemma q1_t' b0 b1 : byte_ok b0 -> byte_ok b1 -> q1 (t1 b0 b1) (t2 b1) (t3' b1) = b1.
Proof. intros. rewrite q1_arith by tlt. tarith. Qed.
Lemma q2_t b1 b2 b3 : byte_ok b1 -> byte_ok b2 -> byte_ok b3 -> q2 (t3 b1 b2) (t4 b2 b3) = b2.
Proof. intros. rewrite q2_arith by tlt. tarith. Qed.
Lemma q2_t' b1 b2 : byte_ok b1 -> byte_ok b2 -> q2 (t3 b1 b2) (t4' b2) = b2.
Proof. intros. rewrite q2_arith by tlt. tarith. Qed.
Lemma q3_t b2 b3 b4 : byte_ok b2 -> byte_ok b3 -> byte_ok b4 -> q3 (t4 b2 b3) (t5 b3) (t6 b3 b4) = b3.
Proof. intros. rewrite q3_arith by tlt. tarith. Qed.
Lemma q3_t' b2 b3 : byte_ok b2 -> byte_ok b3 -> q3 (t4 b2 b3) (t5 b3) (t6' b3) = b3.
Proof. intros. rewrite q3_arith by tlt. tarith. Qed.
Lemma q4_t b3 b4 : byte_ok b3 -> byte_ok b4 -> q4 (t6 b3 b4) (t7 b4) = b4.
Proof. intros. rewrite q4_arith by tlt. tarith. Qed.

Section Dec32.
  Variables (t : list N) (tbl : list (option N)) (pad : N).
  Hypothesis Htbl : table32_for t tbl.
  Hypothesis Hpad : forall v, v < 32 -> chr t v <> pad.
  Notation D := (dec32_conv tbl pad).

  Lemma not_pad32 v : v < 32 -> (chr t v =? pad) = false.
  Proof. intros. apply N.eqb_neq. auto. Qed.

  Ltac step := intros; cbn [block_loop cv_eolb dec32_conv g_eolb cv_write]; unfold dec32_write;
     rewrite not_pad32 by assumption; rewrite Htbl by assumption; cbn;
     unfold drain; try rewrite drain_fuel_S; cbn; reflexivity.

  Lemma d32_1 a b c d e nd v xs : v < 32 ->
    block_loop D (mkD32 [a;b;c;d;e] 0%nat 0%nat false nd false) (chr t v :: xs)
    = (let! (o, s, n) := block_loop D (mkD32 [Some (to_byte (N.shiftl v 3)); b;c;d;e] 1%nat 0%nat false nd false) xs in
       Ok (o, s, S n)).
  Proof. step. Qed.
  Lemma d32_2 b c d e nd v0 v xs : v < 32 ->
    block_loop D (mkD32 [Some (to_byte (N.shiftl v0 3)); b;c;d;e] 1%nat 0%nat false nd false) (chr t v :: xs)
    = (let! (o, s, n) := block_loop D (mkD32 [Some (q0 v0 v); Some (to_byte (N.shiftl v 6));c;d;e] 2%nat 1%nat false nd false) xs in
       Ok (q0 v0 v :: o, s, S n)).
  Proof. step. Qed.
  Lemma d32_3 a c d e nd v1 v xs : v < 32 ->
    block_loop D (mkD32 [a; Some (to_byte (N.shiftl v1 6));c;d;e] 2%nat 1%nat false nd false) (chr t v :: xs)
    = (let! (o, s, n) := block_loop D (mkD32 [a; Some (q1a v1 v);c;d;e] 3%nat 1%nat false nd false) xs in
       Ok (o, s, S n)).
  Proof. step. Qed.
  Lemma d32_4 a c d e nd v1 v2 v xs : v < 32 ->
    block_loop D (mkD32 [a; Some (q1a v1 v2);c;d;e] 3%nat 1%nat false nd false) (chr t v :: xs)
    = (let! (o, s, n) := block_loop D (mkD32 [a; Some (q1 v1 v2 v); Some (to_byte (N.shiftl v 4));d;e] 4%nat 2%nat false nd false) xs in
       Ok (q1 v1 v2 v :: o, s, S n)).
  Proof. step. Qed.
  Lemma d32_5 a b d e nd v3 v xs : v < 32 ->
    block_loop D (mkD32 [a; b; Some (to_byte (N.shiftl v3 4));d;e] 4%nat 2%nat false nd false) (chr t v :: xs)
    = (let! (o, s, n) := block_loop D (mkD32 [a; b; Some (q2 v3 v); Some (to_byte (N.shiftl v 7)); e] 5%nat 3%nat false nd false) xs in
       Ok (q2 v3 v :: o, s, S n)).
  Proof. step. Qed.
  Lemma d32_6 a b c e nd v4 v xs : v < 32 ->
    block_loop D (mkD32 [a; b; c; Some (to_byte (N.shiftl v4 7)); e] 5%nat 3%nat false nd false) (chr t v :: xs)
    = (let! (o, s, n) := block_loop D (mkD32 [a; b; c; Some (q3a v4 v); e] 6%nat 3%nat false nd false) xs in
       Ok (o, s, S n)).
  Proof. step. Qed.
  Lemma d32_7 a b c e nd v4 v5 v xs : v < 32 ->
    block_loop D (mkD32 [a; b; c; Some (q3a v4 v5); e] 6%nat 3%nat false nd false) (chr t v :: xs)
    = (let! (o, s, n) := block_loop D (mkD32 [a; b; c; Some (q3 v4 v5 v); Some (to_byte (N.shiftl v 5))] 7%nat 4%nat false nd false) xs in
       Ok (q3 v4 v5 v :: o, s, S n)).
  Proof. step. Qed.
  Lemma d32_8 a b c d nd v6 v xs : v < 32 ->
    block_loop D (mkD32 [a; b; c; d; Some (to_byte (N.shiftl v6 5))] 7%nat 4%nat false nd false) (chr t v :: xs)
    = (let! (o, s, n) := block_loop D (mkD32 [a; b; c; d; Some (q4 v6 v)] 0%nat 0%nat false true false) xs in
       Ok (q4 v6 v :: o, s, S n)).
  Proof. step. Qed.

  Lemma dec32_run xs : bytes_ok xs -> forall a b c d e nd,
    exists st,
      block_loop D (mkD32 [a;b;c;d;e] 0%nat 0%nat false nd false) (map (chr t) (rfc_symbols 5 xs))
        = Ok (xs, st, length (rfc_symbols 5 xs)) /\ g_has st = false /\ g_eolb st = false.
  Proof.
    induction xs as [|b0|b0 b1|b0 b1 b2|b0 b1 b2 b3|b0 b1 b2 b3 b4 xs IH] using list_ind5;
      intros Hb a b c d e nd;
      repeat match goal with H : bytes_ok (_ :: _) |- _ => inversion H; clear H; subst
                        | H : Forall byte_ok (_ :: _) |- _ => inversion H; clear H; subst end.
    - eexists. cbn. auto.
    - rewrite rfc5_1 by assumption. cbn [map length].
      rewrite d32_1, d32_2 by tlt. rewrite q0_t' by assumption. eexists. cbn. auto.
    - rewrite rfc5_2 by assumption. cbn [map length].
      rewrite d32_1, d32_2, d32_3, d32_4 by tlt. rewrite q0_t, q1_t' by assumption. eexists. cbn. auto.
    - rewrite rfc5_3 by assumption. cbn [map length].
      rewrite d32_1, d32_2, d32_3, d32_4, d32_5 by tlt. rewrite q0_t, q1_t, q2_t' by assumption. eexists. cbn. auto.
    - rewrite rfc5_4 by assumption. cbn [map length].
      rewrite d32_1, d32_2, d32_3, d32_4, d32_5, d32_6, d32_7 by tlt.
      rewrite q0_t, q1_t, q2_t, q3_t' by assumption. eexists. cbn. auto.
    - rewrite rfc5_group by assumption. cbn [map length].
      rewrite d32_1, d32_2, d32_3, d32_4, d32_5, d32_6, d32_7, d32_8 by tlt.
      rewrite q0_t, q1_t, q2_t, q3_t, q4_t by assumption.
      edestruct IH as (st & E1 & E2 & E3); [assumption|].
      rewrite E1. cbn [obind]. exists st. auto.
  Qed.

  Lemma dec32_pads st n : g_has st = false ->
    exists st', writes D st (repeat pad n) = Ok ([], st') /\ g_has st' = false.
  Proof.
    revert st; induction n as [|n IH]; intros st Hst; cbn [repeat writes].
    - exists st. auto.
    - unfold writeToIter. rewrite drain_empty by exact Hst.
      cbn [obind cv_write dec32_conv]. unfold dec32_write. rewrite N.eqb_refl. cbn [obind].
      rewrite drain_empty by exact Hst. cbn [obind app].
      edestruct (IH (mkD32 (g_out st) (g_wr st) (g_rd st) (g_has st) (g_need st) true)) as (st' & E & E'); [exact Hst|].
      exists st'. rewrite E. auto.
  Qed.

  Lemma dec32_push xs : bytes_ok xs ->
    push_all D dec32_init (rfc_text 5 8 t pad xs) = Ok xs.
  Proof.
    intros Hb. destruct (dec32_run xs Hb None None None None None true) as (st & E1 & E2 & E3).
    unfold push_all, rfc_text, rfc_padding.
    set (m := if pad =? 0 then 0%nat else ((8 - length (rfc_symbols 5 xs) mod 8) mod 8)%nat).
    assert (Em : (if pad =? 0 then [] else repeat pad ((8 - length (rfc_symbols 5 xs) mod 8) mod 8)%nat) = repeat pad m)
      by (unfold m; destruct (pad =? 0); reflexivity).
    rewrite Em. destruct (dec32_pads st m E2) as (st' & E4 & E5).
    rewrite (writes_app _ _ _ _ xs st [] st').
    - cbn [obind]. unfold flushToIter. cbn [cv_flush dec32_conv dec32_flush obind].
      rewrite drain_empty by exact E5. cbn [obind]. rewrite !app_nil_r. reflexivity.
    - apply block_loop_writes; [reflexivity|]. fold (chr t). rewrite map_length. exact E1.
    - exact E4.
  Qed.

  Lemma dec32_pads_block st n : g_has st = false -> g_eolb st = false ->
    exists st' k, block_loop D st (repeat pad n) = Ok ([], st', k) /\ g_has st' = false.
  Proof.
    intros Hst He. destruct n as [|n]; cbn [repeat block_loop].
    - exists st, 0%nat. auto.
    - cbn [cv_eolb dec32_conv]. rewrite He. cbn [cv_write dec32_conv]. unfold dec32_write.
      rewrite N.eqb_refl. cbn [obind]. rewrite drain_empty by exact Hst. cbn [obind app].
      destruct n; cbn [repeat block_loop cv_eolb dec32_conv g_eolb obind app]; do 2 eexists; split; try reflexivity; exact Hst.
  Qed.

  Lemma dec32_pull xs : bytes_ok xs -> forall fuel, (length xs <= fuel)%nat ->
    pull_n D fuel dec32_init (rfc_text 5 8 t pad xs) = Ok xs.
  Proof.
    intros Hb fuel Hf. destruct (dec32_run xs Hb None None None None None true) as (st & E1 & E2 & E3).
    unfold rfc_text, rfc_padding.
    set (m := if pad =? 0 then 0%nat else ((8 - length (rfc_symbols 5 xs) mod 8) mod 8)%nat).
    assert (Em : (if pad =? 0 then [] else repeat pad ((8 - length (rfc_symbols 5 xs) mod 8) mod 8)%nat) = repeat pad m)
      by (unfold m; destruct (pad =? 0); reflexivity).
    rewrite Em. destruct (dec32_pads_block st m E2 E3) as (st' & k & E4 & E5).
    rewrite <- (map_length (chr t)) in E1.
    pose proof (block_loop_app D _ _ _ _ _ _ _ _ E1 E4) as E.
    rewrite app_nil_r in E.
    assert (R : pull_n D fuel dec32_init (map (chr t) (rfc_symbols 5 xs) ++ repeat pad m) = Ok (xs ++ [])).
    { eapply pull_eq_block; [reflexivity|exact E|reflexivity|apply drain_empty; exact E5
        |right; reflexivity|reflexivity|exact E5|].
      rewrite app_nil_r. exact Hf. }
    rewrite app_nil_r in R. exact R.
  Qed.
End Dec32.

Lemma chr32_in t v : length t = 32%nat -> v < 32 -> In (chr t v) t.
Proof. intros Hl Hv. unfold chr. apply nth_In. lia. Qed.

Lemma base32_is_rfc_lem t pad xs : length t = 32%nat -> pad <> 0 -> bytes_ok xs ->
  base32_encode t pad xs = Ok (rfc_text 5 8 t pad xs).
Proof.
  intros Ht Hp Hb. rewrite enc32_push by auto. unfold emitted32.
  apply N.eqb_neq in Hp. rewrite Hp. reflexivity.
Qed.

Lemma base32_roundtrip_lem t pad xs :
  alphabet32_ok t -> ~ In pad t -> pad <> 0 -> bytes_ok xs ->
  exists txt, base32_encode t pad xs = Ok txt /\ base32_decode (initTableCase 31 false t) pad txt = Ok xs.
Proof.
  intros Ht Hp H0 Hb. pose proof Ht as (Hl & _).
  exists (rfc_text 5 8 t pad xs). split; [apply base32_is_rfc_lem; auto|].
  destruct (initTable32_for t Ht) as (tbl & E & Htb). unfold base32_decode. rewrite E. cbn [obind].
  apply (dec32_push t); auto. intros v Hv K. apply Hp. rewrite <- K. apply chr32_in; auto.
Qed.

Lemma base32_nopad_loses t xs : length t = 32%nat -> bytes_ok xs -> Nat.modulo (length xs) 5 <> 0%nat ->
  base32_encode t 0 xs = Ok (removelast (rfc_text 5 8 t 0 xs)).
Proof.
  intros Ht Hb Hm. rewrite enc32_push by auto. unfold emitted32.
  apply Nat.eqb_neq in Hm. rewrite Hm. reflexivity.
Qed.

Lemma base32_nopad_aligned t xs :
  alphabet32_ok t -> ~ In 0 t -> bytes_ok xs -> Nat.modulo (length xs) 5 = 0%nat ->
  exists txt, base32_encode t 0 xs = Ok txt /\ base32_decode (initTableCase 31 false t) 0 txt = Ok xs.
Proof.
  intros Ht Hp Hb Hm. pose proof Ht as (Hl & _).
  exists (rfc_text 5 8 t 0 xs). split.
  - rewrite enc32_push by auto. unfold emitted32. rewrite Hm. reflexivity.
  - destruct (initTable32_for t Ht) as (tbl & E & Htb). unfold base32_decode. rewrite E. cbn [obind].
    apply (dec32_push t); auto. intros v Hv K. apply Hp. rewrite <- K. apply chr32_in; auto.
Qed.

Lemma alphabet32_is_ok : alphabet32_ok alphabet32.
Proof.
  split; [reflexivity|]. split; [apply nodupb_sound; vm_compute; reflexivity|].
  apply Forall_forall. intros x Hx.
  assert (H : forallb (fun c => c <? 128) alphabet32 = true) by (vm_compute; reflexivity).
  rewrite forallb_forall in H. apply N.ltb_lt, H, Hx.
Qed.
