(** Proofs about the variable length number coding. *)
From Verif Require Import Common CompressNumb_Model.
Local Open Scope N_scope.
Ltac Zify.zify_post_hook ::= Z.div_mod_to_equations.

(** big-endian digits *)
Fixpoint be (len : nat) (m : N) : list N :=
  match len with
  | O => []
  | S l => be l (m / 256) ++ [m mod 256]
  end.

Lemma be_length len m : length (be len m) = len.
Proof. revert m; induction len; intros m; simpl; auto. rewrite app_length, IHlen; simpl; lia. Qed.

Lemma be_bytes len m : bytes_ok (be len m).
Proof.
  revert m; induction len; intros m; simpl; [constructor|].
  apply Forall_app; split; [apply IHlen|]. repeat constructor. unfold byte_ok. lia.
Qed.

Lemma land255 n : N.land n 0xFF = n mod 256.
Proof. change 0xFF with (N.ones 8). apply land_mod. Qed.
Lemma shiftr8 n : N.shiftr n 8 = n / 256.
Proof. apply N.shiftr_div_pow2. Qed.

Lemma store_bytes_eq f len m tail :
  store_bytes f len m tail =
  N.lor ((m / 256 ^ N.of_nat len) mod 256) f :: be len m ++ tail.
Proof.
  revert m tail; induction len as [|l IH]; intros m tail.
  - cbn [store_bytes be app]. rewrite land255. change (256 ^ N.of_nat 0) with 1. now rewrite N.div_1_r.
  - cbn [store_bytes be]. rewrite IH, land255, shiftr8, <- app_assoc. cbn [app].
    f_equal. f_equal. f_equal.
    rewrite Nat2N.inj_succ, N.pow_succ_r', N.div_div by (try apply N.pow_nonzero; lia). reflexivity.
Qed.

Lemma load_be len x0 m rest :
  x0 = m / 256 ^ N.of_nat len -> m < 2 ^ 64 ->
  load_bytes len 0 x0 (be len m ++ rest) = Ok m.
Proof.
  intros Hx Hm.
  assert (G : forall k res x suf, (k <= len)%nat ->
     u64 (u64 (N.shiftl res 8) + x) = m / 256 ^ N.of_nat k ->
     forall l, l = be k m -> load_bytes k res x (l ++ suf) = Ok m).
  { clear x0 Hx. induction k as [|k IH]; intros res x suf Hk E l ->.
    - cbn [load_bytes]. rewrite E. change (256 ^ N.of_nat 0) with 1. rewrite N.div_1_r. reflexivity.
    - assert (Hbe : forall k m, be (S k) m = ((m / 256 ^ N.of_nat k) mod 256) :: be k m).
      { clear. induction k as [|k IH]; intros m.
        - cbn. change (256 ^ 0) with 1. now rewrite N.div_1_r.
        - change (be (S (S k)) m) with (be (S k) (m / 256) ++ [m mod 256]).
          rewrite IH. change (be (S k) m) with (be k (m/256) ++ [m mod 256]).
          cbn [app]. f_equal. f_equal.
          rewrite Nat2N.inj_succ, N.pow_succ_r', N.div_div by (try apply N.pow_nonzero; lia). reflexivity. }
      rewrite Hbe. cbn [app load_bytes]. rewrite E.
      apply IH; auto; [lia|].
      unfold u64. rewrite N.shiftl_mul_pow2.
      assert (P : 256 ^ N.of_nat k <> 0) by (apply N.pow_nonzero; lia).
      set (q := m / 256 ^ N.of_nat k).
      assert (Eq : m / 256 ^ N.of_nat (S k) = q / 256).
      { unfold q. rewrite N.div_div by (try assumption; discriminate). f_equal. rewrite Nat2N.inj_succ, N.pow_succ_r'. apply N.mul_comm. }
      rewrite Eq. assert (q <= m) by (apply N.div_le_upper_bound; auto; nia).
      change (2 ^ 8) with 256. change (2 ^ 64) with 18446744073709551616 in *.
      clearbody q. clear - H Hm. rewrite (N.mod_small (q / 256 * 256)) by lia. rewrite N.mod_small; lia. }
  apply G; auto.
  unfold u64. rewrite N.shiftl_0_l. rewrite <- Hx. rewrite (N.mod_small 0) by (now compute).
  rewrite N.add_0_l. apply N.mod_small. subst.
  assert (P : 256 ^ N.of_nat len <> 0) by (apply N.pow_nonzero; lia).
  eapply N.le_lt_trans; [|exact Hm]. apply N.div_le_upper_bound; auto; nia.
Qed.

(** the classes *)
Lemma class_cases n : n < 2 ^ 64 ->
  let len := calcCompressedLen n in
  let o := nth len compressOffsets 0 in
  let f := if (len =? 8)%nat then 0xFF else N.shiftl (N.of_nat len) 5 in
  let t := ((n - o) / 256 ^ N.of_nat len) mod 256 in
  o <= n /\ N.to_nat (numberLength (N.lor t f)) = S len /\ (len <= 8)%nat
  /\ N.lor t f < 256
  /\ N.land (N.lor t f) (N.shiftr 0x1F (N.land (N.of_nat len) 8)) = (n - o) / 256 ^ N.of_nat len.
Proof.
  intros Hn.
  assert (K : forall k t, (k < 8)%nat -> t < 32 -> ((k = 7)%nat -> t < 31) ->
     N.to_nat (numberLength (N.lor t (N.shiftl (N.of_nat k) 5))) = S k
     /\ N.lor t (N.shiftl (N.of_nat k) 5) < 256
     /\ N.land (N.lor t (N.shiftl (N.of_nat k) 5)) (N.shiftr 0x1F (N.land (N.of_nat k) 8)) = t).
  { intros k t Hk Ht H7.
    assert (B : forallb (fun k => forallb (fun t => if (t =? 31) && (k =? 7) then true else
        (numberLength (N.lor t (N.shiftl k 5)) =? k + 1) && (N.lor t (N.shiftl k 5) <? 256)
        && (N.land (N.lor t (N.shiftl k 5)) (N.shiftr 0x1F (N.land k 8)) =? t))
        (Nrange 32)) (Nrange 8) = true) by (vm_compute; reflexivity).
    rewrite forallb_forall in B. specialize (B (N.of_nat k) (in_Nrange 8 (N.of_nat k) ltac:(lia))).
    rewrite forallb_forall in B. specialize (B t (in_Nrange 32 t Ht)).
    destruct ((t =? 31) && (N.of_nat k =? 7)) eqn:E.
    - apply andb_true_iff in E. destruct E as [E1 E2]. apply N.eqb_eq in E1, E2. exfalso. lia.
    - apply andb_true_iff in B. destruct B as [B B3]. apply andb_true_iff in B. destruct B as [B1 B2].
      apply N.eqb_eq in B1, B3. apply N.ltb_lt in B2. rewrite B1. repeat split; auto. lia. }
  change (2 ^ 64) with 18446744073709551616 in Hn.
  unfold calcCompressedLen.
  repeat match goal with
  | |- context [if ?a <? ?b then _ else _] => destruct (N.ltb_spec a b)
  end; cbn -[N.shiftl N.lor N.land N.of_nat N.pow N.div N.modulo numberLength N.sub];
  match goal with |- context [N.of_nat ?k] =>
    let v := eval compute in (256 ^ N.of_nat k) in change (256 ^ N.of_nat k) with v end;
  try (match goal with |- context [N.lor (?a mod 256) (N.shiftl (N.of_nat ?k) 5)] =>
    assert (a < 32) by lia; rewrite (N.mod_small a 256) by lia;
    destruct (K k a) as [K1 [K2 K3]]; [lia|assumption|lia|]; repeat split; auto; lia end).
  (* the nine-byte class *)
  rewrite N.sub_0_r. rewrite N.div_small by lia. change (0 mod 256) with 0.
  rewrite N.lor_0_l. repeat split; try (vm_compute; reflexivity); lia.
Qed.

Lemma u64_sub n o : n < 2 ^ 64 -> o <= n -> u64 (n + 2 ^ 64 - o) = n - o.
Proof. unfold u64. intros. change (2 ^ 64) with 18446744073709551616 in *. lia. Qed.

Lemma compress_eq n : n < 2 ^ 64 ->
  let len := calcCompressedLen n in
  let o := nth len compressOffsets 0 in
  let f := if (len =? 8)%nat then 0xFF else N.shiftl (N.of_nat len) 5 in
  compress n = N.lor (((n - o) / 256 ^ N.of_nat len) mod 256) f :: be len (n - o).
Proof.
  intros Hn len o f. destruct (class_cases n Hn) as [Ho _].
  unfold compress. fold len o f. rewrite u64_sub by auto.
  rewrite store_bytes_eq, app_nil_r. reflexivity.
Qed.

Lemma compress_len n : n < 2 ^ 64 -> length (compress n) = S (calcCompressedLen n).
Proof. intros H. rewrite compress_eq by auto. simpl. now rewrite be_length. Qed.

Lemma compress_bytes n : n < 2 ^ 64 -> bytes_ok (compress n).
Proof.
  intros H. rewrite compress_eq by auto. destruct (class_cases n H) as [_ [_ [_ [A _]]]].
  constructor; [exact A|apply be_bytes].
Qed.

Lemma roundtrip_u n rest : n < 2 ^ 64 ->
  decompress (compress n ++ rest) = Ok n.
Proof.
  intros Hn. rewrite compress_eq by auto.
  destruct (class_cases n Hn) as [Ho [Hl [H8 [Hb Hm]]]].
  set (len := calcCompressedLen n) in *. set (o := nth len compressOffsets 0) in *.
  cbn [app decompress].
  set (b := N.lor _ _) in *.
  assert (El : numberLength b - 1 = N.of_nat len) by lia.
  rewrite El. rewrite Hm. rewrite Nat2N.id.
  rewrite load_be; auto.
  - cbn [obind]. fold o. unfold u64. f_equal. rewrite N.mod_small; lia.
  - lia.
Qed.

Lemma first_byte_len n : n < 2 ^ 64 ->
  exists b t, compress n = b :: t /\ numberLength b = N.of_nat (length (compress n)).
Proof.
  intros Hn. destruct (class_cases n Hn) as [_ [Hl _]].
  pose proof (compress_len n Hn) as L. rewrite compress_eq in * by auto.
  do 2 eexists. split; [reflexivity|]. rewrite L. lia.
Qed.

Lemma len_bounds n : n < 2 ^ 64 -> (1 <= length (compress n) <= 9)%nat.
Proof. intros H. rewrite compress_len by auto. destruct (class_cases n H) as [_ [_ [A _]]]. lia. Qed.

Lemma len_mono a b : a <= b -> b < 2 ^ 64 -> (length (compress a) <= length (compress b))%nat.
Proof.
  intros H Hb. rewrite !compress_len by lia. unfold calcCompressedLen.
  repeat match goal with
  | |- context [if ?a <? ?b then _ else _] => destruct (N.ltb_spec a b)
  end; lia.
Qed.

Lemma roundtrip_s z rest : (- 2 ^ 63 < z < 2 ^ 63)%Z ->
  exists buf, compressSigned z = Ok buf /\ bytes_ok buf /\ (1 <= length buf <= 9)%nat
    /\ decompressSigned (buf ++ rest) = Ok z
    /\ exists b t, buf = b :: t /\ numberLength b = N.of_nat (length buf).
Proof.
  intros Hz. unfold compressSigned.
  change (2 ^ 63)%Z with 9223372036854775808%Z in *.
  assert (D : forall n, n < 2 ^ 64 ->
     (if N.land n 1 =? 1 then let! m := s64 (- to_s64 (N.shiftr n 1)) in s64 (m - 1)
      else Ok (to_s64 (N.shiftr n 1))) = Ok (if n mod 2 =? 1 then (- Z.of_N (n / 2) - 1)%Z else Z.of_N (n / 2))).
  { intros n Hn. change 1 with (N.ones 1) at 1. rewrite land_mod. change (2 ^ 1) with 2.
    rewrite N.shiftr_div_pow2. change (2 ^ 1) with 2.
    assert (S1 : to_s64 (n / 2) = Z.of_N (n / 2)).
    { unfold to_s64, u64. change (2 ^ 63) with 9223372036854775808. change (2 ^ 64) with 18446744073709551616 in *.
      rewrite N.mod_small by lia. destruct (N.ltb_spec (n/2) 9223372036854775808); lia. }
    rewrite S1. change (2 ^ 64) with 18446744073709551616 in *.
    assert (Z.of_N (n / 2) < 9223372036854775808)%Z by lia.
    destruct (n mod 2 =? 1); auto.
    unfold s64. change (2 ^ 63)%Z with 9223372036854775808%Z.
    replace ((- (9223372036854775808) <=? - Z.of_N (n / 2)) && (- Z.of_N (n / 2) <? 9223372036854775808))%Z%bool with true by lia.
    cbn [obind].
    replace ((- (9223372036854775808) <=? - Z.of_N (n / 2) - 1) && (- Z.of_N (n / 2) - 1 <? 9223372036854775808))%Z%bool with true by lia.
    reflexivity. }
  assert (P : forall n, n < 2 ^ 64 -> (if n mod 2 =? 1 then (- Z.of_N (n / 2) - 1)%Z else Z.of_N (n / 2)) = z ->
    exists buf, Ok (compress n) = Ok buf /\ bytes_ok buf /\ (1 <= length buf <= 9)%nat
    /\ decompressSigned (buf ++ rest) = Ok z
    /\ exists b t, buf = b :: t /\ numberLength b = N.of_nat (length buf)).
  { intros n Hn E. exists (compress n). split; [reflexivity|].
    split; [now apply compress_bytes|]. split; [now apply len_bounds|]. split; [|now apply first_byte_len].
    unfold decompressSigned. rewrite roundtrip_u by auto. cbn [obind]. rewrite D by auto. now rewrite E. }
  destruct (Z.leb_spec 0 z).
  - apply P.
    + unfold to_u64. change (2 ^ 64) with 18446744073709551616. change (2 ^ 64)%Z with 18446744073709551616%Z. lia.
    + unfold to_u64. change (2 ^ 64)%Z with 18446744073709551616%Z. rewrite Z.mod_small by lia.
      destruct (N.eqb_spec (Z.to_N (z * 2) mod 2) 1); lia.
  - unfold s64. change (2 ^ 63)%Z with 9223372036854775808%Z.
    replace ((- (9223372036854775808) <=? - z) && (- z <? 9223372036854775808))%Z%bool with true by lia.
    cbn [obind].
    replace ((- (9223372036854775808) <=? - z - 1) && (- z - 1 <? 9223372036854775808))%Z%bool with true by lia.
    cbn [obind].
    assert (E : N.lor (to_u64 ((- z - 1) * 2)) 1 = Z.to_N (- z - 1) * 2 + 1).
    { unfold to_u64. change (2 ^ 64)%Z with 18446744073709551616%Z. rewrite Z.mod_small by lia.
      replace (Z.to_N ((- z - 1) * 2)) with (Z.to_N (- z - 1) * 2 ^ 1) by lia.
      rewrite lor_add_mul by (now compute). reflexivity. }
    rewrite E. apply P.
    + change (2 ^ 64) with 18446744073709551616. lia.
    + destruct (N.eqb_spec ((Z.to_N (- z - 1) * 2 + 1) mod 2) 1); lia.
Qed.
