(** Bit strings, most significant bit first, and the bit buffers of the LZW
    compressor and decompressor. *)
From Verif Require Import Common Base64_Model Lzw_Model.
Local Open Scope N_scope.

Fixpoint bits (k : nat) (c : N) : list bool :=
  match k with O => [] | S k => N.testbit c (N.of_nat k) :: bits k c end.

Lemma bits_length k c : length (bits k c) = k.
Proof. induction k; simpl; auto. Qed.

Lemma pow_pos n : 0 < 2 ^ n.
Proof. assert (2 ^ n <> 0) by (apply N.pow_nonzero; lia). lia. Qed.

Lemma testbit_split x y b k : y < 2 ^ N.of_nat b ->
  N.testbit (x * 2 ^ N.of_nat b + y) (N.of_nat (k + b)) = N.testbit x (N.of_nat k).
Proof.
  intros Hy. replace (N.of_nat (k + b)) with (N.of_nat k + N.of_nat b) by lia.
  rewrite <- N.div_pow2_bits. f_equal.
  rewrite N.div_add_l by (pose proof (pow_pos (N.of_nat b)); lia). rewrite N.div_small by auto. lia.
Qed.

Lemma testbit_low x y b k : y < 2 ^ N.of_nat b -> (k < b)%nat ->
  N.testbit (x * 2 ^ N.of_nat b + y) (N.of_nat k) = N.testbit y (N.of_nat k).
Proof.
  intros Hy Hk. rewrite <- (N.mod_pow2_bits_low (x * 2 ^ N.of_nat b + y) (N.of_nat b)) by lia.
  f_equal. rewrite N.add_comm, N.mod_add by (pose proof (pow_pos (N.of_nat b)); lia).
  apply N.mod_small. auto.
Qed.

Lemma bits_low x y b k : y < 2 ^ N.of_nat b -> (k <= b)%nat ->
  bits k (x * 2 ^ N.of_nat b + y) = bits k y.
Proof.
  intros Hy. induction k; intros Hk; cbn [bits]; auto. rewrite IHk by lia. rewrite testbit_low by (auto; lia). reflexivity.
Qed.

Lemma bits_app a b x y : y < 2 ^ N.of_nat b ->
  bits (a + b) (x * 2 ^ N.of_nat b + y) = bits a x ++ bits b y.
Proof.
  intros Hy. induction a; cbn [bits Nat.add app].
  - apply bits_low; auto.
  - rewrite IHa. rewrite testbit_split by auto. reflexivity.
Qed.

Lemma bits_split a b c : bits (a + b) c = bits a (c / 2 ^ N.of_nat b) ++ bits b (c mod 2 ^ N.of_nat b).
Proof.
  rewrite <- bits_app.
  - f_equal. rewrite N.mul_comm. apply N.div_mod. pose proof (pow_pos (N.of_nat b)); lia.
  - apply N.mod_lt. pose proof (pow_pos (N.of_nat b)); lia.
Qed.

Lemma bits_inj k c d : c < 2 ^ N.of_nat k -> d < 2 ^ N.of_nat k -> bits k c = bits k d -> c = d.
Proof.
  revert c d; induction k; intros c d Hc Hd E.
  - change (2 ^ N.of_nat 0) with 1 in *. lia.
  - replace (S k) with (k + 1)%nat in E by lia.
    rewrite (bits_split k 1 c), (bits_split k 1 d) in E.
    apply app_inj_tail_iff in E. destruct E as [E1 E2].
    change (2 ^ N.of_nat 1) with 2 in *.
    rewrite Nat2N.inj_succ, N.pow_succ_r' in Hc, Hd.
    assert (c / 2 = d / 2).
    { apply IHk; auto; apply N.div_lt_upper_bound; lia. }
    assert (c mod 2 = d mod 2).
    { cbn [N.of_nat] in E2.
      assert (B : forall x, x < 2 -> N.testbit x 0 = negb (x =? 0)).
      { intros x Hx. assert (x = 0 \/ x = 1) as [->| ->] by lia; reflexivity. }
      rewrite !B in E2 by (apply N.mod_lt; lia).
      assert (c mod 2 < 2) by (apply N.mod_lt; lia). assert (d mod 2 < 2) by (apply N.mod_lt; lia).
      destruct (N.eqb_spec (c mod 2) 0); destruct (N.eqb_spec (d mod 2) 0); try discriminate; lia. }
    rewrite (N.div_mod c 2), (N.div_mod d 2) by lia. lia.
Qed.

Definition byte_bits8 (bs : list N) : list bool := flat_map (bits 8) bs.

Lemma byte_bits8_app a b : byte_bits8 (a ++ b) = byte_bits8 a ++ byte_bits8 b.
Proof. apply flat_map_app. Qed.

(** * ring buffer *)
Definition ring (o : outbuff) (q : list N) : Prop :=
  length (ob_buf o) = 16%nat /\ (ob_rd o < 16)%nat /\ (length q < 16)%nat
  /\ ob_wr o = ((ob_rd o + length q) mod 16)%nat
  /\ forall i x, nth_error q i = Some x -> nth_error (ob_buf o) ((ob_rd o + i) mod 16)%nat = Some (Some x).

(** the bits waiting in the accumulator *)
Definition pending (o : outbuff) (p : list bool) : Prop :=
  1 <= ob_bits o <= 8 /\ exists x, x < 2 ^ (8 - ob_bits o) /\ ob_acc o = x * 2 ^ ob_bits o
    /\ p = bits (N.to_nat (8 - ob_bits o)) x.

Lemma mod16_inj r i j : (i < 16)%nat -> (j < 16)%nat -> ((r + i) mod 16 = (r + j) mod 16)%nat -> i = j.
Proof.
  intros Hi Hj E.
  pose proof (Nat.div_mod (r + i) 16 ltac:(lia)). pose proof (Nat.div_mod (r + j) 16 ltac:(lia)).
  pose proof (Nat.mod_upper_bound (r + i) 16 ltac:(lia)). lia.
Qed.

Lemma ring_put o q b acc w : ring o q -> (length q < 15)%nat ->
  exists buf, setc (ob_buf o) (ob_wr o) b = Ok buf
  /\ ring (mkOB buf ((ob_wr o + 1) mod 16) (ob_rd o) w acc) (q ++ [b]).
Proof.
  intros (L & R & Q & W & C) H15.
  assert (Hw : (ob_wr o < 16)%nat) by (rewrite W; apply Nat.mod_upper_bound; lia).
  exists (upd (ob_buf o) (ob_wr o) (Some b)). unfold setc.
  destruct (Nat.ltb_spec (ob_wr o) (length (ob_buf o))); [|lia]. split; [reflexivity|].
  unfold ring. cbn [ob_buf ob_wr ob_rd]. rewrite upd_length, app_length. cbn [length].
  split; [exact L|]. split; [exact R|]. split; [lia|]. split.
  - rewrite W. rewrite Nat.add_mod_idemp_l by lia. f_equal. lia.
  - intros i x Hi. destruct (Nat.eq_dec i (length q)) as [->|Hne].
    + rewrite nth_error_app2, Nat.sub_diag in Hi by lia. cbn in Hi. injection Hi as <-.
      rewrite <- W. apply nth_error_upd_eq. lia.
    + assert (i < length q)%nat.
      { assert (Hl : (i < length (q ++ [b]))%nat) by (apply nth_error_Some; congruence).
        rewrite app_length in Hl. cbn in Hl. lia. }
      rewrite nth_error_app1 in Hi by lia.
      rewrite nth_error_upd_ne; [now apply C|]. rewrite W. intros E. apply mod16_inj in E; lia.
Qed.

Lemma ring_get o b q : ring o (b :: q) ->
  exists o', ob_next o = Ok (b, o') /\ ring o' q /\ ob_bits o' = ob_bits o /\ ob_acc o' = ob_acc o.
Proof.
  intros (L & R & Q & W & C). unfold ob_next, cell.
  pose proof (C 0%nat b eq_refl) as C0. rewrite Nat.add_0_r, Nat.mod_small in C0 by lia. rewrite C0.
  cbn [obind]. eexists. split; [reflexivity|]. split; [|auto].
  unfold ring. cbn [ob_buf ob_rd ob_wr]. cbn [length] in *.
  split; [exact L|]. split; [apply Nat.mod_upper_bound; lia|]. split; [lia|]. split.
  - rewrite W, Nat.add_mod_idemp_l by lia. f_equal. lia.
  - intros i x Hi. rewrite Nat.add_mod_idemp_l by lia.
    replace (ob_rd o + 1 + i)%nat with (ob_rd o + S i)%nat by lia. apply C. exact Hi.
Qed.

Lemma ring_has o q : ring o q -> ob_has o = match q with [] => false | _ => true end.
Proof.
  intros (L & R & Q & W & C). unfold ob_has. rewrite W. destruct q as [|b q].
  - cbn [length]. rewrite Nat.add_0_r, Nat.mod_small by lia. rewrite Nat.eqb_refl. reflexivity.
  - destruct (Nat.eqb_spec (ob_rd o) ((ob_rd o + length (b :: q)) mod 16)) as [E|]; auto.
    exfalso. rewrite <- (Nat.mod_small (ob_rd o) 16) in E at 1 by lia.
    rewrite <- (Nat.add_0_r (ob_rd o)) in E at 1. apply mod16_inj in E; cbn [length] in *; lia.
Qed.

Lemma u8_small x : x < 256 -> u8 x = x.
Proof. intros. apply N.mod_small. exact H. Qed.

Lemma ob_write_ok f : forall o q p code k,
  ring o q -> pending o p -> code < 2 ^ k -> k < ob_bits o + 8 * N.of_nat f ->
  (length q + f < 16)%nat ->
  exists o' bs p', ob_write f o code k = Ok o' /\ ring o' (q ++ bs) /\ pending o' p'
    /\ p ++ bits (N.to_nat k) code = byte_bits8 bs ++ p' /\ ((length bs <= f)%nat /\ bytes_ok bs)
    /\ (ob_bits o <= k -> bs <> []).
Proof.
  induction f as [|f IH]; intros o q p code k HR HP Hc Hk Hq; cbn [ob_write];
    pose proof HP as HP0; destruct HP as (Hw & x & Hx & Ha & Hp).
  - destruct (N.leb_spec (ob_bits o) k); [lia|].
    eexists _, [], _. split; [reflexivity|]. rewrite app_nil_r. split; [exact HR|].
    assert (Hlt : x * 2 ^ k + code < 2 ^ (8 - (ob_bits o - k))).
    { replace (8 - (ob_bits o - k)) with ((8 - ob_bits o) + k) by lia. rewrite N.pow_add_r. nia. }
    assert (E : N.lor (ob_acc o) (N.shiftl code (ob_bits o - k)) = (x * 2 ^ k + code) * 2 ^ (ob_bits o - k)).
    { rewrite Ha. replace (ob_bits o) with (k + (ob_bits o - k)) at 1 by lia.
      rewrite N.pow_add_r, N.mul_assoc, <- !N.shiftl_mul_pow2, <- N.shiftl_lor. f_equal.
      rewrite N.shiftl_mul_pow2. apply lor_add_mul. exact Hc. }
    split.
    + unfold pending. cbn [ob_bits ob_acc]. split; [lia|].
      exists (x * 2 ^ k + code). split; [exact Hlt|]. split; [|reflexivity].
      rewrite E. apply u8_small.
      assert (256 = 2 ^ (8 - (ob_bits o - k)) * 2 ^ (ob_bits o - k)).
      { rewrite <- N.pow_add_r. replace (8 - (ob_bits o - k) + (ob_bits o - k)) with 8 by lia. reflexivity. }
      pose proof (pow_pos (ob_bits o - k)). nia.
    + split; [|split; [split; [cbn; lia|constructor]|lia]]. cbn [byte_bits8 flat_map app]. subst p. cbn [ob_bits].
      replace (N.to_nat (8 - (ob_bits o - k))) with (N.to_nat (8 - ob_bits o) + N.to_nat k)%nat by lia.
      rewrite <- (N2Nat.id k) at 3. rewrite bits_app by (rewrite N2Nat.id; exact Hc). reflexivity.
  - destruct (N.leb_spec (ob_bits o) k) as [Hle|Hgt].
    + set (w := ob_bits o) in *. set (r := k - w).
      assert (Hh : code / 2 ^ r < 2 ^ w).
      { apply N.div_lt_upper_bound; [pose proof (pow_pos r); lia|]. rewrite <- N.pow_add_r.
        replace (r + w) with k by (unfold r; lia). exact Hc. }
      assert (Eb : N.lor (ob_acc o) (N.shiftr code r) = x * 2 ^ w + code / 2 ^ r).
      { rewrite Ha, N.shiftr_div_pow2. apply lor_add_mul. exact Hh. }
      assert (Hb256 : x * 2 ^ w + code / 2 ^ r < 256).
      { assert (256 = 2 ^ (8 - w) * 2 ^ w).
        { rewrite <- N.pow_add_r. replace (8 - w + w) with 8 by lia. reflexivity. }
        nia. }
      rewrite Eb, u8_small by exact Hb256.
      destruct (ring_put o q (x * 2 ^ w + code / 2 ^ r) 0 8 HR ltac:(lia)) as (buf & Es & HR').
      rewrite Es. cbn [obind].
      rewrite N.land_ones.
      assert (Hm : code mod 2 ^ r < 2 ^ r) by (apply N.mod_lt; pose proof (pow_pos r); lia).
      destruct (IH (mkOB buf ((ob_wr o + 1) mod 16) (ob_rd o) 8 0) (q ++ [x * 2 ^ w + code / 2 ^ r]) [] (code mod 2 ^ r) r)
        as (o' & bs & p' & E & R' & P' & B & (L & BO) & _); auto.
      * unfold pending. cbn [ob_bits ob_acc]. split; [lia|]. exists 0. repeat split.
      * cbn [ob_bits]. unfold r. lia.
      * rewrite app_length. cbn. lia.
      * exists o', ((x * 2 ^ w + code / 2 ^ r) :: bs), p'. split; [exact E|].
        rewrite <- app_assoc in R'. split; [exact R'|]. split; [exact P'|].
        split; [|split; [split; [cbn [length]; lia|constructor; [exact Hb256|exact BO]]|discriminate]].
        cbn [app] in B. cbn [byte_bits8 flat_map]. rewrite <- app_assoc. fold (byte_bits8 bs). rewrite <- B.
        subst p.
        replace (N.to_nat k) with (N.to_nat w + N.to_nat r)%nat by (unfold r; lia).
        rewrite bits_split, N2Nat.id, app_assoc. f_equal.
        pose proof (bits_app (N.to_nat (8 - w)) (N.to_nat w) x (code / 2 ^ r)) as BA.
        rewrite N2Nat.id in BA. rewrite <- BA by exact Hh.
        replace (N.to_nat (8 - w) + N.to_nat w)%nat with 8%nat by lia. reflexivity.
    + destruct (IH o q p code k HR HP0 Hc) as (o' & bs & p' & E & R' & P' & B & (L & BO) & NE); [lia|lia|].
      exists o', bs, p'. split.
      { destruct f; cbn [ob_write] in E; destruct (N.leb_spec (ob_bits o) k); try lia; exact E. }
      split; [exact R'|]. split; [exact P'|]. split; [exact B|]. split; [split; [lia|exact BO]|]. intros; lia.
Qed.

Lemma ob_pad_ok o q p : ring o q -> pending o p -> (length q < 15)%nat ->
  exists o' b, ob_pad o = Ok o' /\ b < 256 /\ ring o' (q ++ [b]) /\ pending o' []
   /\ exists z, bits 8 b = p ++ z.
Proof.
  intros HR (Hw & x & Hx & Ha & Hp) Hq. unfold ob_pad.
  destruct (ring_put o q (ob_acc o) 0 8 HR Hq) as (buf & E & R). rewrite E. cbn [obind].
  eexists _, (ob_acc o). split; [reflexivity|]. split.
  { assert (256 = 2 ^ (8 - ob_bits o) * 2 ^ ob_bits o).
    { rewrite <- N.pow_add_r. replace (8 - ob_bits o + ob_bits o) with 8 by lia. reflexivity. }
    pose proof (pow_pos (ob_bits o)). rewrite Ha. apply N.mul_lt_mono_pos_r with (p := 2 ^ ob_bits o) in Hx; lia. }
  split; [exact R|]. split.
  - unfold pending. cbn [ob_bits ob_acc]. split; [lia|]. exists 0. repeat split.
  - exists (bits (N.to_nat (ob_bits o)) 0). rewrite Ha, Hp.
    pose proof (bits_app (N.to_nat (8 - ob_bits o)) (N.to_nat (ob_bits o)) x 0) as BA.
    rewrite N2Nat.id, N.add_0_r in BA. rewrite <- BA by apply pow_pos.
    f_equal. lia.
Qed.
