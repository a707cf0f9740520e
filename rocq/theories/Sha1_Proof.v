(** Lemmas about SHA-1. *)
From Verif Require Import Common Md5_Spec Md5_Proof Sha1_Spec Sha1_Model.
Local Open Scope N_scope.

(** ** The low 32 bits *)
Lemma w32_land_ones x : w32 x = N.land x (N.ones 32).
Proof. symmetry. apply N.land_ones. Qed.
Lemma w32_small x : wok x -> w32 x = x.
Proof. apply N.mod_small. Qed.
Lemma w32_w32 x : w32 (w32 x) = w32 x.
Proof. apply N.mod_mod. discriminate. Qed.
Lemma w32_land x y : w32 (N.land x y) = N.land (w32 x) (w32 y).
Proof.
  rewrite !w32_land_ones. apply N.bits_inj. intros k. rewrite !N.land_spec.
  destruct (N.testbit x k), (N.testbit y k), (N.testbit (N.ones 32) k); reflexivity.
Qed.
Lemma w32_lor x y : w32 (N.lor x y) = N.lor (w32 x) (w32 y).
Proof.
  rewrite !w32_land_ones. apply N.bits_inj. intros k. rewrite !N.land_spec, !N.lor_spec, !N.land_spec.
  destruct (N.testbit x k), (N.testbit y k), (N.testbit (N.ones 32) k); reflexivity.
Qed.
Lemma w32_lxor x y : w32 (N.lxor x y) = N.lxor (w32 x) (w32 y).
Proof.
  rewrite !w32_land_ones. apply N.bits_inj. intros k. rewrite !N.land_spec, !N.lxor_spec, !N.land_spec.
  destruct (N.testbit x k), (N.testbit y k), (N.testbit (N.ones 32) k); reflexivity.
Qed.
Lemma w32_add x y : w32 (x + y) = w32 (w32 x + w32 y).
Proof. unfold w32. apply N.add_mod. discriminate. Qed.

Section Proofs.
Variable W : N.
Hypothesis HW : 32 <= W.

Lemma w32_wr x : w32 (wr W x) = w32 x.
Proof.
  unfold w32, wr. replace W with (32 + (W - 32)) by lia. rewrite N.pow_add_r.
  rewrite N.mod_mul_r by (apply N.pow_nonzero; discriminate).
  rewrite (N.mul_comm (2 ^ 32)), N.mod_add, N.mod_mod by discriminate. reflexivity.
Qed.

Lemma w32_rol x s : 0 < s -> s < 32 -> w32 (rol W x s) = rotl (w32 x) s.
Proof.
  intros H0 Hs. rewrite <- rot_ok by (apply w32_ok || assumption).
  unfold rol, Md5_Model.ROTATE_LEFT. rewrite w32_lor, w32_wr. f_equal.
  - rewrite !N.shiftl_mul_pow2. unfold w32, Md5_Model.wrap. change 4294967296 with (2 ^ 32).
    rewrite N.mul_mod_idemp_l by discriminate. reflexivity.
  - change 0xffffffff with (N.ones 32). rewrite <- w32_land_ones. apply w32_small. unfold wok.
    rewrite N.shiftr_div_pow2. eapply N.le_lt_trans; [|apply (w32_ok x)].
    apply N.div_le_upper_bound; [apply N.pow_nonzero; discriminate|].
    pose proof (N.pow_nonzero 2 (32 - s) ltac:(discriminate)). nia.
Qed.

(** ** The rounds *)
Definition macro_of (t : nat) : macro :=
  if Nat.ltb t 16 then R0 else
  match (t / 20)%nat with 0%nat => R1 | 1%nat => R2 | 2%nat => R3 | _ => R4 end.

Lemma mix_ch x y z : wok x -> wok z -> N.lxor (N.land x (N.lxor y z)) z = N.lxor (N.land x y) (N.land (not32 x) z).
Proof.
  intros Hx Hz. rewrite <- compl_not by exact Hx. unfold Md5_Model.compl. change 0xffffffff with (N.ones 32).
  apply N.bits_inj. intros k. rewrite !N.lxor_spec, !N.land_spec, !N.lxor_spec.
  destruct (N.lt_ge_cases k 32) as [L|L].
  - rewrite N.ones_spec_low by exact L. destruct (N.testbit x k), (N.testbit y k), (N.testbit z k); reflexivity.
  - rewrite N.ones_spec_high by exact L. rewrite (testbit_high x 32), (testbit_high z 32) by assumption. reflexivity.
Qed.
Lemma mix_maj x y z : N.lor (N.land (N.lor x y) z) (N.land x y) = N.lxor (N.lxor (N.land x y) (N.land x z)) (N.land y z).
Proof.
  apply N.bits_inj. intros k. rewrite !N.lxor_spec, !N.lor_spec, !N.land_spec, !N.lor_spec.
  destruct (N.testbit x k), (N.testbit y k), (N.testbit z k); reflexivity.
Qed.
Lemma w32_mix m x y z : w32 (mix m x y z) = mix m (w32 x) (w32 y) (w32 z).
Proof. destruct m; cbn [mix]; rewrite ?w32_lxor, ?w32_lor, ?w32_land, ?w32_lxor, ?w32_lor; reflexivity. Qed.

Lemma macro_facts t : (t < 80)%nat ->
  constant (macro_of t) = sha1_K t /\
  (forall x y z, wok x -> wok z -> mix (macro_of t) x y z = sha1_f t x y z).
Proof.
  intros Ht. assert (D : (t / 20 < 4)%nat) by (apply Nat.div_lt_upper_bound; lia).
  unfold macro_of, sha1_K, sha1_f. destruct (Nat.ltb_spec t 16) as [L|L].
  - rewrite Nat.div_small by lia. split; [reflexivity|]. intros x y z Hx Hz. apply mix_ch; assumption.
  - destruct (t / 20)%nat as [|[|[|[|k]]]]; [| | | |lia]; (split; [reflexivity|]); intros x y z Hx Hz; cbn [mix].
    + apply mix_ch; assumption.
    + reflexivity.
    + apply mix_maj.
    + reflexivity.
Qed.

Definition names (t : nat) : var * var * var * var * var :=
  match (t mod 5)%nat with
  | 0%nat => (Va, Vb, Vc, Vd, Ve)
  | 1%nat => (Ve, Va, Vb, Vc, Vd)
  | 2%nat => (Vd, Ve, Va, Vb, Vc)
  | 3%nat => (Vc, Vd, Ve, Va, Vb)
  | _ => (Vb, Vc, Vd, Ve, Va)
  end.
Definition canonical (t : nat) : op :=
  let '(v, w, x, y, z) := names t in Op (macro_of t) v w x y z t.
Lemma program_ok : program = map canonical (seq 0 80).
Proof. reflexivity. Qed.

Lemma names_succ i : names (S i) = let '(a, b, c, d, e) := names i in (e, a, b, c, d).
Proof.
  unfold names. pose proof (Nat.div_mod i 5 ltac:(discriminate)) as M.
  assert (L : (i mod 5 < 5)%nat) by (apply Nat.mod_upper_bound; discriminate).
  destruct (Nat.eq_dec (i mod 5) 4) as [E|E].
  - replace (S i mod 5)%nat with 0%nat; [rewrite E; reflexivity|]. eapply Nat.mod_unique with (q := S (i / 5)); lia.
  - replace (S i mod 5)%nat with (S (i mod 5)).
    + destruct (i mod 5)%nat as [|[|[|[|[|k]]]]]; try reflexivity; lia.
    + eapply Nat.mod_unique with (q := (i / 5)%nat); lia.
Qed.
Lemma names_differ i : let '(a, b, c, d, e) := names i in
  a <> b /\ a <> e /\ b <> c /\ b <> d /\ b <> e /\ c <> e /\ d <> e.
Proof. unfold names. destruct (i mod 5)%nat as [|[|[|[|k]]]]; repeat split; discriminate. Qed.

Lemma get_set_eq v r x : get (set v r x) r = x.
Proof. destruct v as [[[[a b] c] d] e], r; reflexivity. Qed.
Lemma get_set_ne v r q x : q <> r -> get (set v r x) q = get v q.
Proof. intros Hq. destruct v as [[[[a b] c] d] e], r, q; try reflexivity; contradiction. Qed.

Definition view (s : vars) (t : nat) : quint :=
  let '(a, b, c, d, e) := names t in
  (w32 (get s a), w32 (get s b), w32 (get s c), w32 (get s d), w32 (get s e)).

(** the block holds the last sixteen words of the schedule *)
Definition holds (ws : list N) (t : nat) (block : list N) : Prop :=
  length block = 16%nat /\
  forall u, (u < Nat.max t 16)%nat -> (Nat.max t 16 <= u + 16)%nat -> w32 (nth (u mod 16) block 0) = nth u ws 0.
Definition scheduled (ws : list N) : Prop := forall t, (16 <= t < 80)%nat ->
  nth t ws 0 = rotl (N.lxor (N.lxor (N.lxor (nth (t - 3) ws 0) (nth (t - 8) ws 0)) (nth (t - 14) ws 0)) (nth (t - 16) ws 0)) 1.

Lemma land15 k : Nat.land k 15 = (k mod 16)%nat.
Proof. change 15%nat with (Nat.ones 4). rewrite Nat.land_ones. reflexivity. Qed.
Lemma mod16_sub t k : (k <= 16)%nat -> (k <= t)%nat -> ((t + (16 - k)) mod 16 = (t - k) mod 16)%nat.
Proof.
  intros Hk Ht. replace (t + (16 - k))%nat with ((t - k) + 1 * 16)%nat by lia. apply Nat.mod_add. discriminate.
Qed.

Lemma word_ok ws t block : (t < 80)%nat -> scheduled ws -> holds ws t block ->
  let (b, block') := word W (macro_of t) block t in
  w32 b = nth t ws 0 /\ holds ws (S t) block'.
Proof.
  intros Ht Hs [L Hh]. unfold macro_of. destruct (Nat.ltb_spec t 16) as [C|C].
  - cbn [word]. split.
    + rewrite <- (Hh t) by lia. rewrite Nat.mod_small by exact C. reflexivity.
    + split; [exact L|]. intros u H1 H2. apply Hh; lia.
  - assert (E : forall m, m <> R0 -> word W m block t = blk W block t) by (intros [] X; try reflexivity; congruence).
    rewrite E by (destruct (t / 20)%nat as [|[|[|k]]]; discriminate). unfold blk. cbv zeta.
    rewrite !land15.
    replace ((t + 13) mod 16)%nat with ((t - 3) mod 16)%nat by (symmetry; apply (mod16_sub t 3); lia).
    replace ((t + 8) mod 16)%nat with ((t - 8) mod 16)%nat by (symmetry; apply (mod16_sub t 8); lia).
    replace ((t + 2) mod 16)%nat with ((t - 14) mod 16)%nat by (symmetry; apply (mod16_sub t 14); lia).
    set (x := rol W _ 1).
    assert (Ex : w32 x = nth t ws 0).
    { unfold x. rewrite w32_rol by lia. rewrite (Hs t) by lia. rewrite !w32_lxor.
      rewrite !Hh by lia. 
      replace (t mod 16)%nat with ((t - 16) mod 16)%nat by (rewrite <- (mod16_sub t 16) by lia; f_equal; lia).
      rewrite Hh by lia. reflexivity. }
    split; [exact Ex|]. split; [rewrite upd_length; exact L|].
    intros u H1 H2. destruct (Nat.eq_dec u t) as [->|Hne].
    + rewrite nth_upd_eq; [exact Ex|]. rewrite L. apply Nat.mod_upper_bound. discriminate.
    + rewrite nth_upd_ne; [apply Hh; lia|].
      intros X. pose proof (Nat.div_mod t 16 ltac:(discriminate)). pose proof (Nat.div_mod u 16 ltac:(discriminate)).
      lia.
Qed.

Lemma run_op_ok ws t s block : (t < 80)%nat -> scheduled ws -> holds ws t block ->
  let (s', block') := run_op W (s, block) (canonical t) in
  view s' (S t) = sha1_round ws (view s t) t /\ holds ws (S t) block'.
Proof.
  intros Ht Hs Hh. unfold run_op, canonical. unfold view at 1. rewrite names_succ. unfold view.
  pose proof (names_differ t) as D. destruct (names t) as [[[[v w] x] y] z].
  destruct D as (D1 & D2 & D3 & D4 & D5 & D6 & D7).
  cbv beta iota zeta delta [o_m o_v o_w o_x o_y o_z o_i].
  pose proof (word_ok ws t block Ht Hs Hh) as Hw. destruct (word W (macro_of t) block t) as [b block'].
  destruct Hw as [Eb Hb]. split; [|exact Hb].
  rewrite (get_set_ne _ w z) by congruence. rewrite get_set_eq.
  rewrite (get_set_ne _ w v), (get_set_ne _ z v) by congruence.
  rewrite get_set_eq. rewrite (get_set_ne _ z w) by congruence.
  rewrite (get_set_ne _ w x), (get_set_ne _ z x), (get_set_ne _ w y), (get_set_ne _ z y) by congruence.
  unfold sha1_round. destruct (macro_facts t Ht) as [EK Ef]. rewrite EK.
  rewrite w32_rol by lia. rewrite w32_wr.
  f_equal. f_equal. f_equal. f_equal.
  rewrite <- Ef by apply w32_ok. rewrite <- w32_mix. rewrite <- Eb.
  rewrite <- w32_rol by lia.
  set (A := get s z). set (B := mix _ _ _ _). set (R := rol W _ 5). set (K := sha1_K t).
  assert (E : forall p q, w32 (w32 p + q) = w32 (p + q)) by (intros p q; unfold w32; apply N.add_mod_idemp_l; discriminate).
  symmetry.
  replace (w32 R + w32 B + w32 A + K + w32 b) with (w32 R + (w32 B + w32 A + K + w32 b)) by ring. rewrite E.
  replace (R + (w32 B + w32 A + K + w32 b)) with (w32 B + (R + w32 A + K + w32 b)) by ring. rewrite E.
  replace (B + (R + w32 A + K + w32 b)) with (w32 A + (R + B + K + w32 b)) by ring. rewrite E.
  replace (A + (R + B + K + w32 b)) with (w32 b + (A + R + B + K)) by ring. rewrite E.
  f_equal. ring.
Qed.

Lemma run_ops_ok ws n : forall t s block, (t + n <= 80)%nat -> scheduled ws -> holds ws t block ->
  let (s', block') := fold_left (run_op W) (map canonical (seq t n)) (s, block) in
  view s' (t + n) = fold_left (sha1_round ws) (seq t n) (view s t) /\ length block' = 16%nat.
Proof.
  induction n as [|n IH]; intros t s block Ht Hs Hh; cbn [seq map fold_left].
  - rewrite Nat.add_0_r. split; [reflexivity|apply Hh].
  - pose proof (run_op_ok ws t s block ltac:(lia) Hs Hh) as R.
    destruct (run_op W (s, block) (canonical t)) as [s1 b1]. destruct R as [E1 H1].
    specialize (IH (S t) s1 b1 ltac:(lia) Hs H1).
    destruct (fold_left (run_op W) (map canonical (seq (S t) n)) (s1, b1)) as [s2 b2].
    rewrite <- Nat.add_succ_comm. rewrite <- E1. exact IH.
Qed.

(** the schedule *)
Lemma extend_length n : forall w, length (extend n w) = (length w + n)%nat.
Proof. induction n as [|n IH]; intros w; cbn [extend]; [lia|]. rewrite IH, app_length. cbn [length]. lia. Qed.
Lemma extend_prefix n : forall w u, (u < length w)%nat -> nth u (extend n w) 0 = nth u w 0.
Proof.
  induction n as [|n IH]; intros w u Hu; [reflexivity|]. cbn [extend]. rewrite IH by (rewrite app_length; cbn; lia).
  apply app_nth1, Hu.
Qed.
Lemma extend_next n : forall w t, (16 <= length w)%nat -> (length w <= t < length w + n)%nat ->
  let e := extend n w in
  nth t e 0 = rotl (N.lxor (N.lxor (N.lxor (nth (t - 3) e 0) (nth (t - 8) e 0)) (nth (t - 14) e 0)) (nth (t - 16) e 0)) 1.
Proof.
  induction n as [|n IH]; intros w t Hw Ht; [lia|]. cbn [extend].
  set (x := rotl _ 1). destruct (Nat.eq_dec t (length w)) as [->|Hne].
  - cbv zeta. rewrite !extend_prefix by (rewrite app_length; cbn [length]; lia).
    rewrite app_nth2, Nat.sub_diag by lia. cbn [nth]. rewrite !app_nth1 by lia. reflexivity.
  - apply IH; rewrite app_length; cbn [length]; lia.
Qed.
Lemma be_words_length n : forall l, length (be_words n l) = n.
Proof. induction n as [|n IH]; intros l; cbn [be_words length]; [|rewrite IH]; reflexivity. Qed.
Lemma schedule_ok d : scheduled (schedule d).
Proof.
  intros t Ht. unfold schedule.
  apply (extend_next 64 (be_words 16 d) t); rewrite be_words_length; lia.
Qed.

Definition low (s : vars) : quint :=
  let '(a, b, c, d, e) := s in (w32 a, w32 b, w32 c, w32 d, w32 e).

Lemma view0 s : view s 0 = low s.
Proof. destruct s as [[[[a b] c] d] e]. reflexivity. Qed.
Lemma view80 s : view s 80 = low s.
Proof. destruct s as [[[[a b] c] d] e]. reflexivity. Qed.

Lemma transform_ok s block d : map w32 block = be_words 16 d ->
  low (digest (fst (transform W s block))) = sha1_block (low (digest s)) d /\
  buffer (fst (transform W s block)) = buffer s /\
  transforms (fst (transform W s block)) = (transforms s + 1) mod 2 ^ 64 /\
  length (snd (transform W s block)) = 16%nat.
Proof.
  intros Hb. unfold transform.
  assert (Lb : length block = 16%nat) by (rewrite <- (map_length w32), Hb; apply be_words_length).
  assert (Hh : holds (schedule d) 0 block).
  { split; [exact Lb|]. intros u H1 H2. cbn in H1. rewrite Nat.mod_small by lia.
    unfold schedule. rewrite extend_prefix by (rewrite be_words_length; lia). rewrite <- Hb.
    change 0 with (w32 0) at 2. rewrite map_nth. reflexivity. }
  pose proof (run_ops_ok (schedule d) 80 0 (digest s) block ltac:(lia) (schedule_ok d) Hh) as R.
  rewrite Nat.add_0_l, view0 in R. rewrite program_ok. unfold sha1_block.
  revert R. generalize (seq 0 80). intros l.
  destruct (digest s) as [[[[a b] c] e] f].
  match goal with |- context [fold_left (run_op W) ?p ?q] =>
    destruct (fold_left (run_op W) p q) as [[[[[a' b'] c'] e'] f'] block']
  end.
  intros [E L]. rewrite view80 in E. cbn [fst snd digest buffer transforms].
  split; [|auto]. unfold low in E. unfold low. rewrite <- E. rewrite !w32_wr.
  rewrite (w32_add a), (w32_add b), (w32_add c), (w32_add e), (w32_add f). reflexivity.
Qed.

(** ** Words and bytes *)
Lemma be_value_snoc l b : be_value (l ++ [b]) = 256 * be_value l + b.
Proof. unfold be_value. rewrite fold_left_app. reflexivity. Qed.
Lemma be_value_bytes n : forall v, be_value (be_bytes n v) = v mod 256 ^ N.of_nat n.
Proof.
  induction n as [|n IH]; intros v; cbn [be_bytes].
  - change (256 ^ N.of_nat 0) with 1. rewrite N.mod_1_r. reflexivity.
  - rewrite be_value_snoc, IH. rewrite Nat2N.inj_succ, N.pow_succ_r'.
    rewrite N.mod_mul_r by (try apply N.pow_nonzero; discriminate). lia.
Qed.
Lemma be_bytes_length n : forall v, length (be_bytes n v) = n.
Proof. induction n as [|n IH]; intros v; cbn [be_bytes]; [reflexivity|]. rewrite app_length, IH. cbn. lia. Qed.
Lemma be_bytes_split v : be_bytes 8 v = be_bytes 4 (v / 2 ^ 32) ++ be_bytes 4 v.
Proof. cbn [be_bytes app]. rewrite !N.div_div by discriminate. reflexivity. Qed.
Lemma be_words_app n : forall a b m, length a = (4 * n)%nat -> be_words (n + m) (a ++ b) = be_words n a ++ be_words m b.
Proof.
  induction n as [|n IH]; intros a b m Ha; [destruct a; [reflexivity|discriminate]|].
  cbn [Nat.add be_words app]. rewrite firstn_app, skipn_app.
  replace (4 - length a)%nat with 0%nat by lia. change (firstn 0 b) with (@nil N). change (skipn 0 b) with b.
  rewrite app_nil_r. f_equal.
  apply IH. rewrite skipn_length. lia.
Qed.
Lemma be_words_two v : be_words 2 (be_bytes 8 v) = [w32 (v / 2 ^ 32); w32 v].
Proof.
  rewrite be_bytes_split. change 2%nat with (1 + 1)%nat.
  rewrite be_words_app by (rewrite be_bytes_length; reflexivity). cbn [be_words app].
  rewrite !firstn_all2 by (rewrite be_bytes_length; lia). rewrite !be_value_bytes. reflexivity.
Qed.
Lemma skipn_twice {A} n m (l : list A) : skipn n (skipn m l) = skipn (m + n) l.
Proof.
  revert l; induction m as [|m IH]; intros l; [reflexivity|]. destruct l as [|x l]; [destruct n; reflexivity|apply IH].
Qed.
Lemma be_words_nth n : forall l k d, (k < n)%nat -> nth k (be_words n l) d = be_value (firstn 4 (skipn (4 * k) l)).
Proof.
  induction n as [|n IH]; intros l k d Hk; [lia|]. cbn [be_words]. destruct k as [|k]; [reflexivity|].
  cbn [nth]. rewrite IH by lia. rewrite skipn_twice. replace (4 * S k)%nat with (4 + 4 * k)%nat by lia. reflexivity.
Qed.

Lemma int_to_word_ok n : n < 2 ^ 32 -> w32 (int_to_word W n) = n.
Proof.
  intros Hn. unfold int_to_word. destruct (N.ltb_spec n (2 ^ 31)); [apply w32_small; exact Hn|].
  rewrite w32_wr. replace W with (32 + (W - 32)) by lia. rewrite N.pow_add_r.
  pose proof (N.pow_nonzero 2 (W - 32) ltac:(discriminate)) as P. set (p := 2 ^ (W - 32)) in *.
  replace (2 ^ 32 * p + n - 2 ^ 32) with (n + (p - 1) * 2 ^ 32) by nia.
  unfold w32. rewrite N.mod_add by discriminate. apply N.mod_small, Hn.
Qed.
Lemma four_bytes a b c d : byte_ok a -> byte_ok b -> byte_ok c -> byte_ok d ->
  N.lor (N.lor (N.lor d (N.shiftl c 8)) (N.shiftl b 16)) (N.shiftl a 24) = be_value [a; b; c; d] /\
  be_value [a; b; c; d] < 2 ^ 32.
Proof.
  unfold byte_ok. intros Ha Hb Hc Hd.
  rewrite (N.lor_comm d), lor_add by exact Hd.
  rewrite (N.lor_comm _ (N.shiftl b 16)), lor_add by (change (2 ^ 8) with 256; change (2 ^ 16) with 65536; lia).
  rewrite (N.lor_comm _ (N.shiftl a 24)), lor_add
    by (change (2 ^ 8) with 256; change (2 ^ 16) with 65536; change (2 ^ 24) with 16777216; lia).
  unfold be_value. cbn [fold_left]. change (2 ^ 8) with 256. change (2 ^ 16) with 65536. change (2 ^ 24) with 16777216.
  change (2 ^ 32) with 4294967296. lia.
Qed.
Lemma buffer_to_block_ok b : bytes_ok b -> length b = 64%nat ->
  exists block, buffer_to_block W b = Ok block /\ map w32 block = be_words 16 b.
Proof.
  intros Hb L. unfold buffer_to_block. rewrite L. cbn [Nat.ltb Nat.leb].
  eexists. split; [reflexivity|]. rewrite map_map.
  apply nth_ext with (d := 0) (d' := 0); [rewrite map_length, seq_length, be_words_length; reflexivity|].
  intros k Hk. rewrite map_length, seq_length in Hk.
  rewrite be_words_nth by exact Hk.
  rewrite nth_indep with (d' := w32 (int_to_word W (N.lor (N.lor (N.lor (nth (4 * 0 + 3) b 0) (N.shiftl (nth (4 * 0 + 2) b 0) 8))
     (N.shiftl (nth (4 * 0 + 1) b 0) 16)) (N.shiftl (nth (4 * 0) b 0) 24)))) by (rewrite map_length, seq_length; exact Hk).
  rewrite (map_nth (fun i => w32 (int_to_word W (N.lor (N.lor (N.lor (nth (4 * i + 3) b 0) (N.shiftl (nth (4 * i + 2) b 0) 8))
     (N.shiftl (nth (4 * i + 1) b 0) 16)) (N.shiftl (nth (4 * i) b 0) 24))))).
  rewrite seq_nth by exact Hk. rewrite Nat.add_0_l.
  assert (B : forall j, byte_ok (nth j b 0)).
  { intros j. destruct (Nat.lt_ge_cases j (length b)) as [Hj|Hj].
    - eapply Forall_forall in Hb; [exact Hb|]. apply nth_In, Hj.
    - rewrite nth_overflow by exact Hj. reflexivity. }
  destruct (four_bytes _ _ _ _ (B (4 * k)%nat) (B (4 * k + 1)%nat) (B (4 * k + 2)%nat) (B (4 * k + 3)%nat)) as [F1 F2].
  rewrite F1, int_to_word_ok by exact F2. f_equal.
  assert (S4 : forall (l : list N), (4 <= length l)%nat -> firstn 4 l = [nth 0 l 0; nth 1 l 0; nth 2 l 0; nth 3 l 0]).
  { intros l Hl. destruct l as [|x [|y [|z [|w l]]]]; cbn in Hl; try lia. reflexivity. }
  rewrite S4 by (rewrite skipn_length; lia). rewrite !nth_skipn, Nat.add_0_r. reflexivity.
Qed.

(** ** Updates *)
Definition consumed (s : state) (bl : list (list N)) : Prop :=
  Forall (fun b => length b = 64%nat) bl /\ transforms s = N.of_nat (length bl) mod 2 ^ 64 /\
  low (digest s) = fold_left sha1_block bl sha1_start.
Definition inv (s : state) (m : list N) : Prop :=
  bytes_ok m /\ (length (buffer s) < 64)%nat /\ exists bl, m = concat bl ++ buffer s /\ consumed s bl.

Lemma consumed_next s bl block b : consumed s bl -> length b = 64%nat -> map w32 block = be_words 16 b ->
  consumed (fst (transform W s block)) (bl ++ [b]).
Proof.
  intros (F & T & L) Hb Hw. destruct (transform_ok s block b Hw) as (E1 & E2 & E3 & _).
  split; [apply Forall_app; auto|]. split.
  - rewrite E3, T, N.add_mod_idemp_l by discriminate. rewrite app_length. cbn [length]. f_equal. lia.
  - rewrite E1, fold_left_app, <- L. reflexivity.
Qed.

Lemma update_loop_ok fuel : forall s is bl m,
  (length (data is) + (if good is then 2 else 1) <= fuel)%nat ->
  bytes_ok (m ++ data is) -> m = concat bl ++ buffer s -> consumed s bl ->
  (if good is then length (buffer s) = 64%nat else (length (buffer s) < 64)%nat /\ data is = []) ->
  exists s', update_loop W fuel s is = Ok s' /\ inv s' (m ++ data is).
Proof.
  induction fuel as [|fuel IH]; intros s is bl m Hf Hb Em Hc Hg; [destruct (good is); lia|].
  cbn [update_loop]. destruct (good is) eqn:G.
  - assert (Bb : bytes_ok (buffer s)).
    { apply Forall_app in Hb as [Hb _]. rewrite Em in Hb. apply Forall_app in Hb. apply Hb. }
    destruct (buffer_to_block_ok (buffer s) Bb Hg) as (block & E & Hw). rewrite E. cbn [obind].
    pose proof (consumed_next s bl block (buffer s) Hc Hg Hw) as C2.
    destruct (transform W s block) as [s1 block1]. cbn [fst] in C2.
    unfold read. rewrite G. destruct (Nat.leb_spec 64 (length (data is))) as [L|L].
    + destruct (IH {| digest := digest s1; buffer := firstn 64 (data is); transforms := transforms s1 |}
                   {| data := skipn 64 (data is); good := true |} (bl ++ [buffer s]) (m ++ firstn 64 (data is)))
        as (s' & E' & I').
      * cbn [data good]. rewrite skipn_length. lia.
      * cbn [data]. rewrite <- app_assoc, firstn_skipn. exact Hb.
      * cbn [buffer]. rewrite concat_app. cbn [concat]. rewrite app_nil_r, Em. reflexivity.
      * exact C2.
      * cbn [good buffer]. rewrite firstn_length. lia.
      * exists s'. split; [exact E'|]. cbn [data] in I'. rewrite <- app_assoc, firstn_skipn in I'. exact I'.
    + destruct (IH {| digest := digest s1; buffer := data is; transforms := transforms s1 |}
                   {| data := []; good := false |} (bl ++ [buffer s]) (m ++ data is)) as (s' & E' & I').
      * cbn [data good length]. lia.
      * cbn [data]. rewrite app_nil_r. exact Hb.
      * cbn [buffer]. rewrite concat_app. cbn [concat]. rewrite app_nil_r, Em. reflexivity.
      * exact C2.
      * cbn [good buffer data]. auto.
      * exists s'. split; [exact E'|]. cbn [data] in I'. rewrite app_nil_r in I'. exact I'.
  - destruct Hg as [Hl Hd]. exists s. split; [reflexivity|]. rewrite Hd, app_nil_r in *.
    split; [exact Hb|]. split; [exact Hl|]. exists bl. auto.
Qed.

Lemma update_ok s m x g : inv s m -> bytes_ok x ->
  exists s', update W s {| data := x; good := g |} = Ok s' /\ inv s' (m ++ (if g then x else [])).
Proof.
  intros (Bm & L & bl & Em & Hc) Bx. unfold update, read. cbn [data good]. destruct g.
  - destruct (Nat.leb_spec (64 - length (buffer s)) (length x)) as [K|K].
    + set (k := (64 - length (buffer s))%nat) in *.
      destruct (update_loop_ok (length (skipn k x) + 2)
        {| digest := digest s; buffer := buffer s ++ firstn k x; transforms := transforms s |}
        {| data := skipn k x; good := true |} bl (m ++ firstn k x)) as (s' & E' & I').
      * cbn [data good]. lia.
      * cbn [data]. rewrite <- app_assoc, firstn_skipn. apply Forall_app; auto.
      * cbn [buffer]. rewrite Em, <- app_assoc. reflexivity.
      * exact Hc.
      * cbn [good buffer]. rewrite app_length, firstn_length. unfold k. lia.
      * exists s'. split; [exact E'|]. cbn [data] in I'. rewrite <- app_assoc, firstn_skipn in I'. exact I'.
    + cbn [data length Nat.add].
      destruct (update_loop_ok 2
        {| digest := digest s; buffer := buffer s ++ x; transforms := transforms s |}
        {| data := []; good := false |} bl (m ++ x)) as (s' & E' & I').
      * cbn [data good length]. lia.
      * cbn [data]. rewrite app_nil_r. apply Forall_app; auto.
      * cbn [buffer]. rewrite Em, <- app_assoc. reflexivity.
      * exact Hc.
      * cbn [good buffer data]. rewrite app_length. split; [lia|reflexivity].
      * exists s'. split; [exact E'|]. cbn [data] in I'. rewrite app_nil_r in I'. exact I'.
  - cbn [data]. rewrite app_nil_r. 
    assert (E2 : (length x + 2)%nat = S (length x + 1)) by lia. rewrite E2. cbn [update_loop good].
    eexists. split; [reflexivity|]. rewrite app_nil_r.
    split; [exact Bm|]. split; [exact L|]. exists bl. split; [exact Em|exact Hc].
Qed.

(** ** The end of a message *)
Lemma be_bytes_w32 x : be_bytes 4 (w32 x) = be_bytes 4 x.
Proof.
  unfold w32. cbn [be_bytes app]. rewrite !N.div_div by discriminate.
  change (256 * (256 * 256)) with (2 ^ 24). change (256 * 256) with (2 ^ 16). change 256 with (2 ^ 8).
  assert (M : forall k, k <= 24 -> (x mod 2 ^ 32) / 2 ^ k mod 2 ^ 8 = x / 2 ^ k mod 2 ^ 8).
  { intros k Hk. replace 32 with (k + (8 + (24 - k))) by lia.
    rewrite (N.pow_add_r 2 k), (N.mod_mul_r x) by (apply N.pow_nonzero; discriminate).
    rewrite (N.mul_comm (2 ^ k)), N.div_add by (apply N.pow_nonzero; discriminate).
    rewrite (N.div_small (x mod 2 ^ k)) by (apply N.mod_lt, N.pow_nonzero; discriminate). rewrite N.add_0_l.
    rewrite N.pow_add_r, N.mod_mul_r by (apply N.pow_nonzero; discriminate).
    rewrite N.mul_comm, N.mod_add by (apply N.pow_nonzero; discriminate). apply N.mod_mod, N.pow_nonzero; discriminate. }
  pose proof (M 0 ltac:(lia)) as M0. change (2 ^ 0) with 1 in M0. rewrite !N.div_1_r in M0.
  rewrite M0, !M by lia. reflexivity.
Qed.
Lemma out_bytes_ok w : out_bytes w = be_bytes 4 (w32 w).
Proof.
  rewrite be_bytes_w32. unfold out_bytes. cbn [seq map Nat.sub be_bytes app]. change 0xFF with (N.ones 8).
  rewrite !N.land_ones, !N.shiftr_div_pow2, !N.div_div by discriminate.
  change (2 ^ (8 * N.of_nat 0)) with 1. rewrite N.div_1_r. reflexivity.
Qed.

Lemma set_length l p x y : map w32 l = p -> length p = 16%nat ->
  map w32 (upd (upd l 15 y) 14 x) = firstn 14 p ++ [w32 x; w32 y].
Proof.
  intros <- L. rewrite map_length in L. do 16 (destruct l as [|? l]; [discriminate|]). destruct l; [reflexivity|discriminate].
Qed.
Lemma transform_fst s block s1 b1 : transform W s block = (s1, b1) -> s1 = fst (transform W s block) /\ b1 = snd (transform W s block).
Proof. intros ->. auto. Qed.

Lemma bytes_pad l k : bytes_ok l -> bytes_ok ((l ++ [128]) ++ repeat 0 k).
Proof.
  intros Hl. apply Forall_app. split; [apply Forall_app; split; [exact Hl|constructor; [reflexivity|constructor]]|].
  apply Forall_forall. intros x Hx. apply repeat_spec in Hx. subst. reflexivity.
Qed.

Lemma final_blocks s bl last m : consumed s bl -> sha1_pad m = concat (bl ++ last) ->
  Forall (fun b => length b = 64%nat) last ->
  SHA1 m = sha1_bytes (fold_left sha1_block last (low (digest s))).
Proof.
  intros (F & _ & L) E Fl. unfold SHA1. rewrite E, in_blocks_concat by (apply Forall_app; auto).
  rewrite fold_left_app, <- L. reflexivity.
Qed.

Lemma final_ok s m : inv s m -> final W s = Ok (SHA1 m, reset).
Proof.
  intros (Bm & L & bl & Em & Hc). pose proof Hc as (F & T & Lo). unfold final. cbv zeta.
  set (r := length (buffer s)) in *.
  assert (Elen : length m = (64 * length bl + r)%nat) by (rewrite Em, app_length, concat_length by exact F; reflexivity).
  set (v := (8 * N.of_nat (length m)) mod 2 ^ 64).
  assert (Ev : ((transforms s * 64 + N.of_nat r) * 8) mod 2 ^ 64 = v).
  { unfold v. rewrite T. rewrite Elen.
    replace ((N.of_nat (length bl) mod 2 ^ 64 * 64 + N.of_nat r) * 8) with (N.of_nat (length bl) mod 2 ^ 64 * 512 + N.of_nat r * 8) by ring.
    rewrite <- N.add_mod_idemp_l, N.mul_mod_idemp_l, N.add_mod_idemp_l by discriminate. f_equal. lia. }
  rewrite Ev. clear Ev.
  assert (Ez : zeros (N.of_nat (length m)) = N.to_nat ((119 - N.of_nat r) mod 64)).
  { unfold zeros. do 3 f_equal. symmetry. apply N.mod_unique with (N.of_nat (length bl)); lia. }
  assert (Bb : bytes_ok (buffer s)) by (rewrite Em in Bm; apply Forall_app in Bm; apply Bm).
  assert (Lb : length (buffer s ++ [128]) = S r) by (rewrite app_length; cbn [length]; fold r; lia).
  rewrite Lb.
  destruct (buffer_to_block_ok ((buffer s ++ [128]) ++ repeat 0 (64 - S r))) as (block & E & Hw).
  { apply bytes_pad, Bb. } { rewrite app_length, Lb, repeat_length. lia. }
  rewrite E. cbn [obind]. clear E.
  assert (V : w32 (wr W (N.shiftr v 32)) = w32 (v / 2 ^ 32) /\ w32 (wr W v) = w32 v).
  { rewrite !w32_wr, N.shiftr_div_pow2. auto. } destruct V as [V1 V2].
  assert (END : forall s1 block1 h last bl1, consumed s1 bl1 ->
     map w32 block1 = be_words 16 (h ++ last) -> length h = 56%nat -> length last = 8%nat ->
     sha1_pad m = concat (bl1 ++ [h ++ be_bytes 8 v]) ->
     (let '(s2, _) := transform W s1 (upd (upd block1 15 (wr W v)) 14 (wr W (N.shiftr v 32))) in
      let '(a, b, c, d, e) := digest s2 in
      Ok (out_bytes a ++ out_bytes b ++ out_bytes c ++ out_bytes d ++ out_bytes e, reset)) = Ok (SHA1 m, reset)).
  { intros s1 block1 h last bl1 C1 Hb Lh Ll Ep.
    assert (Hw2 : map w32 (upd (upd block1 15 (wr W v)) 14 (wr W (N.shiftr v 32))) = be_words 16 (h ++ be_bytes 8 v)).
    { rewrite (set_length block1 _ _ _ Hb) by apply be_words_length. rewrite V1, V2.
      change 16%nat with (14 + 2)%nat. rewrite !be_words_app by (rewrite Lh; reflexivity).
      rewrite be_words_two. f_equal. }
    destruct (transform_ok s1 _ _ Hw2) as (D & _).
    destruct (transform W s1 (upd (upd block1 15 (wr W v)) 14 (wr W (N.shiftr v 32)))) as [s2 b2]. cbn [fst] in D.
    rewrite (final_blocks s1 bl1 [h ++ be_bytes 8 v] m C1 Ep) by (constructor; [rewrite app_length, Lh, be_bytes_length; reflexivity|constructor]).
    cbn [fold_left]. rewrite <- D. destruct (digest s2) as [[[[a b] c] d] e]. unfold low, sha1_bytes.
    rewrite !out_bytes_ok. reflexivity. }
  destruct (Nat.ltb_spec (64 - 8) (S r)) as [K|K].
  - (* two more blocks *)
    destruct (transform_ok s block _ Hw) as (_ & _ & _ & Lb1).
    assert (L64 : length ((buffer s ++ [128]) ++ repeat 0 (64 - S r)) = 64%nat) by (rewrite app_length, Lb, repeat_length; lia).
    pose proof (consumed_next s bl block _ Hc L64 Hw) as C1.
    destruct (transform W s block) as [s1 block1]. cbn [fst snd] in *.
    apply END with (h := repeat 0 56) (last := flat_map (fun w => be_bytes 4 (w32 w)) (skipn 14 block1)) (bl1 := bl ++ [(buffer s ++ [128]) ++ repeat 0 (64 - S r)]).
    + exact C1.
    + change 16%nat with (14 + 2)%nat. rewrite be_words_app by reflexivity. rewrite map_app. f_equal.
      assert (LS : length (skipn 14 block1) = 2%nat) by (rewrite skipn_length; lia).
      destruct (skipn 14 block1) as [|x [|y [|z t]]]; try discriminate. cbn [map flat_map]. rewrite app_nil_r.
      change 2%nat with (1 + 1)%nat. rewrite be_words_app by (rewrite be_bytes_length; reflexivity). cbn [be_words app].
      rewrite !firstn_all2 by (rewrite be_bytes_length; lia). rewrite !be_value_bytes.
      change ([w32 x; w32 y] = [w32 (w32 x); w32 (w32 y)]).
      rewrite !w32_w32. reflexivity.
    + reflexivity.
    + assert (LS : length (skipn 14 block1) = 2%nat) by (rewrite skipn_length; lia).
      destruct (skipn 14 block1) as [|x [|y [|z t]]]; try discriminate. cbn [flat_map]. rewrite !app_length, !be_bytes_length. reflexivity.
    + unfold sha1_pad. cbv zeta. fold v. rewrite Ez. rewrite N.mod_small by lia.
      rewrite !concat_app. cbn [concat]. rewrite !app_nil_r, Em at 1. rewrite <- !app_assoc. f_equal. f_equal.
      cbn [app]. f_equal. rewrite app_assoc. f_equal. rewrite <- repeat_app. f_equal. lia.
  - (* one more block *)
    apply END with (h := (buffer s ++ [128]) ++ repeat 0 (55 - r)) (last := repeat 0 8) (bl1 := bl).
    + exact Hc.
    + rewrite Hw. replace (64 - S r)%nat with ((55 - r) + 8)%nat by lia. rewrite repeat_app, app_assoc. reflexivity.
    + rewrite app_length, Lb, repeat_length. lia.
    + reflexivity.
    + unfold sha1_pad. cbv zeta. fold v. rewrite Ez.
      replace ((119 - N.of_nat r) mod 64) with (55 - N.of_nat r) by (apply N.mod_unique with 1; lia).
      rewrite concat_app. cbn [concat]. rewrite app_nil_r, Em at 1. rewrite <- !app_assoc. f_equal. f_equal.
      cbn [app]. do 3 f_equal. lia.
Qed.

Lemma reset_inv : inv reset [].
Proof.
  split; [constructor|]. split; [cbn; lia|]. exists []. split; [reflexivity|]. split; [constructor|]. split; reflexivity.
Qed.

Definition piece_ok (p : piece) : Prop := match p with PString s | PStream s _ => bytes_ok s end.
Lemma updates_ok l : forall s m, inv s m -> Forall piece_ok l ->
  exists s', updates W s l = Ok s' /\ inv s' (m ++ flat_map piece_bytes l).
Proof.
  induction l as [|p l IH]; intros s m Hi Hp.
  - exists s. cbn. rewrite app_nil_r. auto.
  - apply Forall_cons_iff in Hp as [Hx Hp]. destruct p as [x|x g]; cbn [updates piece_ok flat_map] in *.
    + destruct (update_ok s m x true Hi Hx) as (s1 & E1 & I1). unfold update_string. rewrite E1. cbn [obind].
      destruct (IH s1 _ I1 Hp) as (s2 & E2 & I2). exists s2. split; [exact E2|]. rewrite app_assoc. exact I2.
    + destruct (update_ok s m x g Hi Hx) as (s1 & E1 & I1). rewrite E1. cbn [obind].
      destruct (IH s1 _ I1 Hp) as (s2 & E2 & I2). exists s2. split; [exact E2|]. rewrite app_assoc. destruct g; exact I2.
Qed.
Lemma messages_ok l : Forall (Forall piece_ok) l ->
  messages W reset l = Ok (map (fun m => SHA1 (flat_map piece_bytes m)) l).
Proof.
  induction 1 as [|m l Hm _ IH]; [reflexivity|]. cbn [messages map].
  destruct (updates_ok m reset [] reset_inv Hm) as (s & E & I). rewrite E. cbn [obind].
  rewrite (final_ok s _ I). cbn [obind]. rewrite IH. reflexivity.
Qed.
End Proofs.
