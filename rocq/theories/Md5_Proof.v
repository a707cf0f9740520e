(** Lemmas about MD5. *)
From Verif Require Import Common Md5_Spec Md5_Model.
Local Open Scope N_scope.

(** ** Words *)
Definition wok (x : N) : Prop := x < 2 ^ 32.
Lemma wrap_w32 x : wrap x = w32 x.
Proof. reflexivity. Qed.
Lemma w32_ok x : wok (w32 x).
Proof. unfold wok, w32. apply N.mod_lt. discriminate. Qed.

Lemma testbit_high x n k : x < 2 ^ n -> n <= k -> N.testbit x k = false.
Proof.
  intros Hx Hk. destruct (N.eq_dec x 0) as [->|Hz]; [apply N.bits_0|].
  apply N.bits_above_log2. apply N.log2_lt_pow2 in Hx; lia.
Qed.

Lemma compl_not x : wok x -> compl x = not32 x.
Proof.
  intros Hx. unfold compl, not32. change 0xffffffff with (N.ones 32).
  assert (E : N.lxor x (N.ones 32) + x = N.ones 32).
  { rewrite N.add_nocarry_lxor.
    - rewrite N.lxor_comm, <- N.lxor_assoc, N.lxor_nilpotent. apply N.lxor_0_l.
    - apply N.bits_inj_0. intros k. rewrite N.land_spec, N.lxor_spec.
      destruct (N.lt_ge_cases k 32).
      + rewrite N.ones_spec_low by assumption. destruct (N.testbit x k); reflexivity.
      + rewrite N.ones_spec_high by assumption. rewrite (testbit_high x 32) by assumption. reflexivity. }
  change (N.ones 32) with (2^32-1) in E at 2. lia.
Qed.

Lemma rot_ok x s : wok x -> 0 < s -> s < 32 -> ROTATE_LEFT x s = rotl x s.
Proof.
  intros Hx H0 Hs. unfold ROTATE_LEFT, rotl. rewrite N.shiftr_div_pow2, N.shiftl_mul_pow2.
  unfold wrap. change 4294967296 with (2 ^ 32).
  assert (E : (x * 2 ^ s) mod 2 ^ 32 = (x mod 2 ^ (32 - s)) * 2 ^ s).
  { replace (2 ^ 32) with (2 ^ (32 - s) * 2 ^ s) by (rewrite <- N.pow_add_r; f_equal; lia).
    apply N.mul_mod_distr_r; apply N.pow_nonzero; discriminate. }
  rewrite E. apply lor_add_mul.
  apply N.div_lt_upper_bound; [apply N.pow_nonzero; discriminate|].
  rewrite <- N.pow_add_r. replace (32 - s + s) with 32 by lia. exact Hx.
Qed.

(** ** One block *)
Definition shift_at (i : nat) : N := nth (i mod 4) (nth (i / 16) md5_shifts []) 0.
Lemma shift_at_range i : (i < 64)%nat -> 0 < shift_at i /\ shift_at i < 32.
Proof.
  assert (S : forallb (fun i => (0 <? shift_at i) && (shift_at i <? 32)) (seq 0 64) = true) by reflexivity.
  intros Hi. rewrite forallb_forall in S. specialize (S i). rewrite in_seq in S. lia.
Qed.

Definition fun_of (i : nat) : N -> N -> N -> N :=
  match (i / 16)%nat with 0%nat => F | 1%nat => G | 2%nat => H | _ => I end.
Lemma fun_of_ok i x y z : wok x -> wok z -> fun_of i x y z = md5_fun i x y z.
Proof.
  intros Hx Hz. unfold fun_of, md5_fun.
  destruct (i / 16)%nat as [|[|[|k]]]; unfold F, G, H, I;
    [rewrite (compl_not x) by assumption|rewrite (compl_not z) by assumption| |rewrite (compl_not z) by assumption];
    reflexivity.
Qed.

(** the operations as section 3.4 lists them *)
Definition names (i : nat) : reg * reg * reg * reg :=
  match (i mod 4)%nat with
  | 0%nat => (Ra, Rb, Rc, Rd)
  | 1%nat => (Rd, Ra, Rb, Rc)
  | 2%nat => (Rc, Rd, Ra, Rb)
  | _ => (Rb, Rc, Rd, Ra)
  end.
Definition canonical (i : nat) : op :=
  let '(a, b, c, d) := names i in
  SET (fun_of i) a b c d (md5_index i mod 16) (shift_at i) (nth i md5_T 0).
Lemma program_ok : program = map canonical (seq 0 64).
Proof. reflexivity. Qed.

Definition qok (v : quad) : Prop := forall r, wok (get v r).
Definition view (v : quad) (i : nat) : quad :=
  let '(a, b, c, d) := names i in (get v a, get v b, get v c, get v d).

Lemma get_set_eq v r x : get (set v r x) r = x.
Proof. destruct v as [[[a b] c] d], r; reflexivity. Qed.
Lemma get_set_ne v r q x : q <> r -> get (set v r x) q = get v q.
Proof. intros Hq. destruct v as [[[a b] c] d], r, q; try reflexivity; contradiction. Qed.

Lemma names_succ i : names (S i) = let '(a, b, c, d) := names i in (d, a, b, c).
Proof.
  unfold names. destruct (Nat.eq_dec (i mod 4) 3) as [E|E].
  - replace (S i mod 4)%nat with 0%nat; [rewrite E; reflexivity|].
    rewrite <- Nat.add_1_r, Nat.add_mod, E by discriminate. reflexivity.
  - assert (L : (i mod 4 < 4)%nat) by (apply Nat.mod_upper_bound; discriminate).
    replace (S i mod 4)%nat with (S (i mod 4)).
    + destruct (i mod 4)%nat as [|[|[|[|k]]]]; try reflexivity; lia.
    + pose proof (Nat.div_mod i 4 ltac:(discriminate)) as M. eapply Nat.mod_unique with (q := (i / 4)%nat); lia.
Qed.
Lemma names_differ i : let '(a, b, c, d) := names i in a <> b /\ a <> c /\ a <> d.
Proof. unfold names. destruct (i mod 4)%nat as [|[|[|k]]]; repeat split; discriminate. Qed.

Lemma run_op_ok X words v i : (i < 64)%nat -> qok v ->
  (forall k, (k < 16)%nat -> X k = nth k words 0) ->
  qok (run_op X v (canonical i)) /\
  view (run_op X v (canonical i)) (S i) = md5_operation words (view v i) i.
Proof.
  intros Hi Hv HX. split.
  - intros r. unfold run_op.
    destruct (canonical i) as [f a b c d k s t]. cbv beta iota zeta delta [o_f o_a o_b o_c o_d o_k o_s o_T].
    destruct v as [[[va vb] vc] vd].
    pose proof (Hv Ra) as H1. pose proof (Hv Rb) as H2. pose proof (Hv Rc) as H3. pose proof (Hv Rd) as H4.
    cbn [get] in H1, H2, H3, H4.
    destruct a, r; cbn [set get]; first [assumption | apply w32_ok].
  - unfold view at 1. rewrite names_succ. unfold view, canonical, run_op.
    pose proof (names_differ i) as D. destruct (names i) as [[[a b] c] d]. destruct D as (D1 & D2 & D3).
    cbv beta iota zeta delta [o_f o_a o_b o_c o_d o_k o_s o_T].
    rewrite get_set_eq, !get_set_ne by congruence. unfold md5_operation. cbv zeta.
    rewrite fun_of_ok by apply Hv. rewrite HX by (apply Nat.mod_upper_bound; discriminate).
    destruct (shift_at_range i Hi) as [S1 S2].
    rewrite rot_ok; [|apply w32_ok|assumption|assumption].
    rewrite (N.add_comm (get v b)). reflexivity.
Qed.

Lemma run_ops_ok X words n : forall i v, (i + n <= 64)%nat -> qok v ->
  (forall k, (k < 16)%nat -> X k = nth k words 0) ->
  let v' := fold_left (run_op X) (map canonical (seq i n)) v in
  qok v' /\ view v' (i + n) = fold_left (md5_operation words) (seq i n) (view v i).
Proof.
  induction n as [|n IH]; intros i v Hi Hv HX; cbn [seq map fold_left].
  - rewrite Nat.add_0_r. auto.
  - destruct (run_op_ok X words v i ltac:(lia) Hv HX) as [Q E].
    destruct (IH (S i) (run_op X v (canonical i)) ltac:(lia) Q HX) as [Q' E'].
    rewrite <- Nat.add_succ_comm. split; [exact Q'|]. rewrite E', E. reflexivity.
Qed.

(** reading the words *)
Lemma le_value4 l : le_value (firstn 4 l) =
  nth 0 l 0 + N.shiftl (nth 1 l 0) 8 + N.shiftl (nth 2 l 0) 16 + N.shiftl (nth 3 l 0) 24.
Proof.
  rewrite !N.shiftl_mul_pow2. change (2 ^ 8) with 256. change (2 ^ 16) with 65536. change (2 ^ 24) with 16777216.
  destruct l as [|a [|b [|c [|d l]]]]; cbn [firstn le_value nth]; lia.
Qed.
Lemma nth_skipn {A} (l : list A) n k d : nth k (skipn n l) d = nth (n + k) l d.
Proof.
  revert l; induction n as [|n IH]; intros l; [reflexivity|]. destruct l as [|a l]; [destruct k; reflexivity|apply IH].
Qed.
Lemma le_words_nth n : forall l k, (k < n)%nat ->
  nth k (le_words n l) 0 =
  nth (4 * k) l 0 + N.shiftl (nth (4 * k + 1) l 0) 8 + N.shiftl (nth (4 * k + 2) l 0) 16 + N.shiftl (nth (4 * k + 3) l 0) 24.
Proof.
  induction n as [|n IH]; intros l k Hk; [lia|]. cbn [le_words]. destruct k as [|k].
  - cbn [nth]. rewrite le_value4. reflexivity.
  - cbn [nth]. rewrite IH by lia. rewrite !nth_skipn.
    replace (4 * S k)%nat with (4 + 4 * k)%nat by lia. rewrite !Nat.add_assoc. reflexivity.
Qed.

Lemma process_ok v data : qok v -> md5_process v data = md5_block v data /\ qok (md5_process v data).
Proof.
  intros Hv. destruct v as [[[a b] c] d]. unfold md5_process. cbv zeta.
  set (X := fun i : nat => _).
  rewrite program_ok.
  destruct (run_ops_ok X (le_words 16 data) 64 0 (a, b, c, d) ltac:(lia) Hv) as [Q E].
  { intros k Hk. rewrite le_words_nth by exact Hk. reflexivity. }
  unfold md5_block. change (view (a, b, c, d) 0) with (a, b, c, d) in E. rewrite <- E.
  destruct (fold_left (run_op X) (map canonical (seq 0 64)) (a, b, c, d)) as [[[a' b'] c'] d'].
  split; [reflexivity|]. intros []; apply w32_ok.
Qed.

(** ** The bytes counted and buffered *)
Lemma word_bytes_ok w : wok w -> word_bytes w = le_bytes 4 w.
Proof.
  intros Hw. unfold word_bytes. cbn [seq map le_bytes]. rewrite !N.shiftr_div_pow2.
  change (N.of_nat 0) with 0. change (N.of_nat 1) with 1. change (N.of_nat 2) with 2. change (N.of_nat 3) with 3.
  rewrite !N.div_div by discriminate. change (2 ^ (8 * 0)) with 1. rewrite N.div_1_r. reflexivity.
Qed.

Lemma le_bytes_app v : le_bytes 8 v = le_bytes 4 (w32 v) ++ le_bytes 4 (w32 (v / 2 ^ 32)).
Proof.
  assert (A : forall x, le_bytes 4 (w32 x) = le_bytes 4 x).
  { intros x. unfold w32. cbn [le_bytes]. rewrite !N.div_div by discriminate.
    change (256 * 256 * 256) with (2 ^ 24). change (256 * 256) with (2 ^ 16). change 256 with (2 ^ 8).
    assert (M : forall k, k <= 24 -> (x mod 2 ^ 32) / 2 ^ k mod 2 ^ 8 = x / 2 ^ k mod 2 ^ 8).
    { intros k Hk. replace 32 with (k + (8 + (24 - k))) by lia. rewrite (N.pow_add_r 2 k), (N.mod_mul_r x) by (apply N.pow_nonzero; discriminate).
      rewrite (N.mul_comm (2 ^ k)), N.div_add by (apply N.pow_nonzero; discriminate).
      rewrite (N.div_small (x mod 2 ^ k)) by (apply N.mod_lt, N.pow_nonzero; discriminate). rewrite N.add_0_l.
      rewrite N.pow_add_r, N.mod_mul_r by (apply N.pow_nonzero; discriminate).
      rewrite N.mul_comm, N.mod_add by (apply N.pow_nonzero; discriminate). apply N.mod_mod, N.pow_nonzero; discriminate. }
    pose proof (M 0 ltac:(lia)) as M0. change (2 ^ 0) with 1 in M0. rewrite !N.div_1_r in M0.
    rewrite M0, !M by lia. reflexivity. }
  rewrite !A. cbn [le_bytes app]. rewrite !N.div_div by discriminate. reflexivity.
Qed.

Definition inv (s : md5_state) (m : list N) : Prop :=
  let bits := 8 * N.of_nat (length m) in
  count0 s = w32 bits /\ count1 s = w32 (bits / 2 ^ 32) /\ length (buf s) = 64%nat /\ qok (abcd s) /\
  exists bl rest, m = concat bl ++ rest /\ Forall (fun b => length b = 64%nat) bl /\
    (length rest < 64)%nat /\ firstn (length rest) (buf s) = rest /\
    abcd s = fold_left md5_block bl md5_start.

Lemma concat_length bl : Forall (fun b : list N => length b = 64%nat) bl -> length (concat bl) = (64 * length bl)%nat.
Proof. induction 1 as [|b bl Hb _ IH]; [reflexivity|]. cbn [concat length]. rewrite app_length, Hb, IH. lia. Qed.

Lemma blocks_concat bl : Forall (fun b : list N => length b = 64%nat) bl -> blocks (length bl) (concat bl) = bl.
Proof.
  induction 1 as [|b bl Hb _ IH]; [reflexivity|]. cbn [concat length blocks].
  rewrite firstn_app, Hb, Nat.sub_diag, <- Hb, firstn_all, app_nil_r.
  rewrite skipn_app, skipn_all, Nat.sub_diag. cbn [app skipn]. rewrite IH. reflexivity.
Qed.
Lemma in_blocks_concat bl : Forall (fun b : list N => length b = 64%nat) bl -> in_blocks (concat bl) = bl.
Proof.
  intros Hb. unfold in_blocks. rewrite concat_length by exact Hb. rewrite Nat.mul_comm, Nat.div_mul by discriminate.
  apply blocks_concat, Hb.
Qed.

Lemma full_blocks_ok n : forall v p, (length p <= n)%nat -> qok v ->
  exists bl rest, p = concat bl ++ rest /\ Forall (fun b => length b = 64%nat) bl /\ (length rest < 64)%nat /\
    full_blocks n v p = (fold_left md5_block bl v, rest) /\ qok (fold_left md5_block bl v).
Proof.
  induction n as [|n IH]; intros v p Hp Hv; cbn [full_blocks].
  - exists [], p. destruct p; [|cbn in Hp; lia]. cbn. repeat split; try assumption; try constructor. lia.
  - destruct (Nat.leb_spec 64 (length p)) as [L|L].
    + destruct (process_ok v (firstn 64 p) Hv) as [E Q].
      destruct (IH (md5_process v (firstn 64 p)) (skipn 64 p)) as (bl & rest & H1 & H2 & H3 & H4 & H5).
      { rewrite skipn_length. lia. } { exact Q. }
      exists (firstn 64 p :: bl), rest. cbn [concat fold_left]. rewrite <- app_assoc, <- H1, firstn_skipn.
      rewrite E in H4, H5. rewrite E.
      split; [reflexivity|]. split; [constructor; [rewrite firstn_length; lia|exact H2]|]. auto.
    + exists [], p. cbn. repeat split; try assumption. constructor.
Qed.

Lemma blit_length b o l : (o + length l <= length b)%nat -> length (blit b o l) = length b.
Proof. intros Hl. unfold blit. rewrite !app_length, firstn_length, skipn_length. lia. Qed.
Lemma blit_firstn b o l : (o + length l <= length b)%nat -> firstn (o + length l) (blit b o l) = firstn o b ++ l.
Proof.
  intros Hl. unfold blit. rewrite app_assoc, firstn_app.
  assert (E : length (firstn o b ++ l) = (o + length l)%nat) by (rewrite app_length, firstn_length; lia).
  rewrite E, Nat.sub_diag, <- E, firstn_all. apply app_nil_r.
Qed.

Lemma div_add_carry A B : (* the words of a sum *)
  let r := w32 (w32 A + w32 B) in
  r = w32 (A + B) /\
  (if r <? w32 B then wrap (wrap (w32 (A / 2 ^ 32) + B / 2 ^ 32) + 1) else wrap (w32 (A / 2 ^ 32) + B / 2 ^ 32))
  = w32 ((A + B) / 2 ^ 32).
Proof.
  intros r. unfold r, w32, wrap. change 4294967296 with (2 ^ 32). set (p := 2 ^ 32).
  assert (Hp : p <> 0) by discriminate.
  split; [rewrite <- N.add_mod by exact Hp; reflexivity|].
  pose proof (N.div_mod A p Hp) as EA. pose proof (N.div_mod B p Hp) as EB.
  pose proof (N.mod_lt A p Hp) as LA. pose proof (N.mod_lt B p Hp) as LB.
  set (a := A mod p) in *. set (b := B mod p) in *. set (qa := A / p) in *. set (qb := B / p) in *.
  destruct (N.lt_ge_cases (a + b) p) as [L|L].
  - rewrite (N.mod_small (a + b)) by exact L. destruct (N.ltb_spec (a + b) b); [lia|].
    rewrite N.add_mod_idemp_l by exact Hp. f_equal. apply N.div_unique with (a + b); [exact L|].
    rewrite EA, EB. ring.
  - replace ((a + b) mod p) with (a + b - p) by (apply N.mod_unique with 1; lia).
    destruct (N.ltb_spec (a + b - p) b); [|lia].
    rewrite N.add_mod_idemp_l by exact Hp. rewrite <- N.add_assoc, N.add_mod_idemp_l by exact Hp. f_equal.
    apply N.div_unique with (a + b - p); [lia|]. 
    assert (E : A + B = p * (qa + qb) + (a + b)) by (rewrite EA, EB; ring).
    rewrite E, !N.mul_add_distr_l. lia.
Qed.

Lemma offset_ok len : N.land (N.shiftr (w32 (8 * len)) 3) 63 = len mod 64.
Proof.
  change 63 with (N.ones 6). rewrite N.land_ones, N.shiftr_div_pow2. unfold w32.
  change (2 ^ 32) with (8 * 2 ^ 29). change (2 ^ 3) with 8. rewrite N.mul_mod_distr_l by discriminate.
  rewrite N.mul_comm, N.div_mul by discriminate. change (2 ^ 29) with (2 ^ 6 * 2 ^ 23).
  rewrite N.mod_mul_r by discriminate. rewrite N.mul_comm, N.mod_add by discriminate.
  rewrite N.mod_mod by discriminate. reflexivity.
Qed.

Lemma append_ok s m data : inv s m ->
  (Z.of_nat (length data) + 64 <= INT_MAX)%Z ->
  exists s', md5_append s data (Z.of_nat (length data)) = Ok s' /\ inv s' (m ++ data).
Proof.
  intros (C0 & C1 & LB & Q & bl & rest & Em & Hbl & Lr & Hr & Er) Hlen.
  unfold md5_append. destruct data as [|x data0] eqn:Ed.
  { exists s. cbn. split; [reflexivity|]. rewrite app_nil_r. unfold inv.
    repeat (split; [assumption|]). exists bl, rest. auto. }
  rewrite <- Ed in *. assert (Hn : (0 < length data)%nat) by (rewrite Ed; cbn; lia). clear Ed x data0.
  destruct (Z.leb_spec (Z.of_nat (length data)) 0) as [Hz|_]; [lia|].
  set (n := length data) in *. set (L := length m) in *.
  assert (EL : L = (64 * length bl + length rest)%nat).
  { unfold L. rewrite Em, app_length, concat_length by exact Hbl. reflexivity. }
  assert (Eo : N.land (N.shiftr (count0 s) 3) 63 = N.of_nat (length rest)).
  { rewrite C0, offset_ok. fold L. symmetry. apply N.mod_unique with (N.of_nat (length bl)); lia. }
  rewrite Eo.
  assert (Enb : Z.to_N ((Z.of_nat n * 8) mod 4294967296) = w32 (8 * N.of_nat n)).
  { unfold w32. rewrite Z2N.inj_mod by lia. f_equal. lia. }
  assert (Esh : Z.to_N (Z.shiftr (Z.of_nat n) 29) = 8 * N.of_nat n / 2 ^ 32).
  { rewrite Z.shiftr_div_pow2 by lia. rewrite Z2N.inj_div by lia.
    replace (Z.to_N (Z.of_nat n)) with (N.of_nat n) by lia. change (Z.to_N (2 ^ 29)) with (2 ^ 29).
    change (2 ^ 32) with (8 * 2 ^ 29). rewrite N.div_mul_cancel_l by discriminate. reflexivity. }
  rewrite Enb, Esh, C0, C1. cbv zeta.
  destruct (div_add_carry (8 * N.of_nat L) (8 * N.of_nat n)) as [D0 D1].
  assert (Hc : 8 * N.of_nat L + 8 * N.of_nat n = 8 * N.of_nat (length (m ++ data))).
  { rewrite app_length. fold L n. lia. }
  rewrite Hc in D0, D1. fold L.
  change (wrap (w32 (8 * N.of_nat L) + w32 (8 * N.of_nat n))) with (w32 (w32 (8 * N.of_nat L) + w32 (8 * N.of_nat n))).
  cbv zeta in D1. rewrite D1, D0. clear D0 D1.
  assert (TAIL : forall v b p bl0, qok v -> length b = 64%nat -> (length bl0 = length bl0) ->
     m ++ data = concat bl0 ++ p -> Forall (fun b => length b = 64%nat) bl0 -> v = fold_left md5_block bl0 md5_start ->
     exists s', (let '(regs, p0) := full_blocks (length p) v p in
       Ok {| count0 := w32 (8 * N.of_nat (length (m ++ data)));
             count1 := w32 (8 * N.of_nat (length (m ++ data)) / 2 ^ 32); abcd := regs;
             buf := if Nat.eqb (length p0) 0 then b else blit b 0 p0 |}) = Ok s' /\ inv s' (m ++ data)).
  { intros v b p bl0 Qv Lb _ E0 F0 Ev.
    destruct (full_blocks_ok (length p) v p ltac:(lia) Qv) as (bl1 & rest1 & H1 & H2 & H3 & H4 & H5).
    rewrite H4. eexists. split; [reflexivity|]. unfold inv. cbn [count0 count1 abcd buf].
    split; [reflexivity|]. split; [reflexivity|].
    split.
    { destruct (Nat.eqb_spec (length rest1) 0); [exact Lb|]. rewrite blit_length; lia. }
    split; [exact H5|]. exists (bl0 ++ bl1), rest1.
    split; [rewrite concat_app, <- app_assoc, <- H1; exact E0|].
    split; [apply Forall_app; auto|]. split; [exact H3|].
    split; [|rewrite fold_left_app, <- Ev; reflexivity].
    destruct (Nat.eqb_spec (length rest1) 0) as [Z|Z].
    - destruct rest1; [reflexivity|discriminate].
    - apply (blit_firstn b 0 rest1). lia. }
  destruct (N.eqb_spec (N.of_nat (length rest)) 0) as [Z|Z]; cbn [negb].
  - apply TAIL with bl; try assumption; [reflexivity|].
    destruct rest; [|cbn in Z; lia]. rewrite Em, app_nil_r. reflexivity.
  - rewrite nat_N_Z.
    destruct (Z.ltb_spec INT_MAX (Z.of_nat (length rest) + Z.of_nat n)); [lia|].
    destruct (Z.ltb_spec 64 (Z.of_nat (length rest) + Z.of_nat n)) as [G|G].
    + destruct (Z.ltb_spec (Z.of_nat (length rest) + (64 - Z.of_nat (length rest))) 64); [lia|].
      replace (Z.to_nat (64 - Z.of_nat (length rest))) with (64 - length rest)%nat by lia.
      rewrite Nat2N.id. set (k := (64 - length rest)%nat).
      set (b := blit (buf s) (length rest) (firstn k data)).
      assert (Lk : length (firstn k data) = k) by (rewrite firstn_length; fold n; lia).
      assert (Eb : b = rest ++ firstn k data).
      { transitivity (firstn (length rest + length (firstn k data)) b).
        - symmetry. rewrite Lk. unfold k. replace (length rest + (64 - length rest))%nat with 64%nat by lia.
          rewrite <- LB at 1. replace (length (buf s)) with (length b); [apply firstn_all|].
          apply blit_length. rewrite Lk. unfold k. lia.
        - unfold b. rewrite blit_firstn by (rewrite Lk; unfold k; lia). rewrite Hr. reflexivity. }
      destruct (process_ok (abcd s) b Q) as [E1 Q1].
      apply TAIL with (bl ++ [b]); [exact Q1| |reflexivity| | |].
      * rewrite Eb, app_length, Lk. unfold k. lia.
      * rewrite concat_app. cbn [concat]. rewrite app_nil_r, Eb, Em, <- !app_assoc, firstn_skipn. reflexivity.
      * apply Forall_app. split; [exact Hbl|]. constructor; [|constructor]. rewrite Eb, app_length, Lk. unfold k. lia.
      * rewrite E1, fold_left_app, <- Er. reflexivity.
    + replace (Z.to_nat (Z.of_nat n)) with n by lia. assert (FA : firstn n data = data) by apply firstn_all. rewrite !FA, Nat2N.id.
      set (b := blit (buf s) (length rest) data).
      assert (Lb : length b = 64%nat) by (unfold b; rewrite blit_length; fold n; lia).
      assert (Eb : firstn (length rest + n) b = rest ++ data).
      { unfold b, n. rewrite blit_firstn by (fold n; lia). rewrite Hr. reflexivity. }
      destruct (Z.ltb_spec (Z.of_nat (length rest) + Z.of_nat n) 64) as [K|K].
      * eexists. split; [reflexivity|]. unfold inv. cbn [count0 count1 abcd buf].
        split; [reflexivity|]. split; [reflexivity|]. split; [exact Lb|]. split; [exact Q|].
        exists bl, (rest ++ data). rewrite app_length. fold n.
        split; [rewrite Em, <- app_assoc; reflexivity|]. split; [exact Hbl|]. split; [lia|]. split; [exact Eb|exact Er].
      * assert (Eb' : b = rest ++ data).
        { rewrite <- Eb. replace (length rest + n)%nat with (length b) by lia. rewrite firstn_all. reflexivity. }
        assert (SA : skipn n data = []) by apply skipn_all. rewrite SA. destruct (process_ok (abcd s) b Q) as [E1 Q1].
        apply TAIL with (bl ++ [b]); [exact Q1|exact Lb|reflexivity| | |].
        -- rewrite concat_app. cbn [concat]. rewrite !app_nil_r, Eb', Em, <- !app_assoc. reflexivity.
        -- apply Forall_app. split; [exact Hbl|]. constructor; [exact Lb|constructor].
        -- rewrite E1, fold_left_app, <- Er. reflexivity.
Qed.

Lemma init_inv mem : length mem = 64%nat -> inv (md5_init mem) [].
Proof.
  intros Hm. unfold inv, md5_init. cbn [count0 count1 abcd buf length]. split; [reflexivity|]. split; [reflexivity|].
  split; [exact Hm|]. split; [intros []; reflexivity|]. exists [], [].
  split; [reflexivity|]. split; [constructor|]. split; [cbn; lia|]. split; reflexivity.
Qed.

Lemma pad_length_ok len : N.land (wrap (55 + 4294967296 - N.shiftr (w32 (8 * len)) 3)) 63 = (119 - len mod 64) mod 64.
Proof.
  assert (E : N.shiftr (w32 (8 * len)) 3 = len mod 2 ^ 29).
  { rewrite N.shiftr_div_pow2. unfold w32. change (2 ^ 32) with (8 * 2 ^ 29). change (2 ^ 3) with 8.
    rewrite N.mul_mod_distr_l by discriminate. rewrite N.mul_comm, N.div_mul by discriminate. reflexivity. }
  rewrite E. clear E. change 63 with (N.ones 6). rewrite N.land_ones. unfold wrap.
  assert (L : len mod 2 ^ 29 < 2 ^ 29) by (apply N.mod_lt; discriminate).
  assert (M : (len mod 2 ^ 29) mod 64 = len mod 64).
  { change (2 ^ 29) with (64 * 2 ^ 23). rewrite N.mod_mul_r by discriminate.
    rewrite N.mul_comm, N.mod_add by discriminate. apply N.mod_mod. discriminate. }
  rewrite <- M. clear M. set (x := len mod 2 ^ 29) in *. clearbody x. clear len.
  change 4294967296 with (64 * 2 ^ 26). change (2 ^ 6) with 64. rewrite N.mod_mul_r by discriminate.
  rewrite (N.mul_comm 64 ((_ / 64) mod _)), N.mod_add, N.mod_mod by discriminate.
  pose proof (N.div_mod x 64 ltac:(discriminate)) as D. pose proof (N.mod_lt x 64 ltac:(discriminate)) as R.
  set (q := x / 64) in *. set (r := x mod 64) in *. change (2 ^ 29) with 536870912 in L. change (2 ^ 26) with 67108864.
  replace (55 + 64 * 67108864 - x) with ((119 - r) + (67108863 - q) * 64) by lia.
  apply N.mod_add. discriminate.
Qed.

Lemma zeros_bound len : (zeros len < 64)%nat.
Proof. unfold zeros. pose proof (N.mod_lt (119 - len mod 64) 64 ltac:(discriminate)). lia. Qed.
Lemma pad_prefix k : (k < 64)%nat -> firstn (S k) pad = 128 :: repeat 0 k.
Proof.
  intros Hk. unfold pad. cbn [firstn]. f_equal. replace 63%nat with (k + (63 - k))%nat by lia.
  rewrite repeat_app, firstn_app, repeat_length, Nat.sub_diag. cbn [firstn]. rewrite app_nil_r.
  rewrite <- (repeat_length 0 k) at 1. apply firstn_all.
Qed.

(** the digest, and what the object has hashed afterwards *)
Lemma finish_ok s m : inv s m -> exists s', md5_finish s = Ok (MD5 m, s') /\ inv s' (md5_pad m).
Proof.
  intros Hi. pose proof Hi as (C0 & C1 & _). unfold md5_finish. cbv zeta.
  rewrite C0, C1. set (len := N.of_nat (length m)) in *.
  rewrite pad_length_ok. set (z := zeros len).
  assert (Ez : (119 - len mod 64) mod 64 = N.of_nat z) by (unfold z, zeros; rewrite N2Nat.id; reflexivity).
  rewrite Ez. replace (N.to_nat (N.of_nat z + 1)) with (S z) by lia.
  pose proof (zeros_bound len) as Hz. fold z in Hz. rewrite pad_prefix by exact Hz.
  assert (L1 : length (128 :: repeat 0 z) = S z) by (cbn [length]; rewrite repeat_length; reflexivity).
  replace (Z.of_N (N.of_nat z + 1)) with (Z.of_nat (length (128 :: repeat 0 z))) by (rewrite L1; lia).
  destruct (append_ok s m (128 :: repeat 0 z) Hi) as (s1 & E1 & I1); [rewrite L1; unfold INT_MAX; lia|].
  rewrite E1. cbn [obind].
  set (d := word_bytes (w32 (8 * len)) ++ word_bytes (w32 (8 * len / 2 ^ 32))).
  assert (Ed : d = le_bytes 8 ((8 * len) mod 2 ^ 64)).
  { unfold d. rewrite !word_bytes_ok by apply w32_ok. rewrite le_bytes_app. f_equal; f_equal; unfold w32.
    - change (2 ^ 64) with (2 ^ 32 * 2 ^ 32). rewrite N.mod_mul_r by discriminate.
      rewrite (N.mul_comm (2 ^ 32)), N.mod_add, N.mod_mod by discriminate. reflexivity.
    - change (2 ^ 64) with (2 ^ 32 * 2 ^ 32). rewrite N.mod_mul_r by discriminate.
      rewrite (N.mul_comm (2 ^ 32) ((_ / _) mod _)), N.div_add by discriminate.
      rewrite (N.div_small ((8 * len) mod 2 ^ 32)) by (apply N.mod_lt; discriminate).
      rewrite N.add_0_l, N.mod_mod by discriminate. reflexivity. }
  assert (L2 : length d = 8%nat) by (rewrite Ed; reflexivity).
  change 8%Z with (Z.of_nat 8). rewrite <- L2.
  destruct (append_ok s1 _ d I1) as (s2 & E2 & I2); [rewrite L2; unfold INT_MAX; lia|].
  rewrite E2. cbn [obind].
  assert (Ep : (m ++ 128 :: repeat 0 z) ++ d = md5_pad m).
  { unfold md5_pad. fold len z. rewrite <- app_assoc, Ed. reflexivity. }
  rewrite Ep in I2. pose proof I2 as (_ & _ & _ & Q & bl & rest & Em & Hbl & Lr & _ & Er).
  pose proof (md5_pad_blocks m) as PB. rewrite Em, app_length, concat_length in PB by exact Hbl.
  rewrite Nat.mul_comm, Nat.add_comm, Nat.mod_add, Nat.mod_small in PB by (discriminate || exact Lr).
  destruct rest; [|discriminate]. rewrite app_nil_r in Em.
  exists s2. split; [|exact I2]. unfold MD5. rewrite Em, in_blocks_concat, <- Er by exact Hbl.
  destruct (abcd s2) as [[[a b] c] e]. unfold md5_bytes.
  rewrite !word_bytes_ok; [reflexivity|exact (Q Rd)|exact (Q Rc)|exact (Q Rb)|exact (Q Ra)].
Qed.

(** ** The iterator *)
Definition max_piece : Z := 2147483583.
Lemma to_int_small n : (0 <= n <= INT_MAX)%Z -> to_int n = n.
Proof.
  intros Hn. unfold to_int, INT_MAX in *. rewrite Z.mod_small by lia.
  destruct (Z.ltb_spec n 2147483648); lia.
Qed.
Lemma append_natural_ok s m data : inv s m -> (Z.of_nat (length data) <= max_piece)%Z ->
  exists s', append_natural s data = Ok s' /\ inv s' (m ++ data).
Proof.
  intros Hi Hl. unfold append_natural. unfold max_piece in Hl. rewrite to_int_small by (unfold INT_MAX; lia).
  rewrite Nat2Z.id, firstn_all. apply append_ok; [exact Hi|]. unfold INT_MAX. lia.
Qed.

Definition piece_ok (c : delivery) : Prop := (Z.of_nat (length (concat (taken_items c))) <= max_piece)%Z.
Definition hinv (h : hash) (m : list N) : Prop := inv (st h) m /\ m = concat (forwarded h).

Lemma calls_ok cs : forall h m, hinv h m -> Forall piece_ok cs ->
  exists h', hash_calls h cs = Ok h' /\ hinv h' (m ++ concat (flat_map taken_items cs)) /\
    forwarded h' = forwarded h ++ flat_map taken_items cs.
Proof.
  induction cs as [|c cs IH]; intros h m [Hi Hm] Hp.
  - exists h. cbn. rewrite !app_nil_r. split; [reflexivity|]. split; [split; assumption|reflexivity].
  - apply Forall_cons_iff in Hp as [Hc Hp]. unfold piece_ok in Hc.
    assert (S : exists h1, (forall t, hash_calls h (c :: t) = hash_calls h1 t) /\
                hinv h1 (m ++ concat (taken_items c)) /\ forwarded h1 = forwarded h ++ taken_items c).
    { destruct (append_natural_ok (st h) m (concat (taken_items c)) Hi Hc) as (s' & E & I').
      destruct c as [x|b k]; cbn [hash_calls taken_items] in *.
      - cbn [concat] in *. rewrite app_nil_r in *. unfold hash_write. rewrite E. cbn [obind].
        eexists. split; [reflexivity|]. split; [|reflexivity]. split; [exact I'|].
        cbn [forwarded]. rewrite concat_app, <- Hm. cbn [concat]. rewrite app_nil_r. reflexivity.
      - unfold hash_blockWrite. rewrite E. cbn [obind].
        eexists. split; [reflexivity|]. split; [|reflexivity]. split; [exact I'|].
        cbn [forwarded]. rewrite concat_app, <- Hm. reflexivity. }
    destruct S as (h1 & S1 & S2 & S3).
    destruct (IH h1 _ S2 Hp) as (h2 & E2 & I2 & F2).
    exists h2. rewrite S1. split; [exact E2|]. cbn [flat_map]. rewrite concat_app, app_assoc. split; [exact I2|].
    rewrite F2, S3, <- app_assoc. reflexivity.
Qed.

Lemma finish_hash h m : hinv h m -> exists h', hash_finish h = Ok h' /\ digest h' = MD5 m /\ inv (st h') (md5_pad m) /\
  hex0 h' = true /\ forwarded h' = forwarded h.
Proof.
  intros [Hi _]. destruct (finish_ok (st h) m Hi) as (s' & E & I'). unfold hash_finish. rewrite E. cbn [obind].
  eexists. split; [reflexivity|]. cbn. auto.
Qed.

Lemma le_bytes_ok n : forall v, bytes_ok (le_bytes n v).
Proof.
  induction n as [|n IH]; intros v; constructor; [|apply IH]. apply N.mod_lt. discriminate.
Qed.
Lemma MD5_bytes m : bytes_ok (MD5 m) /\ length (MD5 m) = 16%nat.
Proof.
  unfold MD5, md5_bytes. destruct (fold_left _ _ _) as [[[a b] c] d]. split; [|reflexivity].
  unfold bytes_ok. rewrite !Forall_app. repeat split; apply le_bytes_ok.
Qed.

Definition hex_char (z : N) : N := if z <=? 9 then z + 48 else z + 97 - 10.
Lemma hex_byte b : byte_ok b ->
  [hex_char (N.shiftr b 4); hex_char (N.land b 15)] =
  [nth (N.to_nat (b / 16)) hex_digits 0; nth (N.to_nat (b mod 16)) hex_digits 0].
Proof.
  intros Hb. set (f := fun b : N => [hex_char (N.shiftr b 4); hex_char (N.land b 15)]).
  set (g := fun b : N => [nth (N.to_nat (b / 16)) hex_digits 0; nth (N.to_nat (b mod 16)) hex_digits 0]).
  assert (S : forallb (fun b => if list_eq_dec N.eq_dec (f b) (g b) then true else false) bytes_all = true) by (vm_compute; reflexivity).
  pose proof (sweep1 _ S b Hb) as E. cbv beta in E. destruct (list_eq_dec N.eq_dec (f b) (g b)) as [E'|]; [exact E'|discriminate].
Qed.
Lemma hex_ok l : bytes_ok l ->
  map hex_char (flat_map (fun b => [N.shiftr b 4; N.land b 0xF]) l) = lower_hex l.
Proof.
  induction 1 as [|b l Hb _ IH]; [reflexivity|]. cbn [flat_map]. rewrite map_app, IH. unfold lower_hex. cbn [flat_map].
  f_equal. exact (hex_byte b Hb).
Qed.
