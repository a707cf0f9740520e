(** Properties of the generators of random numbers *)
From Verif Require Import Common Random_Spec Random_Model Random_Proof.
From Coq Require Import ZifyBool.
Open Scope Z_scope.

(** *** C456: generators with different seeds never run together: at no place do they give the same two values *)
Theorem rand_seeds : forall s t n, u32 s -> u32 t -> s <> t ->
  u32 (out (create s) n) /\ ~ (out (create s) n = out (create t) n /\ out (create s) (S n) = out (create t) (S n)).
Proof.
  intros s t n Hs Ht N. pose proof (create_ok s Hs) as Os. pose proof (create_ok t Ht) as Ot. split; [apply (after_ok n _ Os)|]. intros (E0 & E1).
  assert (E : after n (create s) = after n (create t)).
  { apply two_state; try (apply after_ok; assumption); [exact E0|]. unfold out in *. rewrite !after_S in E1. exact E1. }
  apply after_inj in E; auto. apply (fetch_inj (setSeed s) (setSeed t)) in E; [|apply seed_ok; assumption|apply seed_ok; assumption]. injection E as E. contradiction.
Qed.
Print Assumptions rand_seeds.
Example seeds_ex : map (out (create 1)) (seq 0 3) = [2446237347; 2165544186; 4025793993] /\ map (out (create 2)) (seq 0 3) <> map (out (create 1)) (seq 0 3).
Proof. split; [vm_compute; reflexivity|vm_compute; discriminate]. Qed.

(** *** C457: the sequence is periodic from its first value, and no value comes three times in a row *)
Theorem rand_period : forall s, u32 s -> (exists p, (0 < p)%nat /\ forall n, out (create s) (n + p) = out (create s) n)
  /\ forall n, ~ (out (create s) n = out (create s) (S n) /\ out (create s) (S n) = out (create s) (S (S n))).
Proof.
  intros s Hs. pose proof (create_ok s Hs) as Os. split.
  - destruct (returns (create s) Os) as (p & P & E). exists p. split; [assumption|]. intros n. unfold out. rewrite Nat.add_comm, after_add, E. reflexivity.
  - intros n (E0 & E1). set (q := after n (create s)). assert (Oq : ok q) by (apply after_ok; assumption).
    assert (F : q = fetchNext q). { apply two_state; auto; [apply fetch_ok; assumption| |]; unfold out in *; rewrite !after_S in *; fold q in E0, E1; [exact E0|exact E1]. }
    assert (B : forall k, after k q = q). { clear - F. induction k as [|k IH]; [reflexivity|]. rewrite after_S, IH. auto. }
    assert (C : create s = q) by (apply (after_inj n); auto; rewrite (B n); reflexivity).
    assert (D : setSeed s = q). { apply fetch_inj; auto; [apply seed_ok; assumption|]. rewrite <- F. exact C. }
    destruct (stuck q Oq (eq_sym F)) as [(_ & K)|(_ & K)]; rewrite <- D in K; cbn in K; unfold multiplier in K; lia.
Qed.
Print Assumptions rand_period.

(** *** C458: a natural number from a range *)
Theorem random_natural : forall lo hi s, 0 <= lo < hi -> hi < 2 ^ 64 -> u32 (x s) -> lo <= fst (nextN lo hi s) < hi.
Proof. intros lo hi s H1 H2 Hx. cbn [nextN getNext fst]. destruct (trN_value lo hi (x s)) as (E & B); try lia; auto. Qed.
Print Assumptions random_natural.
Example natural_ex : fst (nextN 10 20 (create 1)) = 15 /\ u32 (x (create 1)).
Proof. split; [vm_compute; reflexivity|apply (create_ok 1); unfold u32; lia]. Qed.

(** *** C459: ranges up to 2^32: every value comes, and the values are equally frequent up to one source value *)
Theorem random_spread : forall lo hi, 0 <= lo < hi -> hi < 2 ^ 64 -> hi - lo <= 2 ^ 32 -> spreads (transformN lo hi) lo hi.
Proof.
  intros lo hi H1 H2 H3. set (m := hi - lo) in *. exists (fun v => cdiv ((v - lo) * 2 ^ 32) m).
  split; [rewrite Z.sub_diag; unfold cdiv; rewrite Z.div_small by lia; reflexivity|].
  split; [fold m; unfold cdiv; replace (m * 2 ^ 32 + m - 1) with (m - 1 + 2 ^ 32 * m) by lia; rewrite Z.div_add by lia; rewrite Z.div_small by lia; lia|].
  split.
  - intros v Hv. pose proof (cdiv_bounds ((v - lo) * 2 ^ 32) m ltac:(lia)) as B1. pose proof (cdiv_bounds ((v + 1 - lo) * 2 ^ 32) m ltac:(lia)) as B2.
    set (c1 := cdiv ((v - lo) * 2 ^ 32) m) in *. set (c2 := cdiv ((v + 1 - lo) * 2 ^ 32) m) in *. split; [nia|].
    intros r Hr. unfold u32 in Hr. destruct (trN_value lo hi r) as (E & _); try lia; auto. fold m in E. rewrite Z.mod_small in E by nia. rewrite E.
    assert (K : (r * m / 2 ^ 32 + lo = v) <-> (r * m / 2 ^ 32 = v - lo)) by lia. rewrite K, div_iff by nia.
    pose proof (cdiv_spec ((v - lo) * 2 ^ 32) m r ltac:(lia)) as S1. pose proof (cdiv_spec ((v + 1 - lo) * 2 ^ 32) m r ltac:(lia)) as S2.
    fold c1 in S1. fold c2 in S2. replace (v - lo + 1) with (v + 1 - lo) by lia. lia.
  - intros v w Hv Hw. pose proof (cdiv_bounds ((v - lo) * 2 ^ 32) m ltac:(lia)) as B1. pose proof (cdiv_bounds ((v + 1 - lo) * 2 ^ 32) m ltac:(lia)) as B2.
    pose proof (cdiv_bounds ((w - lo) * 2 ^ 32) m ltac:(lia)) as B3. pose proof (cdiv_bounds ((w + 1 - lo) * 2 ^ 32) m ltac:(lia)) as B4.
    set (c1 := cdiv ((v - lo) * 2 ^ 32) m) in *. set (c2 := cdiv ((v + 1 - lo) * 2 ^ 32) m) in *. set (c3 := cdiv ((w - lo) * 2 ^ 32) m) in *. set (c4 := cdiv ((w + 1 - lo) * 2 ^ 32) m) in *.
    assert ((c2 - c1) * m < 2 ^ 32 + m) by lia. assert (2 ^ 32 - m < (c4 - c3) * m) by lia. assert (D : (c2 - c1 - (c4 - c3)) * m < 2 * m) by lia. nia.
Qed.
Print Assumptions random_spread.
Example spread_ex : map (transformN 5 8) [0; 1431655765; 1431655766; 2863311530; 2863311531; 4294967295] = [5; 5; 6; 6; 7; 7].
Proof. reflexivity. Qed.

(** *** C460 (refuted): larger ranges: the upper part of the range never comes *)
Theorem random_wide_refuted : forall lo hi r, 0 <= lo -> lo + 2 ^ 32 < hi -> hi < 2 ^ 64 -> u32 r -> transformN lo hi r < lo + 2 ^ 32.
Proof.
  intros lo hi r H1 H2 H3 Hr. destruct (trN_value lo hi r H1 ltac:(lia) ltac:(lia) Hr) as (E & _). rewrite E.
  pose proof (Z.mod_pos_bound (r * (hi - lo)) (2 ^ 64) ltac:(lia)). assert ((r * (hi - lo)) mod 2 ^ 64 / 2 ^ 32 < 2 ^ 32) by (apply Z.div_lt_upper_bound; lia). lia.
Qed.
Print Assumptions random_wide_refuted.

(** *** C461: integers from a range that begins at zero *)
Theorem random_integer : forall hi s, 0 < hi <= 2 ^ 31 -> u32 (x s) -> exists v, fst (nextI 0 hi s) = Ok v /\ 0 <= v < hi.
Proof.
  intros hi s H Hx. cbn [nextI getNext fst]. unfold transformI, int64, u32 in *. rewrite Z.sub_0_r. replace (negb ((- 2 ^ 63 <=? hi) && (hi <? 2 ^ 63))) with false by lia.
  assert (0 <= x s * hi < 2 ^ 63) by nia. replace (negb ((- 2 ^ 63 <=? x s * hi) && (x s * hi <? 2 ^ 63))) with false by lia.
  eexists. split; [reflexivity|]. split; [apply Z.div_pos; lia|]. apply Z.div_lt_upper_bound; nia.
Qed.
Print Assumptions random_integer.
Example integer_ex : fst (nextI 0 10 (create 1)) = Ok 5.
Proof. reflexivity. Qed.
(** *** C462 (refuted): other ranges: the minimum is forgotten; every value of the range 100 .. 109 is below 10, and the product can overflow *)
Theorem random_integer_refuted : (forall r, u32 r -> exists v, transformI 100 110 r = Ok v /\ v < 10)
  /\ exists r, u32 r /\ transformI 0 (2 ^ 40) r = Undef.
Proof.
  split.
  - intros r Hr. unfold transformI, u32, int64 in *. change (110 - 100) with 10. replace (negb ((- 2 ^ 63 <=? 10) && (10 <? 2 ^ 63))) with false by reflexivity.
    replace (negb ((- 2 ^ 63 <=? r * 10) && (r * 10 <? 2 ^ 63))) with false by lia. eexists. split; [reflexivity|]. apply Z.div_lt_upper_bound; lia.
  - exists (2 ^ 32 - 1). split; [unfold u32; lia|reflexivity].
Qed.
Print Assumptions random_integer_refuted.

(** C463, what holds: the values after it are the seed and then those of a new generator with this seed *)
Theorem rand_setseed : forall seed n, out (setSeed seed) 0 = seed /\ out (setSeed seed) (S n) = out (create seed) n.
Proof. intros seed n. split; reflexivity. Qed.
Print Assumptions rand_setseed.
(** *** C463 (refuted): setSeed restarts the generator as a new one with this seed *)
Theorem rand_setseed_refuted : exists seed, u32 seed /\ out (setSeed seed) 0 <> out (create seed) 0.
Proof. exists 1. split; [unfold u32; lia|]. vm_compute. discriminate. Qed.
Print Assumptions rand_setseed_refuted.
