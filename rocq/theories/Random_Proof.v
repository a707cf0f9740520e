(** Lemmas about the generators of random numbers *)
From Verif Require Import Common Random_Spec Random_Model.
From Coq Require Import ZifyBool.
Open Scope Z_scope.

Definition ok (s : rnd) : Prop := u32 (x s) /\ 0 <= crry s < multiplier.
Lemma fetch_sum : forall s, ok s -> x (fetchNext s) + 2 ^ 32 * crry (fetchNext s) = x s * multiplier + crry s.
Proof.
  intros [x c] [H1 H2]. unfold u32, multiplier in *. cbn [Random_Model.x crry fetchNext] in *. unfold multiplier. rewrite (Z.mod_small (_ + _)) by nia.
  pose proof (Z.div_mod (x * 2083801278 + c) (2 ^ 32) ltac:(lia)). lia.
Qed.
Lemma fetch_ok : forall s, ok s -> ok (fetchNext s).
Proof.
  intros [x c] [H1 H2]. unfold ok, u32, multiplier in *. cbn [Random_Model.x crry fetchNext] in *. unfold multiplier.
  rewrite (Z.mod_small (_ + _)) by nia. split; [apply Z.mod_pos_bound; lia|]. split; [apply Z.div_pos; nia|]. apply Z.div_lt_upper_bound; nia.
Qed.
Lemma fetch_inj : forall s t, ok s -> ok t -> fetchNext s = fetchNext t -> s = t.
Proof.
  intros s t Hs Ht E. pose proof (fetch_sum s Hs) as A. pose proof (fetch_sum t Ht) as B. rewrite E in A. rewrite A in B.
  destruct s as [x c], t as [y d], Hs as [H1 H2], Ht as [H3 H4]. cbn [Random_Model.x crry] in *. unfold u32, multiplier in *.
  assert (x = y) by nia. subst y. f_equal. lia.
Qed.
Lemma after_S : forall n s, after (S n) s = fetchNext (after n s).
Proof. induction n as [|n IH]; intros s; [reflexivity|]. change (after (S (S n)) s) with (after (S n) (fetchNext s)). rewrite IH. reflexivity. Qed.
Lemma after_add : forall m n s, after (m + n) s = after n (after m s).
Proof. induction m as [|m IH]; intros n s; [reflexivity|]. cbn [after Nat.add]. apply IH. Qed.
Lemma after_ok : forall n s, ok s -> ok (after n s).
Proof. induction n as [|n IH]; intros s H; [exact H|]. cbn [after]. apply IH, fetch_ok, H. Qed.
Lemma after_inj : forall n s t, ok s -> ok t -> after n s = after n t -> s = t.
Proof. induction n as [|n IH]; intros s t Hs Ht E; [exact E|]. cbn [after] in E. apply fetch_inj; auto. apply IH; auto; apply fetch_ok; assumption. Qed.
Lemma seed_ok : forall s, u32 s -> ok (setSeed s).
Proof. intros s H. split; [exact H|]. cbn. unfold multiplier. lia. Qed.
Lemma create_ok : forall s, u32 s -> ok (create s).
Proof. intros s H. apply fetch_ok. apply (seed_ok s H). Qed.
(** two values determine the state *)
Lemma two_state : forall s t, ok s -> ok t -> out s 0 = out t 0 -> out s 1 = out t 1 -> s = t.
Proof.
  intros s t Hs Ht E0 E1. unfold out in *. cbn [after getNext fst snd] in *. pose proof (fetch_sum s Hs) as A. pose proof (fetch_sum t Ht) as B.
  destruct s as [x c], t as [y d], Hs as [H1 H2], Ht as [H3 H4]. cbn [Random_Model.x crry] in *. subst y. rewrite E1 in A. unfold u32, multiplier in *.
  set (p := crry (fetchNext (mkR x c))) in *. set (q := crry (fetchNext (mkR x d))) in *. assert (p = q) by lia. f_equal. lia.
Qed.
(** *** the sequence comes back *)
Lemma pigeon : forall (N : nat) (f : nat -> nat), (forall i, f i < N)%nat -> exists i j, (i < j)%nat /\ f i = f j.
Proof.
  intros N f H.
    assert (G : forall M, (exists i j, (i < j)%nat /\ (j < M)%nat /\ f i = f j) \/ (forall i j, (i < M)%nat -> (j < M)%nat -> f i = f j -> i = j)).
    { clear. induction M as [|M IH]. { right. intros; lia. } destruct IH as [(i & j & A & B & C)|IH]. { left. exists i, j. repeat split; auto. }
      assert (F : (exists i, (i < M)%nat /\ f i = f M) \/ (forall i, (i < M)%nat -> f i <> f M)).
      { clear. generalize (f M) as v. intros v. induction M as [|M IH]. { right. intros; lia. } destruct IH as [(i & A & B)|IH]; [left; exists i; auto|].
        destruct (Nat.eq_dec (f M) v) as [Q|Q]; [left; exists M; auto|]. right. intros i Hi. destruct (Nat.eq_dec i M) as [->|W]; [assumption|]. apply IH. lia. }
      destruct F as [(i & A & B)|F]. { left. exists i, M. repeat split; auto. } right. intros i j Hi Hj E.
      destruct (Nat.eq_dec i M) as [EI|W], (Nat.eq_dec j M) as [EJ|W2]; subst; auto.
      - exfalso. apply (F j); [lia|auto]. - exfalso. apply (F i); [lia|auto]. - apply IH; auto; lia. }
    destruct (G (S N)) as [(i & j & A & B & C)|F]; [exists i, j; auto|]. exfalso. set (l := map f (seq 0 (S N))).
    assert (LL : length l = S N) by (unfold l; rewrite map_length, seq_length; reflexivity).
    assert (D : NoDup l). { apply (NoDup_nth l (f O)). rewrite LL. assert (E : forall k, (k < S N)%nat -> nth k l (f O) = f k) by (intros k Hk; unfold l; rewrite (map_nth f), seq_nth by exact Hk; reflexivity).
      intros i j Hi Hj Q. rewrite !E in Q by assumption. auto. }
    assert (I : incl l (seq 0 N)). { intros y Hy. apply in_map_iff in Hy as (k & <- & _). apply in_seq. specialize (H k). lia. }
    pose proof (NoDup_incl_length D I) as L. rewrite LL, seq_length in L. lia.
Qed.
Lemma returns : forall s, ok s -> exists p, (0 < p)%nat /\ after p s = s.
Proof.
  intros s H. set (f := fun n => Z.to_nat (x (after n s) + 2 ^ 32 * crry (after n s))).
  destruct (pigeon (Z.to_nat (2 ^ 32 * multiplier)) f) as (i & j & L & E).
  - intros n. unfold f. destruct (after_ok n s H) as [A B]. unfold u32, multiplier in *. apply Z2Nat.inj_lt; nia.
  - exists (j - i)%nat. split; [lia|]. apply (after_inj i); auto; [apply after_ok; assumption|]. rewrite <- after_add. replace (j - i + i)%nat with j by lia.
    unfold f in E. destruct (after_ok i s H) as [A B], (after_ok j s H) as [C D]. unfold u32, multiplier in *. apply Z2Nat.inj in E; try nia.
    destruct (after i s) as [xi ci], (after j s) as [xj cj]. cbn [x crry] in *. assert (ci = cj) by nia. subst. f_equal. lia.
Qed.
(** the only states that repeat themselves at once *)
Lemma stuck : forall s, ok s -> fetchNext s = s -> (x s = 0 /\ crry s = 0) \/ (x s = 2 ^ 32 - 1 /\ crry s = multiplier - 1).
Proof.
  intros s H E. pose proof (fetch_sum s H) as A. rewrite E in A. destruct H as [H1 H2]. unfold u32, multiplier in *.
  destruct s as [x c]. cbn [Random_Model.x crry] in *. assert (Q : 2083801277 * x = (2 ^ 32 - 1) * c) by lia.
  assert (G : Z.gcd (2 ^ 32 - 1) 2083801277 = 1) by reflexivity.
  assert (D : (2 ^ 32 - 1 | x)). { apply (Z.gauss _ 2083801277); [exists c; lia|exact G]. }
  destruct D as (k & ->). assert (k = 0 \/ k = 1) as [->| ->] by nia; lia.
Qed.
(** *** numbers from a range *)
Lemma trN_value : forall lo hi r, 0 <= lo -> lo < hi -> hi <= 2 ^ 64 - 1 -> u32 r -> transformN lo hi r = (r * (hi - lo)) mod 2 ^ 64 / 2 ^ 32 + lo
  /\ 0 <= (r * (hi - lo)) mod 2 ^ 64 / 2 ^ 32 < hi - lo.
Proof.
  intros lo hi r H1 H2 H3 Hr. unfold transformN, u32 in *. rewrite (Z.mod_small (hi - lo)) by lia.
  assert (B : 0 <= (r * (hi - lo)) mod 2 ^ 64 / 2 ^ 32 < hi - lo).
  { pose proof (Z.mod_pos_bound (r * (hi - lo)) (2 ^ 64) ltac:(lia)). split; [apply Z.div_pos; lia|].
    destruct (Z.lt_ge_cases (hi - lo) (2 ^ 32)) as [S|S].
    - rewrite Z.mod_small by nia. apply Z.div_lt_upper_bound; nia.
    - apply Z.lt_le_trans with (2 ^ 32); [|exact S]. apply Z.div_lt_upper_bound; lia. }
  split; [|exact B]. apply Z.mod_small. lia.
Qed.
Definition cdiv (a m : Z) : Z := (a + m - 1) / m.
Lemma cdiv_spec : forall a m r, 0 < m -> (cdiv a m <= r <-> a <= r * m).
Proof.
  intros a m r H. unfold cdiv. pose proof (Z.div_mod (a + m - 1) m ltac:(lia)). pose proof (Z.mod_pos_bound (a + m - 1) m H). split; intros K; nia.
Qed.
Lemma cdiv_bounds : forall a m, 0 < m -> a <= cdiv a m * m < a + m.
Proof. intros a m H. unfold cdiv. pose proof (Z.div_mod (a + m - 1) m ltac:(lia)). pose proof (Z.mod_pos_bound (a + m - 1) m H). nia. Qed.
Lemma div_iff : forall n v, 0 <= n -> (n / 2 ^ 32 = v <-> v * 2 ^ 32 <= n < (v + 1) * 2 ^ 32).
Proof.
  intros n v H. pose proof (Z.div_mod n (2 ^ 32) ltac:(lia)). pose proof (Z.mod_pos_bound n (2 ^ 32) ltac:(lia)). split; [intros <-; lia|]. intros K. nia.
Qed.
