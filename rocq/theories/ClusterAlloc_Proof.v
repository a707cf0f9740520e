From Coq Require Import ZArith Permutation.
From Verif Require Import Common ClusterAlloc_Spec ClusterAlloc_Model.
Local Open Scope Z_scope.

(** ** sizes *)
Lemma land_round n k : 0 <= k -> Z.land n (Z.lnot (Z.ones k)) = n / 2 ^ k * 2 ^ k.
Proof.
  intros K. rewrite <- Z.ldiff_land, Z.ldiff_ones_r by auto.
  rewrite Z.shiftl_mul_pow2, Z.shiftr_div_pow2 by auto. reflexivity.
Qed.

Lemma bksize_ok sz : 1 <= sz -> sz <= objSize2bksize sz.
Proof.
  intros L. unfold objSize2bksize.
  assert (C : exists k, 0 <= k <= 3 /\ shrink 4 sz 8 = 2 ^ k).
  { cbn [shrink]. change (8 / 2) with 4. change (4 / 2) with 2. change (2 / 2) with 1.
    destruct (Z.ltb_spec sz 8); [|exists 3; split; [lia|reflexivity]].
    destruct (Z.ltb_spec sz 4); [|exists 2; split; [lia|reflexivity]].
    destruct (Z.ltb_spec sz 2); [|exists 1; split; [lia|reflexivity]].
    destruct (Z.ltb_spec sz 1); [lia|]. exists 0; split; [lia|reflexivity]. }
  destruct C as (k & K & ->).
  assert (P : 1 <= 2 ^ k <= 8).
  { split; [change 1 with (2 ^ 0); apply Z.pow_le_mono_r; lia|change 8 with (2 ^ 3); apply Z.pow_le_mono_r; lia]. }
  assert (M : (2 ^ k - 1) mod 2 ^ 64 = 2 ^ k - 1).
  { apply Z.mod_small. change (2 ^ 64) with 18446744073709551616. lia. }
  rewrite M. replace (2 ^ k - 1) with (Z.ones k) at 2 by (rewrite Z.ones_equiv; lia).
  rewrite land_round by lia. pose proof (Z.div_mod (sz + (2 ^ k - 1)) (2 ^ k) ltac:(lia)) as D.
  pose proof (Z.mod_pos_bound (sz + (2 ^ k - 1)) (2 ^ k) ltac:(lia)) as B. nia.
Qed.

Lemma hdr_ok sz0 : 1 <= sz0 -> sz0 <= hdr sz0.
Proof.
  intros L. unfold hdr. change 7 with (Z.ones 3). rewrite land_round by lia. change (2 ^ 3) with 8. change (Z.ones 3) with 7.
  pose proof (Z.div_mod (sz0 + 7) 8 ltac:(lia)). pose proof (Z.mod_pos_bound (sz0 + 7) 8 ltac:(lia)). lia.
Qed.

Lemma firstCnt_ok sz0 bk : 1 <= sz0 <= 254 -> 1 <= bk -> 1 <= firstCnt sz0 bk <= 255.
Proof.
  intros S B. unfold firstCnt.
  assert (X : 0 <= (sz0 + bk / 2) / bk <= 254).
  { split; [apply Z.div_pos; [|lia]; pose proof (Z.div_pos bk 2 ltac:(lia) ltac:(lia)); lia|].
    apply Z.lt_succ_r. apply Z.div_lt_upper_bound; [lia|].
    destruct (Z.eq_dec bk 1) as [->|N]; [change (1 / 2) with 0; lia|].
    pose proof (Z.div_mod bk 2 ltac:(lia)). pose proof (Z.mod_pos_bound bk 2 ltac:(lia)). nia. }
  rewrite Z.mod_small by lia. lia.
Qed.

(** ** one cluster: [fl] is the list of its free blocks *)
Fixpoint chain (bytes : list Z) (f : Z) (fl : list Z) : Prop :=
  match fl with
  | [] => f = 255
  | x :: fl' => f = x /\ exists y, nth_error bytes (Z.to_nat x) = Some y /\ chain bytes y fl'
  end.

Record CI (c : cluster) (fl : list Z) : Prop := {
  ciCount : 1 <= cCount c <= 255;
  ciLen : length (cBytes c) = Z.to_nat (cCount c);
  ciChain : chain (cBytes c) (cFirst c) fl;
  ciNoDup : NoDup fl;
  ciRange : forall x, In x fl -> 0 <= x < cCount c;
  ciUsed : cUsed c = cCount c - Z.of_nat (length fl);
  ciSize : 1 <= cSize c }.

Lemma NoDup_range (fl : list Z) n : 0 <= n -> NoDup fl -> (forall x, In x fl -> 0 <= x < n) -> Z.of_nat (length fl) <= n.
Proof.
  intros N D R.
  assert (I : incl fl (map Z.of_nat (seq 0 (Z.to_nat n)))).
  { intros x Hx. apply in_map_iff. exists (Z.to_nat x). apply R in Hx. split; [lia|]. apply in_seq. lia. }
  pose proof (NoDup_incl_length D I) as L. rewrite map_length, seq_length in L. lia.
Qed.
Lemma CI_len c fl : CI c fl -> Z.of_nat (length fl) <= cCount c.
Proof. intros H. apply NoDup_range; [pose proof (ciCount _ _ H); lia|apply (ciNoDup _ _ H)|apply (ciRange _ _ H)]. Qed.

Lemma NoDup_full (fl : list Z) n i : 0 <= n -> NoDup fl -> (forall x, In x fl -> 0 <= x < n) ->
  Z.of_nat (length fl) = n -> 0 <= i < n -> In i fl.
Proof.
  intros N D R L I. destruct (in_dec Z.eq_dec i fl) as [|X]; auto. exfalso.
  assert (Z.of_nat (length (i :: fl)) <= n).
  { apply NoDup_range; auto. - constructor; auto. - intros x [<-|Hx]; auto. }
  cbn [length] in H. lia.
Qed.

Lemma CI_full c fl : CI c fl -> isFull c = match fl with [] => true | _ => false end.
Proof.
  intros H. unfold isFull. pose proof (ciChain _ _ H) as Ch. destruct fl as [|x fl]; cbn [chain] in Ch.
  - rewrite Ch. reflexivity.
  - destruct Ch as [-> _]. pose proof (ciRange _ _ H x (or_introl eq_refl)). pose proof (ciCount _ _ H).
    apply Z.eqb_neq. lia.
Qed.
Lemma CI_empty c fl : CI c fl -> (isEmpty c = true <-> forall i, 0 <= i < cCount c -> In i fl).
Proof.
  intros H. unfold isEmpty. rewrite Z.eqb_eq, (ciUsed _ _ H). pose proof (ciCount _ _ H). pose proof (CI_len _ _ H). split.
  - intros E i Hi. apply NoDup_full with (cCount c); auto; try lia; [apply (ciNoDup _ _ H)|apply (ciRange _ _ H)].
  - intros A. assert (X : (length (map Z.of_nat (seq 0 (Z.to_nat (cCount c)))) <= length fl)%nat).
    { apply NoDup_incl_length.
      - apply FinFun.Injective_map_NoDup; [intros a b; apply Nat2Z.inj|apply seq_NoDup].
      - intros x Hx. apply in_map_iff in Hx as (k & <- & Hk). apply in_seq in Hk. apply A. lia. }
    rewrite map_length, seq_length in X. lia.
Qed.

Lemma chain_upd bytes i v : forall fl f, ~ In (Z.of_nat i) fl -> (forall x, In x fl -> 0 <= x) -> chain bytes f fl -> chain (upd bytes i v) f fl.
Proof.
  induction fl as [|x fl IH]; intros f N P C; cbn [chain] in *; auto. destruct C as [E (y & Hy & C)]. split; auto.
  exists y. split.
  - rewrite nth_error_upd_ne; auto. intros X. apply N. left. specialize (P x (or_introl eq_refl)). lia.
  - apply IH; auto.
    + intros X. apply N. right; auto.
    + intros z Hz. apply P. right; auto.
Qed.

Section Cluster.
Variable sz0 : Z.
Hypothesis Sz : 1 <= sz0.

Lemma CI_new a count bk : 1 <= count <= 255 -> 1 <= bk ->
  CI (newCluster a count bk) (map Z.of_nat (seq 0 (Z.to_nat count))).
Proof.
  intros C B. unfold newCluster. split; cbn [cCount cBytes cFirst cUsed cSize]; auto.
  - unfold initBytes. rewrite map_length, seq_length. auto.
  - assert (X : forall n k, (k + n = Z.to_nat count)%nat ->
      chain (initBytes count) (if (n =? 0)%nat then 255 else Z.of_nat k) (map Z.of_nat (seq k n))).
    { induction n as [|n IH]; intros k E; cbn [seq map chain]; [reflexivity|]. cbn [Nat.eqb]. split; auto.
      exists (if (Z.of_nat k =? count - 1) then 255 else Z.of_nat k + 1). split.
      - unfold initBytes. rewrite Nat2Z.id, nth_error_map.
        rewrite (nth_error_nth' _ 0%nat) by (rewrite seq_length; lia). rewrite seq_nth by lia. reflexivity.
      - specialize (IH (S k) ltac:(lia)). destruct n as [|n].
        + destruct (Z.eqb_spec (Z.of_nat k) (count - 1)); [exact IH|lia].
        + destruct (Z.eqb_spec (Z.of_nat k) (count - 1)); [lia|].
          replace (Z.of_nat k + 1) with (Z.of_nat (S k)) by lia. exact IH. }
    specialize (X (Z.to_nat count) 0%nat ltac:(lia)). destruct (Z.to_nat count) eqn:E; [lia|exact X].
  - apply FinFun.Injective_map_NoDup; [intros x y; apply Nat2Z.inj|apply seq_NoDup].
  - intros x Hx. apply in_map_iff in Hx as (k & <- & Hk). apply in_seq in Hk. lia.
  - rewrite map_length, seq_length. lia.
Qed.

Definition sameC (c c' : cluster) : Prop :=
  cBase c' = cBase c /\ cSize c' = cSize c /\ cCount c' = cCount c /\ cNext c' = cNext c.

Lemma makeAlloc_ok c x fl : CI c (x :: fl) ->
  exists c', makeAlloc sz0 c = Ok (mapIndex sz0 c x, c') /\ CI c' fl /\ sameC c c'.
Proof.
  intros H. unfold makeAlloc. rewrite (CI_full _ _ H). pose proof (ciChain _ _ H) as Ch. cbn [chain] in Ch.
  destruct Ch as [E (y & Hy & Ch)]. rewrite E, Hy. eexists. split; [reflexivity|].
  pose proof (CI_len _ _ H) as L. pose proof (ciCount _ _ H) as Cn. pose proof (ciUsed _ _ H) as U. cbn [length] in L, U.
  split; [|repeat split]. split; cbn [cCount cBytes cFirst cUsed cSize]; try apply H.
  - exact Ch.
  - pose proof (ciNoDup _ _ H) as N. apply NoDup_cons_iff in N. tauto.
  - intros z Hz. apply (ciRange _ _ H). right; auto.
  - rewrite Z.mod_small; lia.
Qed.

Lemma offset_ok c i : 1 <= cSize c ->
  (mapIndex sz0 c i - (cBase c + hdr sz0)) / cSize c = i /\ (mapIndex sz0 c i - (cBase c + hdr sz0)) mod cSize c = 0.
Proof.
  intros B. unfold mapIndex. replace (cBase c + hdr sz0 + i * cSize c - (cBase c + hdr sz0)) with (i * cSize c) by lia.
  split; [apply Z.div_mul; lia|apply Z.mod_mul; lia].
Qed.

Lemma poke_ok c fl i v : CI c fl -> 0 <= i < cCount c -> ~ In i fl ->
  exists c', pokeBlock sz0 c (mapIndex sz0 c i) v = Ok c' /\ CI c' fl /\ sameC c c' /\
    cFirst c' = cFirst c /\ cUsed c' = cUsed c /\ nth_error (cBytes c') (Z.to_nat i) = Some v.
Proof.
  intros H R N. unfold pokeBlock. pose proof (ciSize _ _ H) as B. destruct (offset_ok c i B) as [E1 E2]. rewrite E1, E2.
  assert (O : 0 <= mapIndex sz0 c i - (cBase c + hdr sz0)) by (unfold mapIndex; nia).
  replace (0 <=? _) with true by (symmetry; apply Z.leb_le; auto).
  replace (i <? cCount c) with true by (symmetry; apply Z.ltb_lt; lia). cbn [andb Z.eqb].
  eexists. split; [reflexivity|]. pose proof (ciLen _ _ H) as L. split.
  - split; cbn [cCount cBytes cFirst cUsed cSize]; try apply H.
    + rewrite upd_length. auto.
    + apply chain_upd; [rewrite Z2Nat.id by lia; auto| |apply H]. intros x Hx. apply (ciRange _ _ H) in Hx. lia.
  - repeat split. cbn [cBytes]. apply nth_error_upd_eq. lia.
Qed.

Lemma makeDealloc_ok c fl i : CI c fl -> 0 <= i < cCount c -> ~ In i fl ->
  exists c', makeDealloc sz0 c (mapIndex sz0 c i) (cSize c) = Ok c' /\ CI c' (i :: fl) /\ sameC c c'.
Proof.
  intros H R N. unfold makeDealloc, mapAddress. pose proof (ciSize _ _ H) as B. pose proof (ciCount _ _ H) as Cn.
  destruct (offset_ok c i B) as [E1 _]. rewrite E1, Z.mod_small by lia.
  destruct (poke_ok c fl i (cFirst c) H R N) as (c1 & Q & H1 & (S1 & S2 & S3 & S4) & F & U & Nth). rewrite Q. cbn [obind].
  eexists. split; [reflexivity|]. split; [|repeat split; auto].
  pose proof (CI_len _ _ H1) as L. pose proof (ciUsed _ _ H1) as U1.
  assert (L2 : Z.of_nat (length (i :: fl)) <= cCount c).
  { apply NoDup_range; [lia|constructor; [auto|apply (ciNoDup _ _ H)]|]. intros x [<-|Hx]; auto. apply (ciRange _ _ H); auto. }
  cbn [length] in L2.
  split; cbn [cCount cBytes cFirst cUsed cSize]; try apply H1.
  - cbn [chain]. split; auto. exists (cFirst c). split; auto. rewrite <- F. apply (ciChain _ _ H1).
  - constructor; [auto|apply (ciNoDup _ _ H1)].
  - intros x [<-|Hx]; [lia|apply (ciRange _ _ H1); auto].
  - cbn [length]. rewrite Z.mod_small; lia.
Qed.

Lemma isMyPtr_ok c i : 1 <= cSize c -> 0 <= i < cCount c -> isMyPtr sz0 c (mapIndex sz0 c i) (cSize c) = true.
Proof. intros B R. unfold isMyPtr, mapIndex. apply andb_true_iff. rewrite Z.leb_le, Z.ltb_lt. nia. Qed.

(** leaks *)
Lemma freeIdx_ok bytes : forall fl f seen fuel, chain bytes f fl -> NoDup fl -> (forall x, In x fl -> 0 <= x < 255) ->
  (forall x, In x fl -> ~ In x seen) -> (length fl <= fuel)%nat -> freeIdx fuel bytes seen f = Ok (rev fl ++ seen).
Proof.
  induction fl as [|x fl IH]; intros f seen fuel C N R D F; cbn [chain] in C.
  - subst f. destruct fuel; reflexivity.
  - destruct C as [-> (y & Hy & C)]. destruct fuel as [|k]; [cbn in F; lia|]. cbn [freeIdx].
    pose proof (R x (or_introl eq_refl)). destruct (Z.eqb_spec x 255); [lia|].
    replace (existsb (Z.eqb x) seen) with false.
    + rewrite Hy. apply NoDup_cons_iff in N as [N1 N2]. rewrite (IH y (x :: seen) k); auto.
      * cbn [rev]. rewrite <- app_assoc. reflexivity.
      * intros z Hz. apply R. right; auto.
      * intros z Hz [->|X]; [contradiction|]. apply (D z); [right; auto|auto].
      * cbn in F. lia.
    + symmetry. apply not_true_is_false. rewrite existsb_exists. intros (z & Hz & E). apply Z.eqb_eq in E. subst z.
      apply (D x); [left; auto|auto].
Qed.

Lemma leaksC_ok c fl : CI c fl -> exists l, leaksC sz0 c = Ok l /\ NoDup l /\
  forall p, In p l <-> exists i, p = mapIndex sz0 c i /\ 0 <= i < cCount c /\ ~ In i fl.
Proof.
  intros H. unfold leaksC. pose proof (ciCount _ _ H) as Cn. pose proof (ciSize _ _ H) as B.
  rewrite (freeIdx_ok (cBytes c) fl); [|apply H|apply H| |intros x _ []|pose proof (CI_len _ _ H); lia].
  2:{ intros x Hx. apply (ciRange _ _ H) in Hx. lia. }
  cbn [obind]. rewrite app_nil_r. eexists. split; [reflexivity|].
  assert (Ex : forall i, existsb (Z.eqb i) (rev fl) = true <-> In i fl).
  { intros i. rewrite existsb_exists. split.
    - intros (z & Hz & E). apply Z.eqb_eq in E. subst z. apply in_rev in Hz. auto.
    - intros Hi. exists i. split; [apply -> in_rev; auto|apply Z.eqb_refl]. }
  split.
  - apply FinFun.Injective_map_NoDup; [intros x y E; unfold mapIndex in E; nia|]. apply NoDup_filter.
    apply FinFun.Injective_map_NoDup; [intros x y; apply Nat2Z.inj|apply seq_NoDup].
  - intros p. rewrite in_map_iff. split.
    + intros (i & <- & Hi). apply filter_In in Hi as [Hi E]. apply in_map_iff in Hi as (k & <- & Hk). apply in_seq in Hk.
      exists (Z.of_nat k). split; auto. split; [lia|]. intros X. apply Ex in X. rewrite X in E. discriminate.
    + intros (i & -> & R & N). exists i. split; auto. apply filter_In. split.
      * apply in_map_iff. exists (Z.to_nat i). split; [lia|]. apply in_seq. lia.
      * apply negb_true_iff, not_true_is_false. rewrite Ex. auto.
Qed.
End Cluster.
