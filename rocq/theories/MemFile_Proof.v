(** Lemmas about the files in memory. *)
From Verif Require Import Common MemFile_Spec MemFile_Model.
Local Open Scope N_scope.

Lemma pow64 : 2 ^ 64 = 18446744073709551616.
Proof. reflexivity. Qed.

Lemma wrap_small n : n < 2 ^ 64 -> wrap n = n.
Proof. intros. unfold wrap. apply N.mod_small; auto. Qed.

Lemma sub64_le a b : b <= a -> a < 2 ^ 64 -> sub64 a b = a - b.
Proof.
  intros H1 H2. unfold sub64, wrap. rewrite pow64 in *.
  replace (a + 18446744073709551616 - b) with (a - b + 1 * 18446744073709551616) by lia.
  rewrite N.mod_add by lia. apply N.mod_small. lia.
Qed.

Lemma sub64_lt a b : a < b -> b < 2 ^ 64 -> sub64 a b = a + 2 ^ 64 - b.
Proof. intros H1 H2. unfold sub64, wrap. rewrite pow64 in *. apply N.mod_small. lia. Qed.

Lemma flen_app {A} (a b : list A) : flen (a ++ b) = flen a + flen b.
Proof. unfold flen. rewrite app_length. lia. Qed.

Lemma flen_firstn {A} n (l : list A) : flen (firstn n l) = N.min (N.of_nat n) (flen l).
Proof. unfold flen. rewrite firstn_length. lia. Qed.

Lemma flen_skipn {A} n (l : list A) : flen (skipn n l) = flen l - N.of_nat n.
Proof. unfold flen. rewrite skipn_length. lia. Qed.

Lemma flen_repeat {A} n (x : A) : flen (repeat x n) = N.of_nat n.
Proof. unfold flen. rewrite repeat_length. lia. Qed.

Lemma flen_map {A B} (f : A -> B) l : flen (map f l) = flen l.
Proof. unfold flen. rewrite map_length. lia. Qed.

Lemma resize_ok c n : resize c n = with_size c n.
Proof.
  unfold resize, with_size. unfold flen.
  destruct (N.ltb_spec (N.of_nat (length c)) n).
  - rewrite firstn_all2 by lia. f_equal. f_equal. lia.
  - destruct (N.ltb_spec n (N.of_nat (length c))).
    + replace (N.to_nat n - length c)%nat with 0%nat by lia. rewrite app_nil_r. auto.
    + replace (N.to_nat n - length c)%nat with 0%nat by lia.
      rewrite app_nil_r, firstn_all2 by lia. auto.
Qed.

Lemma flen_with_size c n : flen (with_size c n) = n.
Proof. unfold with_size. rewrite flen_app, flen_firstn, flen_repeat. unfold flen. lia. Qed.

Lemma flen_put c p d : flen (put_at c p d) = N.max (p + flen d) (flen c).
Proof.
  unfold put_at. rewrite !flen_app, flen_with_size, flen_map, flen_skipn. unfold flen. lia.
Qed.

Lemma skipn_nil_le {A} n (l : list A) : (length l <= n)%nat -> skipn n l = [].
Proof. intros. apply skipn_all2; auto. Qed.

Lemma repeat_firstn {A} (x : A) n k : firstn n (repeat x k) = repeat x (Nat.min n k).
Proof. revert k; induction n; intros [|k]; simpl; auto. f_equal; auto. Qed.

(** growing to the end of the new data and copying it in is putting it *)
Lemma put_ok c p d :
  p + flen d < 2 ^ 64 ->
  copyIn (if flen c <=? wrap (p + flen d) then resize c (wrap (p + flen d)) else c) p d
  = Ok (put_at c p d).
Proof.
  intros H. rewrite wrap_small by auto. unfold copyIn, put_at.
  destruct (N.leb_spec (flen c) (p + flen d)).
  - rewrite resize_ok. rewrite flen_with_size.
    destruct (N.leb_spec (p + flen d) (p + flen d)); [|lia]. f_equal.
    rewrite (skipn_nil_le _ c) by (unfold flen in *; lia).
    rewrite (skipn_nil_le _ (with_size c _)); cycle 1.
    { pose proof (flen_with_size c (p + flen d)) as E. unfold flen in *. lia. }
    f_equal. unfold with_size. unfold flen in *.
    rewrite firstn_app, firstn_firstn, firstn_length, repeat_firstn. f_equal.
    + f_equal. lia.
    + f_equal. lia.
  - destruct (N.leb_spec (p + flen d) (flen c)); [|lia]. f_equal. f_equal.
    unfold with_size. unfold flen in *.
    replace (N.to_nat p - length c)%nat with 0%nat by lia. rewrite app_nil_r. auto.
Qed.

Lemma bytes_min c p n :
  p <= flen c -> bytes_at c p (N.min n (flen c - p)) = bytes_at c p n.
Proof.
  intros H. unfold bytes_at. destruct (N.min_spec n (flen c - p)) as [[_ ->]|[Hm ->]]; auto.
  rewrite !firstn_all2; auto; rewrite skipn_length; unfold flen in *; lia.
Qed.

Lemma bytes_out c p n : flen c <= p -> bytes_at c p n = [].
Proof.
  intros H. unfold bytes_at. rewrite skipn_nil_le by (unfold flen in *; lia).
  apply firstn_nil.
Qed.

Lemma readAt_ok c p a ro off n :
  flen c < 2 ^ 64 -> off + n < 2 ^ 64 -> readAt (MF c p a ro) n off = Ok (bytes_at c off n).
Proof.
  intros Hc H. unfold readAt. cbn [filebuffer].
  destruct (N.leb_spec (flen c) off).
  - rewrite bytes_out by auto. auto.
  - rewrite wrap_small by auto. rewrite <- bytes_min by lia.
    assert (E : (if flen c <=? off + n then flen c else off + n) = off + N.min n (flen c - off)).
    { destruct (N.leb_spec (flen c) (off + n)); lia. }
    rewrite E. rewrite sub64_le by lia.
    replace (off + N.min n (flen c - off) - off) with (N.min n (flen c - off)) by lia.
    unfold copyOut. destruct (N.leb_spec (off + N.min n (flen c - off)) (flen c)); [|lia].
    reflexivity.
Qed.

Lemma read_ok c p a ro n :
  flen c < 2 ^ 64 -> p + n < 2 ^ 64 ->
  read (MF c p a ro) n = Ok (bytes_at c p n, MF c (p + flen (bytes_at c p n)) a ro).
Proof.
  intros Hc H. unfold read. cbn [filebuffer pos appendMode readOnly].
  destruct (N.leb_spec (flen c) p).
  - rewrite bytes_out by auto. change (flen (@nil cell)) with 0. rewrite N.add_0_r. auto.
  - rewrite wrap_small by auto. rewrite <- bytes_min by lia.
    assert (E : (if flen c <=? p + n then flen c else p + n) = p + N.min n (flen c - p)).
    { destruct (N.leb_spec (flen c) (p + n)); lia. }
    rewrite E. rewrite sub64_le by lia.
    replace (p + N.min n (flen c - p) - p) with (N.min n (flen c - p)) by lia.
    unfold copyOut. destruct (N.leb_spec (p + N.min n (flen c - p)) (flen c)); [|lia].
    cbn [obind]. unfold bytes_at. rewrite flen_firstn, flen_skipn.
    rewrite wrap_small by lia. do 4 f_equal. lia.
Qed.

Definition inv (s : list cell * N) : Prop := flen (fst s) < 2 ^ 64 /\ snd s < 2 ^ 64.

Lemma bytes_len c p n : flen (bytes_at c p n) <= n.
Proof. unfold bytes_at. rewrite flen_firstn. lia. Qed.

Lemma spec_inv s o : inv s -> fits_step s o -> inv (snd (fspec_step s o)).
Proof.
  destruct s as [c p]. unfold inv. cbn [fst snd]. intros [H1 H2] F.
  destruct o; cbn [fspec_step fits_step fst snd] in *; auto.
  - pose proof (bytes_len c p n). lia.
  - rewrite flen_put. lia.
  - rewrite flen_put. lia.
  - rewrite flen_with_size. lia.
  - split; [reflexivity|lia].
Qed.

Lemma step_ok c p ro o :
  inv (c, p) -> fits_step (c, p) o ->
  step (MF c p (Some false) ro) o =
  Ok (fst (fspec_step (c, p) o),
      MF (fst (snd (fspec_step (c, p) o))) (snd (snd (fspec_step (c, p) o))) (Some false) ro).
Proof.
  intros [H1 H2] F. cbn [fst snd] in *.
  destruct o; cbn [step fspec_step fits_step fst snd] in *; auto.
  - rewrite read_ok by auto. auto.
  - unfold peek. cbn [pos]. rewrite readAt_ok by auto. auto.
  - rewrite readAt_ok by auto. auto.
  - unfold write. cbn [appendMode filebuffer pos readOnly]. rewrite put_ok by auto. cbn [obind].
    rewrite wrap_small by auto. auto.
  - unfold writeAt. cbn [appendMode filebuffer pos readOnly]. rewrite put_ok by auto. auto.
  - unfold setSize. cbn [filebuffer pos appendMode readOnly]. rewrite resize_ok. auto.
Qed.

Lemma run_ok os c p ro :
  inv (c, p) -> fits (c, p) os ->
  run (MF c p (Some false) ro) os =
  Ok (fst (fspec_run (c, p) os),
      MF (fst (snd (fspec_run (c, p) os))) (snd (snd (fspec_run (c, p) os))) (Some false) ro).
Proof.
  revert c p; induction os as [|o os IH]; intros c p I F; [reflexivity|].
  cbn [run fspec_run fits] in *. destruct F as [F1 F2].
  rewrite step_ok by auto. cbn [obind].
  pose proof (spec_inv _ _ I F1) as I'.
  destruct (fspec_step (c, p) o) as [a [c' p']]. cbn [fst snd] in *.
  rewrite IH by auto. cbn [obind]. destruct (fspec_run (c', p') os) as [r [c'' p'']]. auto.
Qed.
