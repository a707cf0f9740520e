(** Files in memory: properties C25, C66 to C70. *)
From Verif Require Import Common MemFile_Spec MemFile_Model MemFile_Proof.
Local Open Scope N_scope.

(** C66.  After the append mode of a new file is switched off, every history of calls gives
    the answers of the array with a position, and leaves its content. *)
Theorem C66_memfile : forall os,
  fits ([], 0) os ->
  exists f, run (setAppendMode newMemFile false) os = Ok (fst (fspec_run ([], 0) os), f) /\
    filebuffer f = fst (snd (fspec_run ([], 0) os)) /\ pos f = snd (snd (fspec_run ([], 0) os)).
Proof.
  intros os F. unfold setAppendMode, newMemFile. cbn [filebuffer pos readOnly].
  rewrite run_ok; auto.
  - eexists. split; [reflexivity|]. auto.
  - split; reflexivity.
Qed.

(** C66.  What was written is read back: after any history, bytes written at a position are
    returned by a read at that position. *)
Theorem C66_write_read : forall os d off,
  fits ([], 0) (os ++ [FWriteAt d off]) ->
  exists f r n f', run (setAppendMode newMemFile false) os = Ok (r, f) /\
    writeAt f d off = Ok (n, f') /\ n = flen d /\
    readAt f' (flen d) off = Ok (map Some d).
Proof.
  intros os d off F.
  assert (H : fits ([], 0) os /\ off + flen d < 2 ^ 64 /\ inv (snd (fspec_run ([], 0) os))).
  { assert (I : inv ([], 0)) by (split; reflexivity). revert F I. generalize (@nil cell, 0).
    induction os as [|o os IH]; intros s F I.
    - simpl in F. destruct F as [F _]. split; [exact Logic.I|]. split; auto.
    - cbn [fits app fspec_run] in *. destruct F as [F1 F2].
      pose proof (spec_inv _ _ I F1) as I'.
      destruct (fspec_step s o) as [a s'] eqn:Es. cbn [snd] in *.
      destruct (IH _ F2 I') as (H1 & H2 & H3).
      destruct (fspec_run s' os) as [r s'']. cbn [snd] in *. auto. }
  destruct H as (H1 & H2 & I).
  unfold setAppendMode, newMemFile. cbn [filebuffer pos readOnly].
  rewrite run_ok; [|split; reflexivity|auto].
  destruct (fspec_run ([], 0) os) as [r [c p]]. cbn [fst snd] in *. destruct I as [I1 I2].
  cbn [fst snd] in *.
  do 4 eexists. split; [reflexivity|].
  unfold writeAt. cbn [filebuffer pos appendMode readOnly]. rewrite put_ok by auto. cbn [obind].
  split; [reflexivity|]. split; [reflexivity|].
  rewrite readAt_ok; auto.
  - f_equal. unfold bytes_at, put_at.
    pose proof (flen_with_size c off) as E.
    rewrite skipn_app. rewrite skipn_all2 by (unfold flen in *; lia).
    replace (N.to_nat off - length (with_size c off))%nat with 0%nat by (unfold flen in *; lia).
    cbn [skipn app]. rewrite firstn_app.
    rewrite firstn_all2 by (rewrite map_length; unfold flen; lia).
    replace (N.to_nat (flen d) - length (map Some d))%nat with 0%nat
      by (rewrite map_length; unfold flen; lia).
    cbn [firstn]. apply app_nil_r.
  - rewrite flen_put. lia.
Qed.

(** C25.  On a new file the first write reads a flag that nobody set: the behaviour is
    undefined, whatever the data. *)
Theorem C25_first_write_refuted : forall d, write newMemFile d = Undef.
Proof. reflexivity. Qed.

(** C67.  In append mode a write puts the data behind the content and keeps the content,
    whatever the position. *)
Theorem C67_append : forall c p ro d,
  flen c + flen d < 2 ^ 64 ->
  exists f', write (MF c p (Some true) ro) d = Ok (flen d, f') /\
    filebuffer f' = c ++ map Some d.
Proof.
  intros c p ro d H. unfold write. cbn [appendMode filebuffer pos readOnly].
  rewrite put_ok by auto. cbn [obind]. eexists. split; [reflexivity|]. cbn [filebuffer].
  unfold put_at, with_size. rewrite (skipn_nil_le _ c) by (unfold flen; lia).
  rewrite app_nil_r. f_equal. unfold flen. rewrite firstn_all2 by lia.
  replace (N.to_nat (N.of_nat (length c)) - length c)%nat with 0%nat by lia.
  simpl. apply app_nil_r.
Qed.

(** C68.  In append mode the position moves by the number of bytes written although they were
    written elsewhere: the bytes between are never read.  For every content of at least
    [flen d] unread bytes, the next read starts [flen d] bytes after the place where the
    reader stopped. *)
Theorem C68_append_position_refuted : forall c p ro d n,
  0 < flen d -> p + flen d <= flen c -> flen c + flen d < 2 ^ 64 -> p + flen d + n < 2 ^ 64 ->
  exists f' f'', write (MF c p (Some true) ro) d = Ok (flen d, f') /\
    read f' n = Ok (bytes_at (c ++ map Some d) (p + flen d) n, f'').
Proof.
  intros c p ro d n H0 H1 H2 H3.
  destruct (C67_append c p ro d H2) as (f' & E & Ef).
  exists f'. eexists. split; [exact E|].
  unfold write in E. cbn [appendMode filebuffer pos readOnly] in E. rewrite put_ok in E by auto.
  cbn [obind] in E. assert (E' : f' = MF (c ++ map Some d) (p + flen d) (Some true) ro).
  { assert (Hx : forall a b : memfile, Ok (flen d, a) = Ok (flen d, b) -> a = b) by congruence.
    apply Hx in E. subst f'. cbn [filebuffer] in Ef. rewrite Ef.
    rewrite wrap_small by lia. reflexivity. }
  rewrite E'. rewrite read_ok; auto. rewrite flen_app, flen_map. auto.
Qed.

(** C69.  Closing the output does not stop writing: canWrite says no, yet a write still
    changes the content. *)
Theorem C69_close_refuted : forall c p ro d,
  p + flen d < 2 ^ 64 ->
  let f := closeOutput (MF c p (Some false) ro) in
  canWrite f = false /\
  exists f', write f d = Ok (flen d, f') /\ filebuffer f' = put_at c p d.
Proof.
  intros c p ro d H. cbn zeta. split; [reflexivity|].
  unfold write, closeOutput. cbn [appendMode filebuffer pos readOnly]. rewrite put_ok by auto.
  eexists. split; reflexivity.
Qed.

(** C25.  A read whose end passes the largest 64 bit number reads outside of the buffer. *)
Theorem C25_read_overflow_refuted : forall c p a ro n,
  p < flen c -> flen c < 2 ^ 64 -> 2 ^ 64 <= p + n -> n < 2 ^ 64 ->
  p + n - 2 ^ 64 < flen c ->
  read (MF c p a ro) n = Undef.
Proof.
  intros c p a ro n H1 H2 H3 H4 H5. unfold read. cbn [filebuffer pos].
  destruct (N.leb_spec (flen c) p); [lia|].
  assert (E : wrap (p + n) = p + n - 2 ^ 64).
  { unfold wrap. rewrite pow64 in *.
    replace (p + n) with (p + n - 18446744073709551616 + 1 * 18446744073709551616) at 1 by lia.
    rewrite N.mod_add by lia. apply N.mod_small. lia. }
  rewrite E. destruct (N.leb_spec (flen c) (p + n - 2 ^ 64)); [lia|].
  rewrite sub64_lt by lia. unfold copyOut.
  destruct (N.leb_spec (p + (p + n - 2 ^ 64 + 2 ^ 64 - p)) (flen c)); [lia|]. reflexivity.
Qed.

(** C70.  Reading a text through the read-only file: reads return the bytes at the position
    and move it, as long as it is not set behind the end. *)
Theorem C70_textfile : forall t p n,
  p <= flen t -> flen t < 2 ^ 64 ->
  exists f', sread (SF t p) n = Ok (firstn (N.to_nat n) (skipn (N.to_nat p) t), f') /\
    speek (SF t p) n = Ok (firstn (N.to_nat n) (skipn (N.to_nat p) t)) /\
    f' = SF t (p + flen (firstn (N.to_nat n) (skipn (N.to_nat p) t))) /\
    spos f' <= flen t.
Proof.
  intros t p n H1 H2. unfold sread, speek. cbn [text spos]. rewrite sub64_le by auto.
  assert (E : (if flen t - p <? n then flen t - p else n) = N.min n (flen t - p)).
  { destruct (N.ltb_spec (flen t - p) n); lia. }
  rewrite E. unfold copyText.
  destruct (N.leb_spec (p + N.min n (flen t - p)) (flen t)); [|lia]. cbn [obind].
  assert (Ef : firstn (N.to_nat (N.min n (flen t - p))) (skipn (N.to_nat p) t) =
    firstn (N.to_nat n) (skipn (N.to_nat p) t)).
  { destruct (N.min_spec n (flen t - p)) as [[_ ->]|[Hm ->]]; auto.
    rewrite !firstn_all2; auto; rewrite skipn_length; unfold flen in *; lia. }
  rewrite Ef. eexists. split; [reflexivity|]. split; [reflexivity|].
  rewrite flen_firstn, flen_skipn. split.
  - rewrite wrap_small by lia. f_equal. lia.
  - cbn [spos]. rewrite wrap_small by lia. lia.
Qed.

(** C70.  Reads with an offset never leave the text. *)
Theorem C70_textfile_at : forall t p n off,
  flen t < 2 ^ 64 ->
  sreadAt (SF t p) n off = Ok (firstn (N.to_nat n) (skipn (N.to_nat off) t)).
Proof.
  intros t p n off H2. unfold sreadAt. cbn [text].
  destruct (N.ltb_spec (flen t) off).
  - rewrite skipn_nil_le by (unfold flen in *; lia). rewrite firstn_nil. reflexivity.
  - destruct (C70_textfile t off n) as (f' & _ & E & _); auto.
Qed.

(** C71.  After the position was set behind the end, any read of at least one byte reads
    outside of the text. *)
Theorem C71_seek_past_end_refuted : forall t p n,
  flen t < p -> p < 2 ^ 64 -> 0 < n -> n < 2 ^ 64 ->
  sread (ssetPos (SF t 0) p) n = Undef /\ scanRead (ssetPos (SF t 0) p) = false.
Proof.
  intros t p n H1 H2 H3 H4. unfold sread, ssetPos, scanRead. cbn [text spos].
  split.
  - rewrite sub64_lt by auto. unfold copyText.
    assert (E : (p + (if flen t + 2 ^ 64 - p <? n then flen t + 2 ^ 64 - p else n) <=? flen t) = false).
    { apply N.leb_gt. destruct (N.ltb_spec (flen t + 2 ^ 64 - p) n); lia. }
    rewrite E. reflexivity.
  - apply N.ltb_ge. lia.
Qed.

Print Assumptions C66_memfile.
Print Assumptions C66_write_read.
Print Assumptions C25_first_write_refuted.
Print Assumptions C67_append.
Print Assumptions C68_append_position_refuted.
Print Assumptions C69_close_refuted.
Print Assumptions C25_read_overflow_refuted.
Print Assumptions C70_textfile.
Print Assumptions C70_textfile_at.
Print Assumptions C71_seek_past_end_refuted.

(** A history with overwriting in the middle, a gap and truncation. *)
Example history_fits :
  fits ([], 0) [FWrite [1; 2; 3; 4]; FSetPos 1; FWrite [9; 8]; FRead 5; FSetPos 6; FWrite [7];
                FReadAt 10 0; FSetSize 2; FPeek 3; FSize].
Proof. cbn. repeat split; reflexivity. Qed.

Example history_answers :
  fst (fspec_run ([], 0) [FWrite [1; 2; 3; 4]; FSetPos 1; FWrite [9; 8]; FRead 5; FSetPos 6;
                FWrite [7]; FReadAt 10 0; FSetSize 2; FSetPos 0; FPeek 3; FSize])
  = [FNum 4; FDone; FNum 2; FBytes [Some 4]; FDone; FNum 1;
     FBytes [Some 1; Some 9; Some 8; Some 4; None; None; Some 7];
     FDone; FDone; FBytes [Some 1; Some 9]; FNum 2].
Proof. reflexivity. Qed.

Example append_skips :
  exists f f', write (MF [Some 1; Some 2; Some 3] 0 (Some true) false) [4; 5] = Ok (2, f) /\
    read f 9 = Ok ([Some 3; Some 4; Some 5], f').
Proof. do 2 eexists. split; reflexivity. Qed.

Example overflow_case : read (MF [Some 1; Some 2] 1 (Some false) false) (2 ^ 64 - 1) = Undef.
Proof. reflexivity. Qed.

Example past_end_case : sread (ssetPos (SF [65; 66] 0) 3) 1 = Undef.
Proof. reflexivity. Qed.
