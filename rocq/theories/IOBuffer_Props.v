(** Properties of the stream buffer. *)
From Verif Require Import Common IOBuffer_Spec IOBuffer_Model IOBuffer_Proof.
Open Scope nat_scope.

(** C72: as long as nothing is written while the buffer is completely filled with unread
    input, any sequence of reads, peeks, fetches, discards, writes and flushes behaves as if
    there were no buffer: the reader gets the bytes of the source in order, and what reached
    the sink is a beginning of what was written, all of it after a flush. *)
Theorem C72_iobuffer : forall (A : Type) (B : nat) (content : list A) (i : source A) (o : sink A)
    (reserve : nat) (os : list (iop A)),
  0 < B -> length content = B ->
  let s := reserveWrite B (newBuf B content i o) reserve in
  leaves_room B s os ->
  exists r s' inp out,
    run B s os = Ok (r, s') /\ io_run (rest i, received o) os r (inp, out) /\
    (exists pending, out = received (targetOut s') ++ pending) /\
    exists s'', flush B s' = Ok s'' /\ received (targetOut s'') = out.
Proof.
  intros A B content i o reserve os HB Hc s L.
  destruct (run_ok B os s (rest i) (received o)) as (r & s' & inp & out & E & R & I); auto.
  { apply reserve_inv, new_inv; auto. }
  exists r, s', inp, out. split; [exact E|]. split; [exact R|]. split.
  - destruct I as (_ & _ & _ & _ & _ & _ & _ & _ & _ & _ & _ & H & _). eauto.
  - destruct (intFlush_ok _ _ _ _ I) as (s'' & E' & _ & _ & R' & _). exists s''. auto.
Qed.
Print Assumptions C72_iobuffer.

Example C72_example :
  let s := reserveWrite 4 (newBuf 4 [0;0;0;0] (Src [1;2;3;4;5;6;7] [2;0] [true]) (Snk [] [0;1])) 0 in
  let os := [IRead 2; IWrite [10]; IPeek 3; IWrite [11;12]; IRead 1; IWrite [13;14;15]; ICanRead;
             IRead 9; IDiscard 1; IFlush; IRead 9; IRead 9] in
  leaves_room 4 s os /\
  exists s', run 4 s os =
    Ok ([IBytes [1;2]; ICount 1; IBytes [3;4]; ICount 2; IBytes [3]; ICount 3; IBool true;
         IBytes [4]; IUnit; IUnit; IBytes [5;6;7]; IBytes []], s').
Proof. split; [vm_compute; repeat split; lia|]. eexists. vm_compute. reflexivity. Qed.

(** C73: when room for writing was reserved (reserveWrite with at least 1, buffer of at
    least two bytes), any interleaving of reads, tests, discards, writes and flushes is
    transparent; no further condition is needed. *)
Theorem C73_reserved : forall (A : Type) (B : nat) (content : list A) (i : source A) (o : sink A)
    (reserve : nat) (os : list (iop A)),
  2 <= B -> length content = B -> 1 <= reserve ->
  Forall (fun o => match o with IFetch | IPeek _ => False | _ => True end) os ->
  let s := reserveWrite B (newBuf B content i o) reserve in
  exists r s' inp out,
    run B s os = Ok (r, s') /\ io_run (rest i, received o) os r (inp, out) /\
    (exists pending, out = received (targetOut s') ++ pending) /\
    exists s'', flush B s' = Ok s'' /\ received (targetOut s'') = out.
Proof.
  intros A B content i o reserve os HB Hc Hr F s.
  apply C72_iobuffer; [lia|auto|].
  assert (Hd : 1 <= B / 2) by (apply (Nat.div_le_mono 2 B 2); lia).
  apply room_kept with (rest i) (received o); auto.
  - apply reserve_inv, new_inv; auto; lia.
  - unfold reserveWrite. cbn [writeReserve]. destruct (Nat.ltb_spec (B / 2) reserve); lia.
  - cbn [reserveWrite newBuf rdpos rdend]. lia.
Qed.
Print Assumptions C73_reserved.

Example C73_example :
  let s := reserveWrite 4 (newBuf 4 [0;0;0;0] (Src [1;2;3;4;5] [] []) (Snk [] [])) 1 in
  exists s', run 4 s [ICanRead; IWrite [9]; IWrite [8]; IRead 5; IFlush] =
    Ok ([IBool true; ICount 1; ICount 1; IBytes [1;2;3]; IUnit], s') /\
    received (targetOut s') = [9;8].
Proof. eexists. split; vm_compute; reflexivity. Qed.

(** C74 (refuted): without a reserve, writing after the input filled the whole buffer
    destroys unread input: the reader gets the byte just written. *)
Theorem C74_write_over_input_refuted : forall (A : Type) (B : nat) (content inp : list A) (x : A)
    (o : sink A),
  2 <= B -> length content = B -> B <= length inp ->
  exists s', run B (newBuf B content (Src inp [] []) o) [ICanRead; IWrite [x]; IRead 1] =
    Ok ([IBool true; ICount 1; IBytes [x]], s').
Proof.
  intros A B content inp x o HB Hc Hi.
  assert (Hf : length (firstn B inp) = B) by (rewrite firstn_length; lia).
  unfold run, step, newBuf, canRead.
  cbn [rdpos rdend eof]. rewrite Nat.ltb_irrefl.
  unfold intFetch, intFlush. cbn [eof wrbeg wrpos]. rewrite Nat.ltb_irrefl.
  cbn [obind writeReserve targetIn srcRead chunks limit rest buff].
  unfold srcRead. cbn [chunks limit rest]. rewrite Nat.sub_0_r.
  rewrite copyIn_ok by lia. cbn [obind].
  unfold adjustWritePos.
  cbn [buff rdpos wrpos rdend wrbeg eof outputClosed writeReserve targetIn targetOut].
  rewrite Hf. cbn [Nat.add]. rewrite Nat.sub_diag.
  replace (0 <? 0) with false by reflexivity. rewrite andb_false_r.
  replace (B =? 0) with false by (symmetry; apply Nat.eqb_neq; lia). cbn [negb].
  cbn [write].
  unfold getWriteSpace. cbn [rdpos wrpos rdend wrbeg].
  replace (0 <? 0) with false by reflexivity. cbn [andb].
  replace (B <? 0) with false by (symmetry; apply Nat.ltb_ge; lia). cbn [obind].
  rewrite Nat.sub_0_r.
  replace (B =? 0) with false by (symmetry; apply Nat.eqb_neq; lia).
  cbn [length Nat.eqb]. replace (B <=? 1) with false by (symmetry; apply Nat.leb_gt; lia).
  cbn [andb]. replace (1 <? B) with true by (symmetry; apply Nat.ltb_lt; lia).
  cbn [firstn buff wrpos].
  assert (Hb : length (blit content 0 (firstn B inp)) = B) by (rewrite blit_length; lia).
  set (c := blit content 0 (firstn B inp)) in *.
  rewrite copyIn_ok by (cbn [length]; lia). cbn [obind].
  cbn [read rdpos rdend]. replace (0 <? B) with true by (symmetry; apply Nat.ltb_lt; lia).
  rewrite Nat.sub_0_r. replace (1 <? B) with true by (symmetry; apply Nat.ltb_lt; lia).
  cbn [buff]. rewrite copyOut_ok by (rewrite blit_length by (cbn [length]; lia); lia).
  cbn [obind].
  change (0 + 1) with (0 + length [x]) at 1.
  rewrite seg_blit_app by (cbn [length]; lia). rewrite seg_empty by lia.
  eexists. reflexivity.
Qed.
Print Assumptions C74_write_over_input_refuted.

Example C74_example :
  exists s', run 4 (newBuf 4 [0;0;0;0] (Src [1;2;3;4;5] [] []) (Snk [] [])) [ICanRead; IWrite [9]; IRead 4] =
    Ok ([IBool true; ICount 1; IBytes [9;2;3;4]], s').
Proof. eexists. vm_compute. reflexivity. Qed.

(** C75: bytes put back after a flush are read next, followed by the rest of the input, and
    the output is not disturbed; when they fit below the reading position, putBack works. *)
Theorem C75_putback : forall (A : Type) (B : nat) (content : list A) (i : source A) (o : sink A)
    (reserve : nat) (os : list (iop A)) (seq : list A) (os' : list (iop A)) r s1 s2,
  0 < B -> length content = B ->
  let s := reserveWrite B (newBuf B content i o) reserve in
  leaves_room B s os ->
  run B s os = Ok (r, s1) -> flush B s1 = Ok s2 -> length seq < rdpos s2 ->
  exists s3 inp out,
    io_run (rest i, received o) os r (inp, out) /\ putBack B s2 seq = Ok s3 /\
    (leaves_room B s3 os' ->
     exists r' s4 inp' out', run B s3 os' = Ok (r', s4) /\
       io_run (seq ++ inp, out) os' r' (inp', out') /\
       exists s5, flush B s4 = Ok s5 /\ received (targetOut s5) = out').
Proof.
  intros A B content i o reserve os seq os' r s1 s2 HB Hc s L E1 E2 Hs.
  destruct (run_ok B os s (rest i) (received o)) as (r' & s1' & inp & out & E & R & I); auto.
  { apply reserve_inv, new_inv; auto. }
  rewrite E in E1. injection E1 as <- <-.
  destruct (intFlush_ok _ _ _ _ I) as (s2' & E' & I2 & W2 & _).
  unfold flush in E2. rewrite E' in E2. injection E2 as <-.
  destruct (putBack_ok _ _ _ _ seq I2 W2 Hs) as (s3 & E3 & I3).
  exists s3, inp, out. split; [exact R|]. split; [exact E3|]. intros L'.
  destruct (run_ok B os' s3 _ _ I3 L') as (q & s4 & inp' & out' & E4 & R4 & I4).
  exists q, s4, inp', out'. split; [exact E4|]. split; [exact R4|].
  destruct (intFlush_ok _ _ _ _ I4) as (s5 & E5 & _ & _ & R5 & _). exists s5. auto.
Qed.
Print Assumptions C75_putback.

Example C75_example :
  let s := reserveWrite 4 (newBuf 4 [0;0;0;0] (Src [1;2;3;4;5] [] []) (Snk [] [])) 1 in
  exists s1 s2 s3 s4, run 4 s [IRead 2; IWrite [9]] = Ok ([IBytes [1;2]; ICount 1], s1) /\
    flush 4 s1 = Ok s2 /\ length [7;8] < rdpos s2 /\ putBack 4 s2 [7;8] = Ok s3 /\
    leaves_room 4 s3 [IRead 3] /\ run 4 s3 [IRead 3] = Ok ([IBytes [7;8;3]], s4).
Proof.
  do 4 eexists. split; [vm_compute; reflexivity|]. split; [vm_compute; reflexivity|].
  split; [vm_compute; lia|]. split; [vm_compute; reflexivity|]. split; vm_compute; auto.
Qed.

(** C76 (refuted): it is promised that one byte can always be put back after reading.  After
    the first byte of a new stream was read, putting it back fails. *)
Theorem C76_putback_one_refuted : forall (A : Type) (B : nat) (content inp : list A) (x : A)
    (o : sink A),
  0 < B -> length content = B ->
  exists s', run B (newBuf B content (Src (x :: inp) [] []) o) [IRead 1] = Ok ([IBytes [x]], s') /\
    forall y, putBack B s' [y] = Throw.
Proof.
  intros A B content inp x o HB Hc.
  destruct B as [|B]; [lia|].
  unfold run, step, newBuf. cbn [read rdpos rdend eof]. rewrite Nat.ltb_irrefl.
  unfold intFetch, intFlush. cbn [eof wrbeg wrpos]. rewrite Nat.ltb_irrefl.
  cbn [obind writeReserve targetIn buff].
  unfold srcRead. cbn [chunks limit rest]. rewrite Nat.sub_0_r. cbn [firstn].
  set (d := x :: firstn B inp).
  assert (Hd : length d <= S B) by (unfold d; cbn [length]; rewrite firstn_length; lia).
  rewrite copyIn_ok by lia. cbn [obind]. unfold adjustWritePos.
  cbn [buff rdpos wrpos rdend wrbeg eof outputClosed writeReserve targetIn targetOut Nat.add].
  replace (0 <? length d) with true by (unfold d; reflexivity).
  set (k := if 1 <? length d - 0 then 1 else length d - 0).
  assert (Hk : k = 1).
  { unfold k, d. cbn [length]. destruct (Nat.ltb_spec 1 (S (length (firstn B inp)) - 0)); lia. }
  rewrite Hk. rewrite copyOut_ok by (rewrite blit_length by lia; lia). cbn [obind].
  eexists. split.
  - reflexivity.
  - intros y. unfold putBack. cbn [rdpos rdend length Nat.add].
    replace (1 <? 1) with false by reflexivity.
    destruct (_ <? 1); reflexivity.
Qed.
Print Assumptions C76_putback_one_refuted.

Example C76_example :
  exists s', run 4 (newBuf 4 [0;0;0;0] (Src [1;2;3] [] []) (Snk [] [])) [IRead 1] = Ok ([IBytes [1]], s')
    /\ putBack 4 s' [1] = Throw.
Proof. eexists. split; vm_compute; reflexivity. Qed.

(** C77 (refuted): putting bytes back must not change what was written.  With pending output
    behind the reading position it does: the third byte written is replaced. *)
Theorem C77_putback_output_refuted : forall (A : Type) (z b c d e f x : A),
  let s := reserveWrite 4 (newBuf 4 [z;z;z;z] (Src [b] [] []) (Snk [] [])) 2 in
  exists s1 s2 s3,
    run 4 s [IRead 1; IWrite [c;d;e]; IWrite [f]] = Ok ([IBytes [b]; ICount 3; ICount 1], s1) /\
    putBack 4 s1 [x] = Ok s2 /\
    flush 4 s2 = Ok s3 /\ received (targetOut s3) = [c;d;x;f].
Proof.
  intros. do 3 eexists. split; [vm_compute; reflexivity|].
  split; [vm_compute; reflexivity|]. split; vm_compute; reflexivity.
Qed.
Print Assumptions C77_putback_output_refuted.

(** C78 (refuted): peek must not report more bytes than are there.  With size zero and [k]
    buffered bytes it returns [2^64 - k]. *)
Theorem C78_peek_count_refuted : forall (A : Type) (B : nat) (content : list A) (i : source A) (o : sink A)
    reserve os r s1,
  0 < B -> (N.of_nat B < 2 ^ 64)%N -> length content = B ->
  let s := reserveWrite B (newBuf B content i o) reserve in
  leaves_room B s os -> run B s os = Ok (r, s1) -> 0 < getInputLength s1 ->
  exists s2, peekCount B s1 = Ok ((2 ^ 64 - N.of_nat (getInputLength s1))%N, s2).
Proof.
  intros A B content i o reserve os r s1 HB H64 Hc s L E Hg.
  destruct (run_ok B os s (rest i) (received o)) as (r' & s1' & inp & out & E' & R & I); auto.
  { apply reserve_inv, new_inv; auto. }
  rewrite E in E'. injection E' as <- <-.
  destruct I as (_ & _ & H3 & H4 & _).
  unfold getInputLength in *. unfold peekCount, canRead.
  destruct (Nat.ltb_spec (rdpos s1) (rdend s1)); [|lia]. cbn [obind].
  eexists. do 2 f_equal. rewrite Nat2N.inj_sub. rewrite N.mod_small; lia.
Qed.
Print Assumptions C78_peek_count_refuted.

Example C78_example :
  let s := reserveWrite 4 (newBuf 4 [0;0;0;0] (Src [1;2;3] [] []) (Snk [] [])) 0 in
  leaves_room 4 s [IRead 1] /\
  exists s1 s2, run 4 s [IRead 1] = Ok ([IBytes [1]], s1) /\ getInputLength s1 = 2 /\
    peekCount 4 s1 = Ok (18446744073709551614%N, s2).
Proof.
  split; [vm_compute; auto|]. do 2 eexists. split; [vm_compute; reflexivity|].
  split; vm_compute; reflexivity.
Qed.
