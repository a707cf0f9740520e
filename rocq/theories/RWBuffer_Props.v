(** Properties of the item buffers. *)
From Verif Require Import Common RWBuffer_Spec RWBuffer_Model RWBuffer_Proof IOBuffer_Proof.
Open Scope nat_scope.

(** C79: writing through a buffer is transparent for every sink, as long as items are written
    into a full buffer only when the sink takes whole blocks: what reached the sink is a
    beginning of what was written, all of it after a flush, and unwrite takes back the last item
    written, if it did not leave the buffer yet; directly after a write it always works. *)
Theorem C79_write_buffer : forall (A : Type) (content : list A) (o : sink A) (os : list (wop A)),
  0 < length content -> whole_blocks (newW content o) os ->
  exists r w out f, wrun (newW content o) os = Ok (r, w) /\
    w_run (received o, false) os r (out, f) /\
    (exists pending, out = received (wsnk w) ++ pending) /\
    exists w', flush w = Ok w' /\ received (wsnk w') = out.
Proof.
  intros A content o os Hc Hw.
  destruct (wrun_ok os _ _ (newW_inv content o Hc) Hw) as (r & w & [out f] & E & R & I).
  exists r, w, out, f. split; [exact E|]. split; [exact R|]. split.
  - destruct I as (_ & _ & _ & H & _). eauto.
  - destruct (flush_ok w (out, f) I) as (w' & E' & _ & R' & _). exists w'. auto.
Qed.
Print Assumptions C79_write_buffer.

(** A sink that always takes whole blocks (or throws, which ends the history) allows all
    histories. *)
Theorem C79_whole_sink : forall (A : Type) (content : list A) (got : list A) (os : list (wop A)),
  0 < length content ->
  exists r w out f, wrun (newW content (Snk got [])) os = Ok (r, w) /\
    w_run (got, false) os r (out, f) /\
    (exists pending, out = received (wsnk w) ++ pending) /\
    exists w', flush w = Ok w' /\ received (wsnk w') = out.
Proof.
  intros A content got os Hc. apply (C79_write_buffer A content (Snk got []) os); auto.
  eapply whole_all; [apply newW_inv; auto|auto].
Qed.
Print Assumptions C79_whole_sink.

Example C79_example :
  let w := newW [0;0;0] (Snk [] [0;1;0]) in
  let os := [WWrite 1; WWrite 2; WWrite 3; WUnwrite; WFlush; WUnwrite; WWrite 4; WWrite 5; WFlush] in
  whole_blocks w os /\
  exists w', wrun w os =
    Ok ([WUnit; WUnit; WUnit; WItem 3; WUnit; WNoItems; WUnit; WUnit; WUnit], w') /\
    received (wsnk w') = [1;2;4;5].
Proof. split; [vm_compute; intuition|]. eexists. split; vm_compute; reflexivity. Qed.

(** C26 (refuted): when the sink takes only a part of a full buffer, items are lost.  For
    every buffer of at least three items: after the sink took one item of the full buffer, all
    but one of the others are overwritten. *)
Theorem C26_partial_acceptance_refuted : forall (A : Type) (x0 x1 x2 y : A) (l content : list A),
  length content = length (x0 :: x1 :: x2 :: l) ->
  exists r w,
    wrun (newW content (Snk [] [0])) (map WWrite (x0 :: x1 :: x2 :: l) ++ [WWrite y; WFlush]) =
      Ok (r, w) /\ received (wsnk w) = [x0; x1; y].
Proof. intros. apply partial_write; auto. Qed.
Print Assumptions C26_partial_acceptance_refuted.

Example C26_example :
  exists r w, wrun (newW [0;0;0;0] (Snk [] [0]))
    (map WWrite [1;2;3;4] ++ [WWrite 5; WFlush]) = Ok (r, w) /\ received (wsnk w) = [1;2;5].
Proof. do 2 eexists. split; vm_compute; reflexivity. Qed.

(** C27: reading through a buffer is transparent: for every source, buffer size and history
    of hasItems, getNext, peek, unget(item) and unget() calls, the answers are those of the
    plain sequence of items, until an item is asked for although none remains. *)
Theorem C27_read_buffer : forall (A : Type) (content : list A) (i : source A) (os : list (rop A)),
  0 < length content ->
  exists os1 os2 r s t,
    os = os1 ++ os2 /\ rrun (newR content i) os1 = Ok (r, s) /\
    r_run (RS [] (rest i) false) os1 r t /\ (os2 = [] \/ asks_too_much t os2).
Proof.
  intros A content i os Hc.
  destruct (rrun_any os _ _ (newR_inv content i Hc)) as (os1 & os2 & r & s & t & E & R & T & _ & H).
  exists os1, os2, r, s, t. auto.
Qed.
Print Assumptions C27_read_buffer.

(** With a source that throws at its end the same holds for all histories: then asking for
    an item that does not exist throws, too. *)
Theorem C27_read_buffer_throwing : forall (A : Type) (content : list A) (i : source A) (os : list (rop A)),
  0 < length content -> throws i = true ->
  exists r s t, rrun (newR content i) os = Ok (r, s) /\ r_run (RS [] (rest i) false) os r t.
Proof.
  intros A content i os Hc Ht.
  destruct (rrun_throws os _ _ (newR_inv content i Hc) Ht) as (r & s & t & E & R & _).
  exists r, s, t. auto.
Qed.
Print Assumptions C27_read_buffer_throwing.

Example C27_example :
  exists s, rrun (newR [0;0;0] (Src [1;2;3;4;5] [0;5] true))
    [RHas; RNext; RPeek; RNext; RBack; RUnget 9; RBack; RNext; RNext; RNext; RNext; RBack; RUnget 7; RNext; RNext; RNext; RHas; RNext] =
    Ok ([RBool true; RItem 1; RItem 2; RItem 2; RDone; RDone; RNoSpace; RItem 9; RItem 2; RItem 3;
         RItem 4; RDone; RNoSpace; RItem 4; RItem 5; RNoItems; RBool false; RNoItems], s).
Proof. eexists. vm_compute. reflexivity. Qed.

(** C80 (refuted): peek(n) should return the n-th item from the current position.  After one
    item was read, peek(0) returns this item again instead of the next one. *)
Theorem C80_peek_n_refuted : forall (A : Type) (c0 c1 x y : A) (content l : list A) (t : bool) (fuel : nat),
  exists s s1,
    rrun (newR (c0 :: c1 :: content) (Src (x :: y :: l) [] t)) [RNext] = Ok ([RItem x], s) /\
    peek s = Ok (RItem y, s) /\
    peekAt (S fuel) s 0 = Ok (RItem x, s1).
Proof.
  intros A c0 c1 x y content l t fuel.
  unfold newR. cbn [rrun rstep]. unfold getNext, rempty. cbn [rrd rwr Nat.leb].
  unfold load. cbn [rarr rwr length Nat.sub Nat.eqb]. unfold loadTail, blockRead.
  cbn [rarr rwr rsrc rest chunks limit length Nat.sub firstn skipn Nat.add].
  set (d := firstn (length content) l).
  assert (Hd : length d <= length content) by (unfold d; rewrite firstn_length; lia).
  replace (S (S (length d)) <=? S (S (length content))) with true by (symmetry; apply Nat.leb_le; lia).
  cbn [obind]. unfold getItem. cbn [rarr rrd nth_error app obind].
  do 2 eexists. split; [reflexivity|]. split.
  - reflexivity.
  - unfold peekAt. cbn [rarr length Nat.leb peekLoop rwr rrd Nat.sub obind].
    unfold getItem. cbn [rarr nth_error app obind]. reflexivity.
Qed.
Print Assumptions C80_peek_n_refuted.

Example C80_example :
  exists s, rrun (newR [0;0;0;0] (Src [1;2;3] [] true)) [RNext; RNext] = Ok ([RItem 1; RItem 2], s) /\
    exists s1, peekAt 5 s 0 = Ok (RItem 1, s1).
Proof. eexists. split; [vm_compute; reflexivity|]. eexists. vm_compute. reflexivity. Qed.

(** C81 (refuted): getNext behind the last item should throw.  With a source whose blockRead
    returns 0 at its end (a file stream) it returns a leftover of the buffer. *)
Theorem C81_end_refuted : forall (A : Type) (c0 c1 x : A) (content : list A),
  exists s, rrun (newR (c0 :: c1 :: content) (Src [x] [] false)) [RNext; RNext] =
    Ok ([RItem x; RItem c1], s).
Proof.
  intros. eexists. cbn. destruct content; reflexivity.
Qed.
Print Assumptions C81_end_refuted.

(** C82 (refuted): peek(n) should throw when the source has no n-th item.  With such a source
    it never returns. *)
Theorem C82_peek_hang_refuted : forall (A : Type) (content l : list A) (n fuel : nat),
  length l <= n -> n < length content ->
  peekAt fuel (newR content (Src l [] false)) n = NoFuel.
Proof.
  intros A content l n fuel Hl Hn. unfold peekAt.
  cbn [newR rarr]. destruct (Nat.leb_spec (length content) n); [lia|].
  assert (E : peekLoop fuel (newR content (Src l [] false)) n = NoFuel); [|rewrite E; auto].
  destruct fuel; [reflexivity|]. destruct l as [|x l].
  { apply peek_hang; cbn; auto; lia. }
  unfold newR. cbn [peekLoop rwr rrd Nat.sub Nat.leb]. unfold load. cbn [rarr rwr].
  destruct (Nat.eqb_spec (length content - 0) 0); [lia|].
  unfold loadTail, blockRead. cbn [rarr rwr rsrc rest chunks limit Nat.add].
  rewrite Nat.sub_0_r. cbn [throws tl].
  rewrite (firstn_all2 (x :: l)), (skipn_all2 (x :: l)) by (cbn [length] in *; lia).
  destruct (Nat.leb_spec (length (x :: l)) (length content)); [|lia]. cbn [obind].
  apply peek_hang; cbn [rarr rrd rwr rsrc rest throws]; auto.
  cbn [firstn]. rewrite !app_length, skipn_length. simpl length in *. lia.
Qed.
Print Assumptions C82_peek_hang_refuted.

Example C82_example : peekAt 1000 (newR [0;0;0;0] (Src [1;2] [] false)) 3 = NoFuel.
Proof. vm_compute. reflexivity. Qed.
