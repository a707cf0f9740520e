(** Properties of asynchronous procedure calls. *)
From Verif Require Import Common Apc_Spec Apc_Model Apc_Proof.

(** C537: the call that queues the only message returns whatever the server does at the
    same time, and tells the caller to notify the server *)
Theorem apc_first : forall sched, 2 <= length (filter isP sched) ->
  In (Queued 0 true) (log (run sched (init 1))) /\ queue (run sched (init 1)) = Some 0.
Proof.
  intros sched L. assert (O : one (init 1) 0) by (left; cbn; auto 10).
  pose proof (one_run sched _ _ O) as H. rewrite Nat.add_0_r in H.
  destruct H as [(A & _)|[(A & _)|(_ & _ & B & C)]]; [lia|lia|auto].
Qed.
Print Assumptions apc_first.
Example apc_first_example : log (run [Srv false; P 0; Srv false; P 0; Srv false; Srv false] (init 1)) = [Queued 0 true].
Proof. reflexivity. Qed.

(** C538: whatever the threads do and how long they run, only one call that queues a
    message ever returns: the loop of every other call goes on for ever *)
Theorem apc_second_refuted : forall n sched, length (queued (log (run sched (init n)))) <= 1.
Proof. intros n sched. apply (run_inv sched _ (inv_init n)). Qed.
Print Assumptions apc_second_refuted.
Example apc_second_example : forall k, exists s, run ([P 0; P 0; P 1] ++ repeat (P 1) k) (init 2) = s /\
  log s = [Queued 0 true] /\ step (P 1) s <> None.
Proof.
  intros k. eexists. split; [reflexivity|]. cbn [app run]. cbn.
  match goal with |- log (run _ ?s0) = _ /\ _ =>
    assert (H : forall j s, (exists q, queue s = Some q) -> prod s = [PRet; PLoop (Some 0)] -> log s = [Queued 0 true] ->
      log (run (repeat (P 1) j) s) = [Queued 0 true] /\ step (P 1) (run (repeat (P 1) j) s) <> None) end.
  { induction j as [|j IH]; intros s (q & Eq) A B.
    - cbn. split; auto. rewrite A. cbn. unfold cas. cbn. rewrite Eq. discriminate.
    - cbn [repeat run]. cbn [step]. rewrite A. cbn [nth_error stepP]. unfold cas. cbn [setNext queue fst snd]. rewrite Eq.
      apply IH; destruct (oeqb (Some q) (Some 0)); cbn; eauto. }
  apply H; cbn; eauto.
Qed.

(** C539: no message is ever run *)
Theorem apc_never_run_refuted : forall n sched, ran (log (run sched (init n))) = [].
Proof. intros n sched. apply (run_inv sched _ (inv_init n)). Qed.
Print Assumptions apc_never_run_refuted.
Example apc_never_run_example : exists s, run [P 0; P 0; Srv false; Srv false; Srv false] (init 1) = s /\
  cons_ s = ELoop 0 /\ queued (log s) = [0] /\ step (Srv false) s = Some s.
Proof. eexists. repeat split. Qed.

(** C540: rejecting a message that was queued goes on for ever: it is rejected as many
    times as one likes *)
Theorem apc_reject_refuted : forall k, log (run ([P 0; P 0; Srv true] ++ repeat (Srv true) k) (init 1)) = Queued 0 true :: repeat (Rejected 0) k.
Proof.
  intros k. cbn [app run].
  assert (H : forall j s, cons_ s = RLoop (Some 0) -> log (run (repeat (Srv true) j) s) = log s ++ repeat (Rejected 0) j).
  { induction j as [|j IH]; intros s E; cbn [repeat run]; [rewrite app_nil_r; auto|].
    cbn [step]. unfold stepC. rewrite E. rewrite IH by reflexivity. cbn. rewrite <- app_assoc. reflexivity. }
  rewrite H by reflexivity. reflexivity.
Qed.
Print Assumptions apc_reject_refuted.

(** C541: sleep of an APCThread never returns, it calls itself; sleep of other threads
    returns what the system says *)
Theorem apc_sleep_refuted : forall fuel sys, sleep fuel true sys = NoFuel /\ (2 <= fuel -> sleep fuel false sys = Ok sys).
Proof.
  intros fuel sys. split.
  - assert (H : forall f, sleep f true sys = NoFuel /\ impSleep f true sys = NoFuel).
    { induction f as [|f (A & B)]; [split; reflexivity|]. split; cbn [sleep impSleep]; [exact B|rewrite A; reflexivity]. }
    apply H.
  - intros L. destruct fuel as [|[|f]]; [lia|lia|reflexivity].
Qed.
Print Assumptions apc_sleep_refuted.
