(** The level lock and the RW lock. *)
From Verif Require Import Common LevelLock_Model LevelLock_Proof.

(** C35: in every history all those who have been let in use the same level;
    a thread whose lock call is about to return has been let in. *)
Theorem levelLock_one_level : forall sched s,
  lrun sched linit = Ok s ->
  (forall a b, In a (own s) -> In b (own s) -> snd a = snd b) /\
  (forall t p x, lpcs s t = LWait p -> nth_error (slots s) p = Some x -> signaled x = true ->
     In t (map fst (own s))).
Proof.
  intros sched s H.
  apply (run_base (fun _ _ => True)) in H as (_ & H2 & _ & _ & H5).
  - split.
    + intros a b Ha Hb. rewrite Forall_forall in H2. rewrite (H2 a Ha), (H2 b Hb). auto.
    + intros t p x Hw Hx Hs. destruct (H5 t p) as (y & Ey & _ & Es); auto; [discriminate|].
      apply Es. congruence.
  - apply Forall_forall. intros [t c] _. red. cbn. destruct c; auto.
  - apply init_base.
Qed.
Print Assumptions levelLock_one_level.

(** C35: a writer of the RW lock is alone: whoever else is inside is the same
    thread, as writer. *)
Theorem rwLock_writer_alone : forall sched s t v u w,
  lrun (map rwOf sched) linit = Ok s ->
  In (t, v) (own s) -> v <> 0%Z -> In (u, w) (own s) -> u = t /\ w <> 0%Z.
Proof.
  intros sched s t v u w H Ht Hv Hu.
  apply (run_base (fun t v => v = 0 \/ v = Z.of_nat t + 1)%Z) in H as (_ & H2 & H3 & _ & _).
  - rewrite Forall_forall in H2, H3. pose proof (H2 _ Ht). pose proof (H2 _ Hu).
    pose proof (H3 _ Ht). pose proof (H3 _ Hu). cbn in *. lia.
  - apply Forall_forall. intros a Ha. apply in_map_iff in Ha as ((x & c) & <- & _). red. cbn. destruct c; cbn; auto.
  - apply init_base.
Qed.
Print Assumptions rwLock_writer_alone.

Example rwLock_case :
  exists s, lrun (map rwOf [(0, RLockRead); (1, RLockRead); (2, RLockWrite); (0, RUnlock); (0, RUnlock); (1, RUnlock); (1, RUnlock); (2, RUnlock)]) linit = Ok s
    /\ own s = [(2, 3%Z)].
Proof. eexists. split; vm_compute; reflexivity. Qed.
Example rwLock_case2 :
  exists s, lrun (map rwOf [(0, RLockRead); (1, RLockRead); (2, RTryWrite)]) linit = Ok s /\ map fst (own s) = [1; 0].
Proof. eexists. split; vm_compute; reflexivity. Qed.

(** C102: as long as nobody cancels, no call goes wrong, and those who waited
    are let in in the order in which they began to wait; those that still wait
    are exactly the rest. *)
Theorem levelLock_in_order : forall sched,
  Forall (fun tc => snd tc <> LCancel) sched ->
  exists s q, lrun sched linit = Ok s /\ parked s = freed s ++ q /\
    forall t p, lpcs s t = LWait p ->
      (exists x, nth_error (slots s) p = Some x /\ thr x = t /\ signaled x = true /\ In t (map fst (own s))) \/ In p q.
Proof.
  intros sched Hc. destruct (run_q sched linit []) as (s & q & E & Hq); auto using init_q.
  exists s, q. split; auto. split; [apply Hq|]. intros t p Hw.
  destruct Hq as (_&_&_&_&_&H6). destruct (H6 t p Hw) as (x & Ex & El & Et & Es).
  destruct (signaled x) eqn:K; auto. left. exists x. split; auto. repeat split; auto.
  eapply levelLock_one_level; eauto.
Qed.
Print Assumptions levelLock_in_order.

Example levelLock_in_order_case :
  exists s, lrun [(0, LLock 5); (1, LLock 6); (2, LLock 7); (3, LLock 6); (0, LUnlock); (0, LUnlock)] linit = Ok s
    /\ parked s = [1; 2; 3] /\ freed s = [1] /\ own s = [(1, 6%Z)].
Proof. eexists. split; vm_compute; auto. Qed.

(** C36: a lock that nobody had to wait for is granted at once when nobody is
    inside ... *)
Theorem levelLock_free_if_never_waited : forall sched s t v,
  lrun sched linit = Ok s -> parked s = [] -> own s = [] -> lpcs s t = LIdle ->
  exists s', lexec (t, LTry v) s = Ok s' /\ own s' = [(t, v)].
Proof.
  intros sched s t v H Hp Ho Hi. pose proof H as H0.
  apply run_quiet in H as [_ H]; auto. specialize (H Hp).
  apply (run_base (fun _ _ => True)) in H0 as (H1 & _); [| |apply init_base].
  - rewrite Ho in H1. cbn in H1.
    cbn. rewrite Hi. eexists. split; [reflexivity|]. unfold tryLock, mustWait. rewrite H, <- H1, andb_comm. cbn.
    rewrite Ho. auto.
  - apply Forall_forall. intros [u c] _. red. cbn. destruct c; auto.
Qed.
Print Assumptions levelLock_free_if_never_waited.

Example levelLock_free_case :
  exists s, lrun [(0, LLock 5); (1, LTry 5); (0, LUnlock); (0, LUnlock); (1, LUnlock)] linit = Ok s
    /\ parked s = [] /\ own s = [] /\ lpcs s 0 = LIdle.
Proof. eexists. split; vm_compute; auto. Qed.

(** C36 is false otherwise: after one thread has waited, and all have left,
    nobody ever gets the lock again. *)
Theorem levelLock_usable_refuted :
  exists sched s,
    lrun sched linit = Ok s /\ own s = [] /\ (forall t, lpcs s t = LIdle) /\ qtop s = None /\
    forall more s', lrun more s = Ok s' -> own s' = [].
Proof.
  exists [(0, LLock 1%Z); (0, LLock 1%Z); (1, LLock 2%Z); (0, LUnlock); (1, LLock 2%Z); (1, LUnlock)].
  eexists. split; [vm_compute; reflexivity|].
  split; [reflexivity|]. split; [|split; [reflexivity|]].
  - intros [|[|t]]; reflexivity.
  - intros more s' H.
    match type of H with lrun more ?s = _ =>
      assert (E : lrun [(0, LLock 1%Z); (0, LLock 1%Z); (1, LLock 2%Z); (0, LUnlock); (1, LLock 2%Z); (1, LUnlock)] linit = Ok s)
        by (vm_compute; reflexivity);
      apply (run_base (fun _ _ => True)) in E; [|repeat constructor|apply init_base]
    end.
    eapply run_stuck in H; eauto; [apply H|]. split; cbn; auto. discriminate.
Qed.
Print Assumptions levelLock_usable_refuted.

(** C103: cancelAsync of the last one in the queue leaves a pointer to it; the
    next lock call writes through it. *)
Theorem levelLock_cancel_refuted :
  exists sched, lrun sched linit = Undef.
Proof.
  exists [(0, LLock 1%Z); (1, LLock 2%Z); (2, LLock 3%Z); (2, LCancel); (3, LLock 4%Z)].
  vm_compute. reflexivity.
Qed.
Print Assumptions levelLock_cancel_refuted.
