(** Properties of FastLock: all schedules of any number of threads. *)
From Verif Require Import Common FastLock_Model FastLock_Proof.

(** Schedules in [plain] contain no [CGive]: a thread that locked the lock is the
    one that unlocks it.  In [noExit] no thread ends. *)

(** C32: at most one thread is between a completed lock (or successful tryLock)
    and the moment its unlock releases the lock *)
Theorem C32_mutual_exclusion :
  forall (sched : list (nat * cmd)), Forall plain sched ->
  forall t1 t2, hasLock (pcs (run sched init) t1) = true ->
                hasLock (pcs (run sched init) t2) = true -> t1 = t2.
Proof.
  intros sched F t1 t2 H1 H2.
  destruct (run_inv sched _ _ inv_init F) as [q I].
  destruct (hasLock_holder _ _ _ I H1) as (h & w & -> & <-).
  destruct (hasLock_holder _ _ _ I H2) as (h' & w' & E & <-). injection E as -> ->. auto.
Qed.
Print Assumptions C32_mutual_exclusion.

(** thread 1 owns the lock while 2 and 3 wait in the queue *)
Example C32_example :
  let s := run [(1, CLock 0); (1, CPoke); (1, CLock 0); (1, CLock 0); (1, CLock 0);
                (2, CLock 5); (2, CLock 0); (2, CLock 0); (2, CLock 0); (2, CLock 0); (2, CLock 0);
                (3, CLock 5); (3, CLock 0); (3, CLock 0); (3, CLock 0); (3, CLock 0)] init in
  pcs s 1 = Crit /\ pcs s 2 = Halt 5 /\ pcs s 3 = Wait 5 /\ queue s = Some (3, 5).
Proof. repeat split. Qed.

(** C33: the threads get the lock in the order in which they entered the queue:
    the threads that got it so far are the first ones of those that entered *)
Theorem C33_arrival_order :
  forall (sched : list (nat * cmd)), Forall plain sched ->
  let s := run sched init in exists waiters, enq s = acq s ++ waiters.
Proof.
  intros sched F s. destruct (run_inv sched _ _ inv_init F) as [q I]. fold s in I.
  pose proof (v_body _ _ I) as B. destruct q as [|h w]; simpl in B.
  - destruct B as (_ & _ & ->). exists []. rewrite app_nil_r. auto.
  - destruct B as (_ & _ & _ & _ & ->). eauto.
Qed.
Print Assumptions C33_arrival_order.

(** and no waiter is left behind: when all threads are either outside or asleep
    with nobody having woken them, all of them are outside *)
Theorem C33_nobody_stranded :
  forall (sched : list (nat * cmd)), Forall plain sched ->
  let s := run sched init in
  (forall t, pcs s t = Idle \/ exists d, pcs s t = Halt d /\ tok s t = false) ->
  forall t, pcs s t = Idle.
Proof.
  intros sched F s H t. destruct (run_inv sched _ _ inv_init F) as [q I]. fold s in I.
  assert (q = []).
  { destruct q as [|h w]; auto. exfalso.
    pose proof (v_body _ _ I) as B. simpl in B. destruct B as (_ & _ & B3 & _).
    unfold holder in B3. destruct (H (fst h)) as [E|(d & E & Et)]; rewrite E in B3; auto.
    destruct B3 as [-> Eo].
    assert (Eh : h = (fst h, snd h)) by apply surjective_pairing. rewrite Eh in Eo.
    destruct (v_wake _ _ I _ _ Eo E) as [X|[u X]]; [congruence|].
    destruct (H u) as [Y|(e & Y & _)]; congruence. }
  subst q. destruct (H t) as [E|(d & E & _)]; auto.
  pose proof (v_out _ _ I t ltac:(simpl; auto)) as O. unfold outside in O. rewrite E in O. destruct O.
Qed.
Print Assumptions C33_nobody_stranded.

(** a thread that waited gets the lock by the unlock of the other one *)
Example C33_example :
  let s := run [(1, CLock 0); (1, CLock 0); (1, CLock 0); (1, CLock 0);
                (2, CLock 5); (2, CLock 0); (2, CLock 0); (2, CLock 0); (2, CLock 0); (2, CLock 0);
                (1, CUnlock); (1, CLock 0); (1, CLock 0); (1, CLock 0); (1, CLock 0); (1, CLock 0);
                (1, CLock 0); (1, CLock 0); (2, CLock 0); (2, CLock 0)] init in
  enq s = [1; 2] /\ acq s = [1; 2] /\ pcs s 1 = Idle /\ pcs s 2 = Crit.
Proof. repeat split. Qed.

(** C95: when no thread is in the lock, it is free: lock and tryLock get it at once *)
Theorem C95_idle_lock_is_free :
  forall (sched : list (nat * cmd)), Forall plain sched ->
  let s := run sched init in
  (forall t, pcs s t = Idle) ->
  forall t d, pcs (run [(t, CLock d); (t, CLock d); (t, CLock d); (t, CLock d)] s) t = Crit /\
              pcs (run [(t, CTry d); (t, CTry d); (t, CTry d)] s) t = Crit.
Proof.
  intros sched F s H t d. destruct (run_inv sched _ _ inv_init F) as [q I]. fold s in I.
  assert (Q : queue s = None).
  { pose proof (v_body _ _ I) as B. destruct q as [|h w]; simpl in B; [tauto|].
    destruct B as (_ & _ & B3 & _). unfold holder in B3. rewrite H in B3. tauto. }
  split; [apply idle_lock|apply idle_try]; auto.
Qed.
Print Assumptions C95_idle_lock_is_free.

Example C95_example :
  let s := run [(1, CLock 0); (1, CLock 0); (1, CLock 0); (1, CLock 0); (1, CUnlock); (1, CLock 0);
                (1, CLock 0); (1, CLock 0)] init in
  pcs s 1 = Idle /\ acq s = [1].
Proof. split; reflexivity. Qed.

(** C96: as long as no thread ends, the lock never touches a slot or a thread that
    no longer exists *)
Theorem C96_no_dangling_slot :
  forall (sched : list (nat * cmd)), Forall plain sched -> Forall noExit sched ->
  forall t, pcs (run sched init) t <> Crashed.
Proof.
  intros sched F N t E. destruct (run_inv sched _ _ inv_init F) as [q I].
  assert (G : forall u, pcs (run sched init) u <> Gone).
  { apply run_gone; auto. intros u. simpl. discriminate. }
  destruct (in_dec Nat.eq_dec t (map fst q)) as [Hi|Hi].
  - pose proof (v_body _ _ I) as B. destruct q as [|h w]; [destruct Hi|]. simpl in B.
    destruct B as (_ & _ & B3 & B4 & _). destruct Hi as [<-|Hi].
    + unfold holder in B3. rewrite E in B3. auto.
    + apply in_map_iff in Hi. destruct Hi as (a & <- & Ha). rewrite Forall_forall in B4.
      destruct (B4 a Ha); congruence.
  - pose proof (v_out _ _ I t Hi) as O. unfold outside in O. rewrite E in O.
    destruct O as [u Hu]. eapply G; eauto.
Qed.
Print Assumptions C96_no_dangling_slot.

Definition first_waits : list (nat * cmd) :=
  [(1, CLock 0); (1, CLock 0); (1, CLock 0); (1, CLock 0);
   (2, CLock 5); (2, CLock 0); (2, CLock 0); (2, CLock 0); (2, CLock 0)].

Example C96_example :
  Forall plain first_waits /\ Forall noExit first_waits /\ pcs (run first_waits init) 2 = Wait 5.
Proof. repeat split; repeat constructor. Qed.

(** C97: unlocking should be safe also when the next owner ends right after it
    used the lock; the unlocking thread then wakes up a thread that no longer
    exists *)
Theorem C97_wake_up_after_end_refuted :
  exists sched, Forall plain sched /\ pcs (run sched init) 2 = Gone /\
    pcs (run sched init) 1 = Crashed.
Proof.
  exists (first_waits ++
    [(1, CUnlock); (1, CUnlock); (1, CUnlock); (1, CUnlock); (1, CUnlock); (1, CUnlock); (1, CUnlock);
     (2, CLock 0); (2, CUnlock); (2, CUnlock); (2, CUnlock); (2, CUnlock); (2, CExit); (1, CUnlock)]).
  split; [repeat constructor|]. vm_compute. auto.
Qed.
Print Assumptions C97_wake_up_after_end_refuted.

(** C98: the lock may be unlocked by another thread (fastlock.h:75-80), so mutual
    exclusion should hold also when the ownership is handed over; but a thread
    that gave the lock away and locks it again gets it at once, as its new slot
    has the address of its old one: two threads own the lock *)
Theorem C98_hand_over_refuted :
  exists sched, pcs (run sched init) 2 = Crit /\ pcs (run sched init) 3 = Crit.
Proof.
  exists (first_waits ++
    [(1, CUnlock); (1, CUnlock); (1, CUnlock); (1, CUnlock); (1, CUnlock); (1, CUnlock); (1, CUnlock);
     (1, CUnlock); (2, CLock 0);    (* thread 2 owns the lock by its slot 5 *)
     (2, CGive 3);                  (* thread 3 will unlock it *)
     (2, CLock 5); (2, CLock 5); (2, CLock 5); (2, CLock 5); (2, CLock 5); (2, CLock 5)]).
  vm_compute. auto.
Qed.
Print Assumptions C98_hand_over_refuted.
