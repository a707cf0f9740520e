(** Properties of MicroLock: all schedules of any number of threads. *)
From Verif Require Import Common MicroLock_Spec MicroLock_Model MicroLock_Proof.

(** C513: at most one thread is between the return of the constructor of its
    Synchronized<MicroLock> and the moment its destructor gives the lock up *)
Theorem micro_exclusion :
  forall (sched : list (nat * cmd)) t1 t2,
  inside (pcs (run sched init) t1) = true -> inside (pcs (run sched init) t2) = true -> t1 = t2.
Proof.
  intros sched t1 t2 H1 H2.
  destruct (run_inv sched _ _ inv_init) as [q I].
  destruct (inside_holder _ _ _ I H1) as (h & w & -> & <-).
  destruct (inside_holder _ _ _ I H2) as (h' & w' & E & <-). injection E as -> ->. auto.
Qed.
Print Assumptions micro_exclusion.

(** thread 1 is inside while 2 and 3 wait in the queue *)
Definition three : list (nat * cmd) :=
  [(1, CLock 0); (1, CPoke); (1, CLock 0); (1, CLock 0); (1, CLock 0);
   (2, CLock 5); (2, CLock 0); (2, CLock 0); (2, CLock 0); (2, CLock 0); (2, CLock 0);
   (3, CLock 5); (3, CLock 0); (3, CLock 0); (3, CLock 0); (3, CLock 0)].
Example micro_exclusion_example :
  let s := run three init in
  pcs s 1 = Crit 0 /\ pcs s 2 = Halt 5 /\ pcs s 3 = Wait 5 /\ top s = Some (3, 5) /\
  next s (2, 5) = Some (1, 0) /\ inside (pcs s 1) = true.
Proof. repeat split. Qed.

(** C514: what happened is always a history of a lock with a first come, first
    served queue, and the situation after that history is the one of the
    threads: the one inside is inside, those who wait are in the queue *)
Theorem micro_arrival_order :
  forall (sched : list (nat * cmd)),
  let s := run sched init in
  exists who line, follow fresh (hist s) = Some (who, line) /\ NoDup line /\
    forall t, (who = Some t <-> inside (pcs s t) = true) /\ (In t line <-> queued (pcs s t) = true).
Proof.
  intros sched s. destruct (run_inv sched _ _ inv_init) as [q I]. fold s in I.
  exists (fst (sitOf s q)), (snd (sitOf s q)). rewrite (v_hist _ _ I), <- surjective_pairing.
  split; auto. split.
  - pose proof (v_nodup _ _ I) as ND. unfold sitOf. destruct q as [|h w]; [constructor|].
    destruct (inside (pcs s (fst h))); cbn [snd]; auto. inversion ND; auto.
  - intros t. apply sit_meaning. auto.
Qed.
Print Assumptions micro_arrival_order.

(** the second waits and gets the lock by the destructor of the first *)
Definition handed : list (nat * cmd) :=
  three ++ [(1, CUnlock); (1, CUnlock); (1, CUnlock); (1, CUnlock); (1, CUnlock); (1, CUnlock); (1, CUnlock);
            (1, CUnlock); (2, CLock 0); (2, CLock 0)].
Example micro_arrival_order_example :
  let s := run handed init in
  hist s = [Lines 1; Gets 1; Lines 2; Lines 3; Frees 1; Gets 2] /\
  follow fresh (hist s) = Some (Some 2, [3]) /\ pcs s 1 = Idle /\ pcs s 2 = Crit 5 /\
  follow fresh [Lines 1; Gets 1; Lines 2; Lines 3; Frees 1; Gets 3] = None /\
  follow fresh [Lines 1; Gets 1; Lines 2; Gets 2] = None.
Proof. repeat split. Qed.

(** C515: no waiting thread is left behind: when all threads are either without
    an object or asleep with nobody having woken them, none is asleep *)
Theorem micro_nobody_stranded :
  forall (sched : list (nat * cmd)),
  let s := run sched init in
  (forall t, pcs s t = Idle \/ exists d, pcs s t = Halt d /\ tok s t = false) ->
  forall t, pcs s t = Idle.
Proof.
  intros sched s H t. destruct (run_inv sched _ _ inv_init) as [q I]. fold s in I.
  assert (q = []).
  { destruct q as [|h w]; auto. exfalso.
    pose proof (v_body _ _ I) as B. simpl in B. destruct B as (_ & _ & [B3 B5] & _).
    destruct (H (fst h)) as [E|(d & E & Et)]; rewrite E in B5; auto. subst d.
    rewrite (surjective_pairing h) in B3.
    destruct (v_wake _ _ I _ _ B3 E) as [X|(u & f & X)]; [congruence|].
    destruct (H u) as [Y|(e & Y & _)]; congruence. }
  subst q. destruct (H t) as [E|(d & E & _)]; auto.
  pose proof (v_out _ _ I t ltac:(simpl; auto)) as O. unfold outside in O. rewrite E in O. destruct O.
Qed.
Print Assumptions micro_nobody_stranded.

(** all three threads went through and are idle *)
Example micro_nobody_stranded_example :
  let go t := (t, CUnlock) in
  let s := run (handed ++ repeat (go 2) 8 ++ repeat (go 3) 12) init in
  pcs s 1 = Idle /\ pcs s 2 = Idle /\ pcs s 3 = Idle /\ top s = None /\
  hist s = [Lines 1; Gets 1; Lines 2; Lines 3; Frees 1; Gets 2; Frees 2; Gets 3; Frees 3].
Proof. repeat split. Qed.

(** C516: when no thread has an object, the lock is free: a constructor gets it
    without waiting *)
Theorem micro_idle_is_free :
  forall (sched : list (nat * cmd)),
  let s := run sched init in
  (forall t, pcs s t = Idle) ->
  forall t d, pcs (run [(t, CLock d); (t, CLock d); (t, CLock d); (t, CLock d)] s) t = Crit d.
Proof.
  intros sched s H t d. destruct (run_inv sched _ _ inv_init) as [q I]. fold s in I.
  apply free_lock; auto. pose proof (v_body _ _ I) as B. destruct q as [|h w]; auto. exfalso.
  simpl in B. destruct B as (_ & _ & [_ B] & _). rewrite (H (fst h)) in B. auto.
Qed.
Print Assumptions micro_idle_is_free.

Example micro_idle_is_free_example :
  let go t := (t, CUnlock) in
  let s := run (handed ++ repeat (go 2) 8 ++ repeat (go 3) 12) init in
  pcs (run [(3, CLock 5); (3, CLock 5); (3, CLock 5); (3, CLock 5)] s) 3 = Crit 5.
Proof. repeat split. Qed.

(** C517: as long as no thread ends, the lock never touches an object that does
    not exist *)
Theorem micro_no_dangling :
  forall (sched : list (nat * cmd)), Forall noExit sched ->
  forall t, pcs (run sched init) t <> Crashed.
Proof.
  intros sched N t E. destruct (run_inv sched _ _ inv_init) as [q I].
  assert (G : forall u, pcs (run sched init) u <> Gone).
  { apply run_gone; auto. intros u. simpl. discriminate. }
  destruct (in_dec Nat.eq_dec t (map fst q)) as [Hi|Hi].
  - pose proof (v_body _ _ I) as B. destruct q as [|h w]; [destruct Hi|]. simpl in B.
    destruct B as (_ & _ & [_ B3] & B4). destruct Hi as [<-|Hi].
    + rewrite E in B3. destruct B3.
    + apply in_map_iff in Hi. destruct Hi as (a & Ea & Ha). rewrite Forall_forall in B4.
      destruct (B4 a Ha) as [X|X]; rewrite Ea in X; congruence.
  - pose proof (v_out _ _ I t Hi) as O. unfold outside in O. rewrite E in O. destruct O as [u O].
    apply (G u O).
Qed.
Print Assumptions micro_no_dangling.

Example micro_no_dangling_example : Forall noExit handed.
Proof. repeat constructor. Qed.

(** C518: the destructor that hands the lock over wakes the next thread up by a
    plain pointer to its sleeper; the next thread can see that it owns the lock,
    leave and end before that: the wake-up then touches a freed object *)
Theorem micro_wake_after_end_refuted :
  exists sched, pcs (run sched init) 2 = Gone /\ pcs (run sched init) 1 = Crashed.
Proof.
  exists [(1, CLock 0); (1, CLock 0); (1, CLock 0); (1, CLock 0);
          (2, CLock 5); (2, CLock 5); (2, CLock 5); (2, CLock 5); (2, CLock 5);
          (1, CUnlock); (1, CUnlock); (1, CUnlock); (1, CUnlock); (1, CUnlock); (1, CUnlock);
          (2, CLock 5); (2, CUnlock); (2, CUnlock); (2, CUnlock); (2, CExit);
          (1, CUnlock)].
  vm_compute. auto.
Qed.
Print Assumptions micro_wake_after_end_refuted.
