(** The semaphore. *)
From Verif Require Import Common SyncPt_Spec SyncPt_Model SyncPt_Proof Semaphore_Model Semaphore_Proof.

(** C37: whatever the history of untimed locks, tryLocks, unlocks and cancels by
    any number of threads: nothing goes wrong; no more calls have got through
    than the initial count plus the number of unlocks; a thread stays parked
    only while no permit is available; and every permit is available, taken, or
    on its way to a thread that is being woken up ([dropped] counts those that
    came to requests cancelled later). *)
Theorem semaphore_conserves : forall n sched,
  Forall (fun tc => snd tc <> KLockTimed) sched ->
  exists s, semrun sched (seminit n) = Ok s /\
    entered s <= n + released s /\
    counter s + entered s + length (filter (fun x => plive x && psignaled x) (smem s)) + dropped s = n + released s /\
    (forall t p b x, spcs s t = SWait p b -> nth_error (smem s) p = Some x -> psignaled x = false -> counter s = 0).
Proof.
  intros n sched Hc. destruct (run_inv n sched (seminit n) [] Hc (init_inv n)) as (s & q & E & I).
  exists s. split; auto. destruct I as [Ic In_ Iz Is It Io]. unfold woken in Is. split; [lia|]. split; auto.
  intros t p b x Hw Hx Hs. specialize (It t). rewrite Hw in It. destruct It as (_ & c & g & F & G & _).
  unfold flags in F. rewrite Hx in F. injection F as F1 F2 F3. apply Iz.
  destruct G as [_ G]; [congruence|]. intros ->. destruct G.
Qed.
Print Assumptions semaphore_conserves.

(** without cancelling, no permit is lost *)
Theorem semaphore_loses_nothing : forall n sched,
  Forall (fun tc => snd tc <> KLockTimed /\ snd tc <> KCancel) sched ->
  exists s, semrun sched (seminit n) = Ok s /\ dropped s = 0.
Proof.
  intros n sched Hc.
  assert (Hc1 : Forall (fun tc => snd tc <> KLockTimed) sched) by (eapply Forall_impl; eauto; intros a []; auto).
  destruct (run_inv n sched (seminit n) [] Hc1 (init_inv n)) as (s & q & E & I). exists s. split; auto. clear I Hc1.
  assert (G : forall sched s0 s, Forall (fun tc => snd tc <> KLockTimed /\ snd tc <> KCancel) sched ->
    semrun sched s0 = Ok s -> (forall t p, spcs s0 t <> SBack p) /\ dropped s0 = 0 -> dropped s = 0).
  { clear. induction sched as [|[t c] sched IH]; cbn [semrun]; intros s0 s Hc H [H1 H2]; [congruence|].
    inversion Hc as [|? ? HA HB]; subst. apply obind_ok in H as (s1 & E & H). cbn in HA.
    apply (IH s1 s); auto. clear IH H Hc HB.
    assert (U : forall s s', semUnlock s = Ok s' -> spcs s' = spcs s /\ dropped s' = dropped s).
    { clear. unfold semUnlock. intros s s' H. apply obind_ok in H as (((m & cq) & p) & _ & H).
      destruct p; [|injection H as <-; auto]. apply obind_ok in H as (m2 & _ & H). injection H as <-. auto. }
    assert (L : forall s p s', lockAsync s p = Ok s' -> spcs s' = spcs s /\ dropped s' = dropped s).
    { clear. unfold lockAsync. intros s p s' H. destruct (counter s).
      - apply obind_ok in H as ((m & cq) & _ & H). injection H as <-. auto.
      - apply obind_ok in H as (m & _ & H). injection H as <-. auto. }
    assert (D : forall s p s', endSlot s p = Ok s' -> spcs s' = spcs s /\ dropped s' = dropped s).
    { clear. unfold endSlot. intros s p s' H. apply obind_ok in H as (m & _ & H). injection H as <-. auto. }
    unfold semexec in E. destruct (spcs s0 t) as [|p b|p] eqn:Et; [| |destruct (H1 t p Et)].
    - destruct c; try tauto.
      + apply obind_ok in E as (s2 & E2 & E). injection E as <-. apply L in E2 as [E2 E3]. cbn. split; [|rewrite E3; auto].
        intros u p. destruct (u =? t); [discriminate|]. rewrite E2. cbn. auto.
      + unfold semTry in E. destruct (counter s0); injection E as <-; auto.
      + apply obind_ok in E as (s2 & E2 & E). injection E as <-. apply U in E2 as [E2 E3]. cbn. rewrite E2, E3. auto.
      + injection E as <-. auto.
    - apply obind_ok in E as (x & _ & E).
      assert (F : forall e s1, (forall s, spcs (e s) = spcs s /\ dropped (e s) = dropped s) ->
        (let! s := endSlot s0 p in Ok (setPc (e s) t SIdle)) = Ok s1 -> (forall t p, spcs s1 t <> SBack p) /\ dropped s1 = 0).
      { intros e s3 He K. apply obind_ok in K as (s4 & K1 & K2). injection K2 as <-. apply D in K1 as [K1 K3].
        destruct (He s4) as [K4 K5]. cbn. split; [|congruence]. intros u r. destruct (u =? t); [discriminate|].
        rewrite K4, K1. auto. }
      assert (F1 : (if psignaled x then let! s := endSlot s0 p in Ok (setPc (incEntered s) t SIdle) else Ok s0) = Ok s1 ->
        (forall t p, spcs s1 t <> SBack p) /\ dropped s1 = 0).
      { destruct (psignaled x); [apply F; auto|intros K; injection K as <-; auto]. }
      destruct c, b; auto; try tauto.
      apply (F (fun s => if psignaled x then incEntered s else s) s1) in E; auto.
      intros s'. destruct (psignaled x); auto. }
  apply (G sched (seminit n) s); auto. split; auto. intros t p. discriminate.
Qed.
Print Assumptions semaphore_loses_nothing.

Example semaphore_case :
  let l t := (t, KLock) in
  exists s, semrun [l 0; l 1; l 2; l 0; l 1; l 2; (3, KTry); (0, KUnlock); l 2; (1, KUnlock)] (seminit 2) = Ok s /\
    entered s = 3 /\ counter s = 1 /\ released s = 2.
Proof. eexists. split; vm_compute; auto. Qed.
Example semaphore_parked_case :
  exists s x, semrun [(0, KLock); (1, KLock)] (seminit 1) = Ok s /\ spcs s 1 = SWait 1 false /\
    nth_error (smem s) 1 = Some x /\ psignaled x = false /\ counter s = 0.
Proof. eexists _, _. split; [vm_compute; reflexivity|]. vm_compute. auto. Qed.

(** C107: a cancelled request that had been granted at once keeps its permit
    for ever: nobody has the semaphore, nobody waits, and yet nobody gets it. *)
Theorem semaphore_cancel_refuted :
  exists sched s, semrun sched (seminit 1) = Ok s /\
    (forall t, spcs s t = SIdle) /\ entered s = 0 /\ counter s = 0 /\
    forall t, semexec (t, KTry) s = Ok s.
Proof.
  exists [(0, KLock); (0, KCancel)]. eexists. split; [vm_compute; reflexivity|].
  split; [intros [|t]; reflexivity|]. split; [reflexivity|]. split; [reflexivity|].
  intros [|t]; reflexivity.
Qed.
Print Assumptions semaphore_cancel_refuted.

(** C108: after a lock with a timeout has given up, its dead slot is still in
    the queue: unlock uses it. *)
Theorem semaphore_timeout_refuted : forall n t u,
  semrun [(t, KLockTimed); (t, KTimeout); (u, KUnlock)] (seminit 0) = Undef /\
  exists s, semrun [(t, KLockTimed); (t, KTimeout)] (seminit 0) = Ok s /\ entered s = 0 /\ spcs s n = SIdle.
Proof.
  intros n t u. cbn. rewrite !Nat.eqb_refl. cbn. split.
  - destruct (u =? t); cbn; rewrite ?Nat.eqb_refl; reflexivity.
  - eexists. split; [reflexivity|]. cbn. destruct (n =? t); auto.
Qed.
Print Assumptions semaphore_timeout_refuted.
