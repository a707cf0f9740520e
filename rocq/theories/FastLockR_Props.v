(** The recursive lock: exclusion and the count of locks. *)
From Verif Require Import Common FastLockR_Model FastLockR_Proof.

(** C101: whatever the schedule of lock, tryLock and unlock calls, two different
    threads never both hold the lock. *)
Theorem fastLockR_excludes : forall sched t u,
  Forall (fun tc => match snd tc with CLock | CTry | CUnlock => True | _ => False end) sched ->
  0 < depth (rrun sched rinit) t -> 0 < depth (rrun sched rinit) u -> t = u.
Proof.
  intros sched t u Hp Ht Hu.
  destruct (run_rinv sched rinit) as [Ho _]; [exact Hp|apply rinv_init|].
  set (s := rrun sched rinit) in *.
  assert (A : forall v, 0 < depth s v -> held s = Some v).
  { intros v Hv. destruct (held s) as [h|] eqn:E.
    - destruct (Nat.eq_dec h v); [congruence|]. destruct (Ho v); [congruence|lia].
    - destruct (Ho v); [congruence|lia]. }
  apply A in Ht. apply A in Hu. congruence.
Qed.
Print Assumptions fastLockR_excludes.

Definition lockOf (t : nat) := [(t, CLock); (t, CLock); (t, CLock); (t, CLock)].

Example fastLockR_excludes_case :
  depth (rrun (lockOf 0 ++ lockOf 0 ++ lockOf 1) rinit) 0 = 2 /\
  depth (rrun (lockOf 0 ++ lockOf 0 ++ lockOf 1) rinit) 1 = 0.
Proof. vm_compute. auto. Qed.

(** C34: with unlockSaveRecusion it is false.  Thread 0 locks and releases the
    lock by unlockSaveRecusion; thread 1 gets the lock; before thread 1 has
    written its name, thread 0 locks again and succeeds. *)
Theorem fastLockR_excludes_refuted :
  exists sched, 0 < depth (rrun sched rinit) 0 /\ 0 < depth (rrun sched rinit) 1.
Proof.
  exists (lockOf 0 ++ [(0, CSave); (0, CSave); (0, CSave); (0, CSave)] ++
          [(1, CLock); (1, CLock)] ++ lockOf 0 ++ [(1, CLock); (1, CLock)]).
  vm_compute. split; repeat constructor.
Qed.
Print Assumptions fastLockR_excludes_refuted.

(** C99: the lock is released exactly when the thread has unlocked it as many
    times as it locked it: if no call is running, the lock is taken by [t] if
    and only if [t] has locked it more times than it has unlocked it. *)
Theorem fastLockR_counts : forall sched t,
  Forall (fun tc => match snd tc with CLock | CTry | CUnlock => True | _ => False end) sched ->
  let s := rrun sched rinit in
  (forall u, rpcs s u = RIdle) ->
  (held s = Some t <-> 0 < depth s t).
Proof.
  intros sched t Hp s Hidle.
  destruct (run_rinv sched rinit) as [Ho Hi]; [exact Hp|apply rinv_init|].
  fold s in Ho, Hi. split.
  - intros E. rewrite E in Hi. red in Hi. rewrite Hidle in Hi. lia.
  - intros Hd. destruct (held s) as [h|] eqn:E.
    + destruct (Nat.eq_dec h t); [congruence|]. destruct (Ho t); [congruence|lia].
    + destruct (Ho t); [congruence|lia].
Qed.
Print Assumptions fastLockR_counts.

(** the owner's own lock and tryLock never wait and never fail *)
Theorem fastLockR_reenters : forall sched t c x,
  Forall (fun tc => match snd tc with CLock | CTry | CUnlock => True | _ => False end) sched ->
  let s := rrun sched rinit in
  0 < depth s t -> rpcs s t = RTry x ->
  depth (rrun [(t, c); (t, c); (t, c)] s) t = S (depth s t) /\
  rpcs (rrun [(t, c); (t, c); (t, c)] s) t = RIdle.
Proof.
  intros sched t c x Hp s Hd Hr.
  destruct (run_rinv sched rinit) as [Ho Hi]; [exact Hp|apply rinv_init|].
  fold s in Ho, Hi.
  assert (E : held s = Some t).
  { destruct (held s) as [h|] eqn:E.
    - destruct (Nat.eq_dec h t); [congruence|]. destruct (Ho t); [congruence|lia].
    - destruct (Ho t); [congruence|lia]. }
  rewrite E in Hi. red in Hi. rewrite Hr in Hi. destruct Hi as (Px & Hw & Hn & _).
  cbn. rewrite Hr, E. cbn. rewrite Nat.eqb_refl, Hw. cbn. rewrite Nat.eqb_refl. cbn. rewrite Nat.eqb_refl.
  destruct x; cbn in *; try contradiction; rewrite Nat.eqb_refl; auto.
Qed.
Print Assumptions fastLockR_reenters.

Example fastLockR_counts_case :
  let s := rrun (lockOf 0 ++ lockOf 0 ++ [(0, CUnlock); (0, CUnlock); (0, CUnlock); (0, CUnlock)]) rinit in
  let s' := rrun [(0, CUnlock); (0, CUnlock); (0, CUnlock); (0, CUnlock); (0, CUnlock); (0, CUnlock)] s in
  held s = Some 0 /\ depth s 0 = 1 /\ held s' = None /\ depth s' 0 = 0.
Proof. vm_compute. auto. Qed.

Example fastLockR_reenters_case :
  let s := rrun (lockOf 0 ++ [(0, CTry)]) rinit in depth s 0 = 1 /\ rpcs s 0 = RTry XTry.
Proof. vm_compute. auto. Qed.

(** C100: a lock restored by lockRestoreRecursion(count, true) is not released
    by [count] unlocks when another thread has used the lock in between. *)
Theorem fastLockR_restore_refuted :
  exists sched,
    let s := rrun sched rinit in
    depth s 0 = 1 /\ depth s 1 = 0 /\ (forall u, rpcs s u = RIdle) /\
    forall more, Forall (fun tc => tc = (0, CUnlock)) more ->
    held (rrun more s) = Some 0 /\ (6 < length more -> depth (rrun more s) 0 = 0).
Proof.
  exists (lockOf 0 ++ [(0, CSave); (0, CSave); (0, CSave); (0, CSave)] ++ lockOf 1 ++
     [(1, CUnlock); (1, CUnlock); (1, CUnlock); (1, CUnlock); (1, CUnlock); (1, CUnlock)] ++
     [(0, CRestore 1 true); (0, CLock); (0, CLock)]).
  set (s := rrun _ rinit). cbn zeta.
  assert (A : depth s 0 = 1 /\ depth s 1 = 0 /\ held s = Some 0 /\ ownerThread s = 0) by (vm_compute; auto).
  destruct A as (A1 & A2 & A3 & A4).
  assert (A5 : forall u, rpcs s u = RIdle).
  { intros u. destruct u as [|[|u]]; vm_compute; reflexivity. }
  do 3 (split; [assumption|]).
  assert (G : forall more s, Forall (fun tc => tc = (0, CUnlock)) more ->
    held s = Some 0 /\ ownerThread s = 0 ->
    (rpcs s 0 = RIdle \/ (rpcs s 0 = RUn1 /\ depth s 0 = 0)) -> depth s 0 <= 1 ->
    held (rrun more s) = Some 0 /\
    (match rpcs s 0 with RIdle => depth s 0 | _ => 0 end < length more -> depth (rrun more s) 0 = 0) /\
    (depth s 0 = 0 -> depth (rrun more s) 0 = 0)).
  { clear. induction more as [|tc more IH]; intros s Hm [Hh Ho] Hr Hd; cbn [rrun length].
    - split; [assumption|]. split; [|auto]. destruct (rpcs s 0); lia.
    - inversion Hm; subst. destruct Hr as [Hr|[Hr H0]]; cbn [rexec]; rewrite Hr.
      + destruct (depth s 0) as [|n] eqn:En.
        * destruct (IH s H2) as (B1 & B2 & B3); auto; try lia.
        * destruct (IH (at_ (setDepth s 0 n) 0 RUn1) H2) as (B1 & B2 & B3); cbn; auto; try lia.
          { right. split; auto. lia. }
          cbn in B3. repeat split; auto; intros; apply B3; lia.
      + destruct (IH (at_ s 0 (if ownerThread s =? 1 then RUn2 else RIdle)) H2) as (B1 & B2 & B3); cbn; auto.
        rewrite Ho. cbn. auto. }
  intros more Hm. destruct (G more s Hm) as (B1 & B2 & B3); auto; try lia.
  split; auto. intros HL. apply B2. rewrite A5, A1. lia.
Qed.
Print Assumptions fastLockR_restore_refuted.
