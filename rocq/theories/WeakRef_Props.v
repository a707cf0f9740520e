(** Properties of weak references. *)
From Verif Require Import Common WeakRef_Spec WeakRef_Model WeakRef_Proof.
Local Open Scope Z_scope.

(** C31.  For every schedule with fewer than 2^62 locks: when setNull returns,
    all non-null pointers were given back, later locks give null; and before
    setNull is called locks give the target. *)
Theorem weakref_withdrawn : forall target l w, nLocks l < 2^62 -> wrun l (winit target) = Ok w ->
  withdrawn (wLog w) /\ available target (wLog w).
Proof.
  intros target l w N R. destruct (run_inv l (winit target) w (WInv_init _)) as (I & T & _); auto.
  pose proof (vP _ I) as P. rewrite T in P. exact P.
Qed.
Print Assumptions weakref_withdrawn.

(** as long as the thread that calls setNull does not end, no step is undefined:
    unlocking never calls wakeUp on a null pointer *)
Theorem weakref_runs : forall target l, nLocks l < 2^62 -> ~ In AExit l ->
  exists w, wrun l (winit target) = Ok w.
Proof. intros target l N Na. apply run_runs; auto; [apply WInv_init|discriminate]. Qed.
Print Assumptions weakref_runs.

(** C120: once all locks are given back and their wake-ups are delivered, setNull
    returns after at most three steps of its thread, and it never sleeps through *)
Theorem weakref_setnull_returns : forall target l w, nLocks l < 2^62 -> wrun l (winit target) = Ok w ->
  In WSetBegin (wLog w) ->
  (forall h s, nth_error (wHandles w) h = Some s -> s = HGone) ->
  exists w', wrun [ASet; ASet; ASet] w = Ok w' /\ In WSetEnd (wLog w').
Proof.
  intros target l w N R Hb G. destruct (run_inv l (winit target) w (WInv_init _)) as (I & T & Bd); auto.
  assert (K : held (wHandles w) = 0).
  { pose proof (held_le (wHandles w)). destruct (Z.le_gt_cases 1 (held (wHandles w))) as [L|]; [|lia].
    apply held_pos_ex in L as (i & r & E). apply G in E. discriminate. }
  assert (W3 : wrun [ASet; ASet; ASet] w = Ok (doSet (doSet (doSet w)))) by reflexivity.
  eexists. split; [exact W3|].
  assert (I1 : WInv (doSet w)) by (apply set_inv; auto).
  assert (H1 : wHandles (doSet w) = wHandles w).
  { unfold doSet. destruct (wSet w); try reflexivity; repeat match goal with |- context [if ?b then _ else _] => destruct b end; reflexivity. }
  assert (I2 : WInv (doSet (doSet w))) by (apply set_inv; auto; unfold bounded in *; rewrite H1; auto).
  assert (H2 : wHandles (doSet (doSet w)) = wHandles w).
  { rewrite <- H1. unfold doSet at 1. destruct (wSet (doSet w)); try reflexivity; repeat match goal with |- context [if ?b then _ else _] => destruct b end; reflexivity. }
  assert (I3 : WInv (doSet (doSet (doSet w)))) by (apply set_inv; auto; unfold bounded in *; rewrite H2; auto).
  apply (vE _ I3).
  pose proof (vC _ I) as C. rewrite K, Z.add_0_r in C.
  assert (Nx : forall i, nth_error (wHandles w) i <> Some HNotify) by (intros i E; apply G in E; discriminate).
  assert (Nz : wSet w <> SIdle) by (apply (vB _ I); auto).
  unfold ended. destruct w as [tg c n t s hs lg].
  cbn [wTarget wCount wNotify wToken wSet wHandles wLog] in *.
  destruct s; cbn [base] in C; subst c; try congruence.
  - left. vm_compute. reflexivity.
  - left. vm_compute. reflexivity.
  - left. vm_compute. reflexivity.
  - assert (t = true) as ->.
    { destruct (vW _ I eq_refl) as [A|[A|[i A]]]; cbn [wToken wHandles] in *; auto; [lia|].
      apply Nx in A. contradiction. }
    left. vm_compute. reflexivity.
  - left. vm_compute. reflexivity.
  - left. vm_compute. reflexivity.
  - left. reflexivity.
  - right. reflexivity.
Qed.
Print Assumptions weakref_setnull_returns.

(** C121 is false: a thread can still be about to wake the setting thread when
    setNull has returned; if that thread ends first, the call uses a sleeping
    object that does not exist any more.  Nothing but locks, unlocks and setNull
    is needed. *)
Definition lateWake : list wact :=
  [ALock; ASet; ASet; ASet; ASet; AUnlock 0; ALock; AUnlock 1; ANotify 1; ASet; ASet; ASet; AExit; ANotify 0].
Theorem weakref_unlock_after_exit_refuted : forall target,
  ~ In ASpurious lateWake /\ nLocks lateWake = 2 /\ wrun lateWake (winit target) = Undef.
Proof.
  intros target. split; [cbn; intuition discriminate|]. split; vm_compute; reflexivity.
Qed.
Print Assumptions weakref_unlock_after_exit_refuted.

(** ** Non-vacuity *)
Example weakref_ex :
  match wrun [ALock; ALock; ASet; ASet; ASet; ASet; AUnlock 0; ALock; ASet; AUnlock 1; AUnlock 2;
              ANotify 2; ASet; ASet; ASet; ALock] (winit 7) with
  | Ok w => wLog w = [WLock 0 (Some 7%nat); WLock 1 (Some 7%nat); WSetBegin; WUnlock 0; WLock 2 None; WUnlock 1; WUnlock 2;
                      WSetEnd; WLock 3 None] /\ wSet w = SRet
  | _ => False
  end.
Proof. vm_compute. auto. Qed.
Example weakref_fast_ex :
  match wrun [ALock; AUnlock 0; ASet; ASet; ALock] (winit 7) with
  | Ok w => wLog w = [WLock 0 (Some 7%nat); WUnlock 0; WSetBegin; WSetEnd; WLock 1 None]
  | _ => False
  end.
Proof. vm_compute. auto. Qed.
