(** Properties of the dispatcher and the scheduler. *)
From Coq Require Import ZArith Permutation.
From Verif Require Import Common Disp_Spec Heap_Model Heap_Proof Disp_Model Disp_Proof.

(** C316: whatever the clients and the serving thread do, no action is settled more often than it
    was handed over, and the first action handed over runs in the next turn of a serving thread
    that was not asked to stop *)
Theorem disp_once : forall ops, exists s, drun disp_new ops = Ok s /\
  (forall a, count_occ Nat.eq_dec (settled (dlog s)) a <= count_occ Nat.eq_dec (dispatched ops) a) /\
  (forall a r, dispatched ops = a :: r -> settled (dlog s) = [] -> running s = true -> needstop s = false ->
     exists s', dstep s DTurn = Ok s' /\ dlog s' = dlog s ++ [Ran a]).
Proof.
  intros ops. destruct (drun_new ops) as (s & E & H). exists s. split; [exact E|]. split.
  - intros a. inversion H as [E1 E2 E3|b d0 E1 E2 E3|b d0 E1 E2 E3]; cbn; try lia. destruct (Nat.eq_dec b a); lia.
  - intros a r D S0 R N. cbn [dstep]. unfold turn. rewrite R, N. cbn [negb].
    inversion H as [E1 E2 E3|b d0 E1 E2 E3|b d0 E1 E2 E3]; try congruence.
    rewrite D in E1. injection E1 as -> ->. cbn [getNextAction]. eauto.
Qed.
Print Assumptions disp_once.
Example disp_once_ex : exists s, drun disp_new [DRun; DTurn; DDispatch 7; DTurn; DTurn] = Ok s /\ dlog s = [Slept; Woken; Ran 7; Slept].
Proof. eexists. split; reflexivity. Qed.

(** C317: every action is run, or rejected when the dispatcher stops: false, no action but the first
    one handed over in the life of the dispatcher is ever settled *)
Theorem disp_rest_refuted : forall ops, exists s, drun disp_new ops = Ok s /\
  (settled (dlog s) = [] \/ exists a r, dispatched ops = a :: r /\ settled (dlog s) = [a]).
Proof.
  intros ops. destruct (drun_new ops) as (s & E & H). exists s. split; [exact E|].
  inversion H as [E1 E2 E3|b d0 E1 E2 E3|b d0 E1 E2 E3]; auto. right. eauto.
Qed.
Print Assumptions disp_rest_refuted.
Example disp_rest_ex : exists s, drun disp_new [DRun; DDispatch 7; DDispatch 8; DTurn; DTurn; DTurn; DDispatch 9; DTurn; DQuit; DTurn] = Ok s /\
  dlog s = [Woken; Ran 7; Slept; Slept; Slept; Woken; Left].
Proof. eexists. split; reflexivity. Qed.

(** C318: a sleeping dispatcher is woken up by a new action: false, only the first action in its
    life does *)
Theorem disp_wake_refuted : forall ops s a, drun disp_new ops = Ok s -> dispatched ops <> [] ->
  exists s', dstep s (DDispatch a) = Ok s' /\ dlog s' = dlog s.
Proof.
  intros ops s a E N. destruct (drun_new ops) as (s1 & E1 & H). rewrite E in E1. injection E1 as <-.
  cbn [dstep]. eexists. split; [reflexivity|]. unfold dispatch.
  inversion H as [D|b d0 D|b d0 D]; try congruence; reflexivity.
Qed.
Print Assumptions disp_wake_refuted.
Example disp_wake_ex : exists s, drun disp_new [DRun; DTurn; DDispatch 7; DTurn; DTurn] = Ok s /\ running s = true /\
  dispatched [DRun; DTurn; DDispatch 7; DTurn; DTurn] <> [] /\ last (dlog s) Left = Slept.
Proof. eexists. repeat split. discriminate. Qed.

(** C319: a dispatcher that was asked to stop stops: false, a request made before the serving thread
    enters is forgotten, and the thread serves for ever *)
Theorem disp_quit_refuted : forall ops s, drun disp_new ops = Ok s -> running s = false ->
  forall n, exists s', drun s (DQuit :: DRun :: repeat DTurn n) = Ok s' /\ running s' = true.
Proof.
  intros ops s _ R n. cbn [drun dstep obind].
  assert (R1 : running (enter (quit s)) = true /\ needstop (enter (quit s)) = false).
  { unfold enter, quit, onNewMessage. cbn [running]. rewrite R. cbn [running needstop]. rewrite ?R. split; reflexivity. }
  generalize dependent (enter (quit s)). clear. induction n as [|n IH]; intros s (R & N); [exists s; auto|].
  cbn [repeat drun dstep]. unfold turn at 1. rewrite R, N. cbn [negb].
  destruct (getNextAction (dqueue s)) as [[a|] q]; cbn [obind]; apply IH; split; reflexivity.
Qed.
Print Assumptions disp_quit_refuted.
Example disp_quit_ex : (exists s, drun disp_new [DDispatch 1] = Ok s /\ running s = false) /\
  exists s, drun disp_new [DRun; DQuit; DTurn] = Ok s /\ running s = false.
Proof. split; eexists; split; reflexivity. Qed.

(** C320: in every history of the scheduler, an idle thread sleeps without limit if nothing waits,
    sleeps until the earliest time if that time did not pass yet, and otherwise takes the earliest
    item out of the waiting ones *)
Theorem sched_earliest : forall ops, exists h l q, srun sched_new ops = Ok (h, l) /\ sched_runs ops q (map view l).
Proof. intros ops. destruct (srun_new ops) as (h & l & q & E & R & _). eauto. Qed.
Print Assumptions sched_earliest.
Definition sched_ops : list sop :=
  [SIdle 0; SSchedule (30%Z, 3); SSchedule (10%Z, 1); SSchedule (20%Z, 2); SIdle 5; SIdle 15; SIdle 15; SIdle 40; SIdle 40].
Example sched_earliest_ex : exists h l, srun sched_new sched_ops = Ok (h, l) /\
  map view l = [OSleep None; ONone; ONone; ONone; OSleep (Some 10%Z); OTaken 1; OSleep (Some 20%Z); OTaken 2; OTaken 3].
Proof. do 2 eexists. split; vm_compute; reflexivity. Qed.

(** C321: the promise of the item taken out is resolved: false, the promise of the earliest item that
    still waits is resolved, whatever its time is, and a destroyed one when no other item waits *)
Theorem sched_resolve_refuted : forall ops h l now h' p r, srun sched_new ops = Ok (h, l) -> onIdle h now = Ok (h', Fire p r) ->
  exists q, sched_runs (ops ++ [SIdle now]) q (map view l ++ [OTaken p]) /\
    (q = [] -> r = Undef) /\ (q <> [] -> exists i, earliest i q /\ r = Ok (snd i)).
Proof.
  intros ops h l now h' p r E F. destruct (srun_new ops) as (h0 & l0 & q0 & E0 & R0 & I0). rewrite E in E0. injection E0 as <- <-.
  destruct (onIdle_ok q0 h now I0) as [(Z0 & Q0 & X)|[(i & EA & Hn & X)|(i & q' & h1 & EA & Hn & P & I' & X)]]; rewrite F in X; try discriminate.
  injection X as <- -> ->. exists q'. split; [|split].
  - eapply sr_step; [exact R0|reflexivity|]. econstructor; eassumption.
  - intros ->. destruct I' as (_ & _ & P'). apply Permutation_nil in P'. rewrite P'. reflexivity.
  - intros N. exists (nth 0 (arr h') d0). assert (0 < hsize h').
    { destruct I' as (_ & L & P'). rewrite L. destruct (arr h'); cbn; [|lia]. symmetry in P'. apply Permutation_nil in P'. congruence. }
    destruct (sinv_earliest q' h' I' H) as (G & EA'). rewrite G. cbn [obind]. auto.
Qed.
Print Assumptions sched_resolve_refuted.
(** the promise 2, to be resolved at the time 1000, is resolved at the time 11; the promise 1 is not *)
Example sched_resolve_ex : exists h h' l h2, srun sched_new [SSchedule (10%Z, 1); SSchedule (1000%Z, 2)] = Ok (h, l) /\
  onIdle h 11 = Ok (h', Fire 1 (Ok 2)) /\ onIdle h' 2000 = Ok (h2, Fire 2 Undef).
Proof. do 4 eexists. split; [vm_compute; reflexivity|]. split; vm_compute; reflexivity. Qed.

(** C322: the scheduler uses its queue under the lock and releases only a lock it holds: false in
    every idle turn *)
Theorem sched_lock_refuted : forall ops h l now, srun sched_new ops = Ok (h, l) -> lock_ok true (idleLocks h now) = false.
Proof. intros ops h l now E. unfold idleLocks. destruct (onIdle h now) as [[h' [t|p r]]| | |]; reflexivity. Qed.
Print Assumptions sched_lock_refuted.
Example sched_lock_ex : exists h l, srun sched_new [SSchedule (10%Z, 1)] = Ok (h, l) /\
  idleLocks h 11 = [LUnlock; LQueue; LUnlock; LResolve; LLock; LLock] /\ lock_ok true [LUnlock; LLock; LQueue] = true.
Proof. do 2 eexists. repeat split; vm_compute; reflexivity. Qed.
