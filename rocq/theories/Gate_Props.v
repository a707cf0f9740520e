(** The gate. *)
From Verif Require Import Common SyncPt_Spec SyncPt_Model SyncPt_Proof Gate_Model Gate_Proof.

(** C38: after any interleaving of open, close and wait calls (with or without
    timeouts) of any number of threads: nothing went wrong (no slot is used
    after its end), and if the gate is open and no open() is half done, then
    every sleeping thread has been notified, so that its next step ends its
    wait with success. *)
Theorem gate_no_lost_wakeup : forall b sched, exists s, grun sched (ginit b) = Ok s /\
  (isOpen s = true -> (forall t, gpcs s t <> GOpening) ->
   forall t p, gpcs s t = GSleep p ->
     (exists x, nth_error (gmem s) p = Some x /\ psignaled x = true) /\
     forall c, exists s', gexec (t, c) s = Ok s' /\ gpcs s' t = GIdle /\ results s' = (t, true) :: results s).
Proof.
  intros b sched. destruct (run_ginv sched _ _ (ginv_init b)) as (s & q & E & I). exists s. split; auto.
  intros Ho Hn t p Ht. destruct I as [Ic Id Is Io]. specialize (Is t). rewrite Ht in Is.
  destruct Is as (c & g & F & G). assert (g = true).
  { destruct g; auto. destruct (G eq_refl) as (_ & _ & K). destruct (K Ho) as (u & Hu). destruct (Hn u Hu). }
  subst g. pose proof F as F'. apply flags_get in F' as (x & X1 & X2 & X3 & X4 & X5).
  split; [eauto|]. intros c'. unfold gexec. rewrite Ht, X1. cbn [obind]. rewrite X4. unfold finish, kill. rewrite X1. cbn.
  eexists. split; [reflexivity|]. cbn. rewrite Nat.eqb_refl. auto.
Qed.
Print Assumptions gate_no_lost_wakeup.

(** thread 1 tests the gate and finds it closed; thread 2 opens it and notifies
    nobody; thread 1 registers too late for that, but tests the gate again *)
Example gate_race : exists s,
  grun [(1, CWait); (1, CWait); (2, COpen); (2, COpen); (1, CWait); (1, CWait); (1, CWait); (1, CWait)] (ginit false) = Ok s /\
  isOpen s = true /\ gpcs s 1 = GSleep 0 /\ gpcs s 2 = GIdle.
Proof. eexists. split; [vm_compute; reflexivity|]. auto. Qed.

Fixpoint closedAllAlong (sched : list (nat * gcmd)) (s : gate) : bool :=
  negb (isOpen s) && match sched with
  | [] => true
  | tc :: l => match gexec tc s with Ok s' => closedAllAlong l s' | _ => true end
  end.

(** C109: a wait may succeed although the gate was closed from before it began
    until it ended: thread 1 opens the gate, thread 2 closes it before thread 1
    notifies, thread 3 begins to wait at the closed gate and is let in. *)
Theorem gate_closed_means_closed_refuted :
  exists before during s0 s, grun before (ginit false) = Ok s0 /\ results s0 = [] /\ gpcs s0 3 = GIdle /\
    grun during s0 = Ok s /\ closedAllAlong during s0 = true /\ results s = [(3, true)].
Proof.
  exists [(1, COpen); (2, CClose)], [(3, CWait); (3, CWait); (3, CWait); (3, CWait); (1, COpen); (3, CWait)].
  eexists _, _. split; [vm_compute; reflexivity|]. repeat split; vm_compute; reflexivity.
Qed.
Print Assumptions gate_closed_means_closed_refuted.
