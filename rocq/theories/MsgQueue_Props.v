(** Properties of the message queue (C331 to C341). *)
From Coq Require Import ZArith.
From Verif Require Import Common MsgQueue_Spec MsgQueue_Model MsgQueue_Proof MsgQueueLive_Proof MsgTwice_Model MsgTwice_Proof.
Open Scope nat_scope.

(** parts of schedules: a call that posts message number [i]; steps of the worker *)
Definition put (i : nat) (k : kind) (pr : bool) : list act := [Post k pr; Client i; Client i; Client i].
Definition w (n : nat) : list act := repeat Work n.
Definition hist_of (l : list act) : list ev := match run l init with Some s => hist s | None => [] end.
Definition sched1 : list act := put 0 Plain false ++ put 1 Plain false ++ w 7 ++ put 2 Plain true ++ put 3 Plain true ++ put 4 Plain false ++ w 50.
(** a cancelled message, a flush *)
Definition sched2 : list act := put 0 Plain false ++ put 1 Plain false ++ put 2 (Cancel 1) true ++ w 20 ++ put 3 Plain false ++ put 4 Flush true ++ w 60.

(** C331: whatever the threads do and however their steps interleave, every message is run or rejected at most once, only
    after it was posted, and is told at most once that it is done, after its end; when the worker is idle and the
    queue is empty, every posted message has been told *)
Theorem mq_once : forall l s, run l init = Some s -> once (hist s) /\
  (pc s = Idle -> empty s = true -> forall i p, In (Push i p) (hist s) -> In (Done i) (hist s)).
Proof.
  intros l s E. pose proof (run_ok l _ _ init_inv E) as V. split.
  - intros i. pose proof (push_one s V i). pose proof (v_out _ V i). pose proof (v_take _ V i). pose proof (v_done _ V i). lia.
  - intros P M i p I. assert (N : cur s = [] /\ new s = []) by (unfold empty in M; destruct (new s), (cur s); auto; discriminate).
    destruct N as [N1 N2]. destruct (pushed_cases s V i p I) as [W|G].
    + unfold wl in W. rewrite P, N1, N2 in W. destruct W.
    + assert (X : ended i (hist s)) by (apply (gone_ended s V i G); unfold hand; rewrite P; intros []).
      pose proof (v_done _ V i) as D. unfold opens in D. rewrite P, cnt_nil in D. apply times_in.
      destruct X as [X|[X|X]]; apply times_in in X; lia.
Qed.
Print Assumptions mq_once.
Example mq_once_ex : hist_of sched1 =
  [Done 4; Ran 4; Take 4; Done 1; Ran 1; Take 1; Done 2; Ran 2; Take 2; Done 3; Ran 3; Take 3; Done 0; Ran 0;
   Push 4 false; Push 3 true; Push 2 true; Take 0; Push 1 false; Push 0 false].
Proof. vm_compute. reflexivity. Qed.

(** C332: ordinary messages are run (or flushed) in the order in which they were posted: when one is, all those posted earlier
    have ended.  A call that waits for its own message to be done so waits for all messages posted earlier. *)
Theorem mq_fifo : forall l s, run l init = Some s -> fifo (hist s).
Proof. intros l s E. apply (v_fifo _ (run_ok l _ _ init_inv E)). Qed.
Print Assumptions mq_fifo.
Example mq_fifo_ex : filter (fun e => match e with Ran _ | Flushed _ | Cancelled _ => true | _ => false end) (hist_of sched2) = [Flushed 3; Ran 4; Ran 0; Cancelled 1; Ran 2].
Proof. vm_compute. reflexivity. Qed.

(** C333: the worker chooses priority messages before ordinary ones and the newest priority message first *)
Theorem mq_prio : forall l s, run l init = Some s -> lifo_prio (hist s).
Proof. intros l s E. apply (v_prio _ (run_ok l _ _ init_inv E)). Qed.
Print Assumptions mq_prio.
Example mq_prio_ex : filter (fun e => match e with Ran _ | Push _ true => true | _ => false end) (hist_of sched1) = [Ran 4; Ran 1; Ran 2; Ran 3; Ran 0; Push 3 true; Push 2 true].
Proof. vm_compute. reflexivity. Qed.

(** C334: no message is left behind: from every state, steps of the worker alone lead to a state where every posted message
    has been told that it is done *)
Theorem mq_progress : forall l s, run l init = Some s -> exists n s', run (repeat Work n) s = Some s' /\
  empty s' = true /\ forall i p, In (Push i p) (hist s') -> In (Done i) (hist s').
Proof.
  intros l s E. destruct (drain s) as (n & P & C & N). exists n, (works n s). split; [apply works_run|].
  assert (M : empty (works n s) = true) by (unfold empty; rewrite C, N; reflexivity). split; [exact M|].
  assert (R : run (l ++ repeat Work n) init = Some (works n s)).
  { clear - E. revert E. generalize init. induction l as [|a l IH]; cbn; intros t E; [injection E as ->; apply works_run|].
    destruct (step a t); [|discriminate]. apply IH. exact E. }
  apply (mq_once _ _ R); auto.
Qed.
Print Assumptions mq_progress.
Example mq_progress_ex : match run (put 0 Plain false ++ w 3 ++ put 1 Plain false ++ [Post Plain true; Client 2]) init with Some s => Some (pc s, new s, cur s, hist s) | None => None end
  = Some (P1 (KGet Pump) (Some 0), [1; 0], [], [Push 1 false; Push 0 false]).
Proof. vm_compute. reflexivity. Qed.

(** C335: a flush (or finish) message which is run rejects all that was posted before it: when the caller is
    told that it is done, those messages have ended; and after a cancel message was run, the message
    to cancel, if it had been posted before, has ended *)
Theorem mq_flush : forall l s f, run l init = Some s ->
  (option_map kd (nth_error (msgs s) f) = Some Flush \/ option_map kd (nth_error (msgs s) f) = Some Finish -> clears f (hist s)) /\
  (forall t, option_map kd (nth_error (msgs s) f) = Some (Cancel t) -> clears_one f t (hist s)).
Proof.
  intros l s f E. pose proof (run_ok l _ _ init_inv E) as V. split; [intros F; apply (v_clears _ V); exact F|].
  intros t F. apply (v_clears1 _ V). exact F.
Qed.
Print Assumptions mq_flush.
Example mq_flush_ex : exists x y, hist_of sched2 = x ++ Done 4 :: y /\ In (Ran 4) y /\ earlier 3 false 4 true y /\ earlier 1 false 2 true y.
Proof.
  exists [], (tl (hist_of sched2)). vm_compute. split; [reflexivity|]. split; [tauto|]. split.
  - exists [Done 3; Flushed 3; Take 3; Ran 4; Take 4], [], [Done 0; Ran 0; Take 0; Done 2; Done 1; Cancelled 1; Ran 2; Take 2; Push 2 true; Push 1 false; Push 0 false]. reflexivity.
  - exists [Done 3; Flushed 3; Take 3; Ran 4; Take 4; Push 4 true; Push 3 false; Done 0; Ran 0; Take 0; Done 2; Done 1; Cancelled 1; Ran 2; Take 2], [], [Push 0 false]. reflexivity.
Qed.

(** C336: flush() does not always do that: a flush posted while another flush is going on is rejected by it, and its
    caller goes on while messages posted earlier still wait *)
Theorem mq_flush_refuted : ~ (forall l s f, run l init = Some s -> option_map kd (nth_error (msgs s) f) = Some Flush -> clears_always f (hist s)).
Proof.
  intros H.
  assert (X : exists l s, run l init = Some s /\ option_map kd (nth_error (msgs s) 3) = Some Flush /\
    hist s = [Flushed 0; Done 3; Take 0; Flushed 3; Take 3; Push 3 true; Ran 2; Take 2; Push 2 true; Push 1 false; Push 0 false]).
  { exists (put 0 Plain false ++ put 1 Plain false ++ put 2 Flush true ++ w 6 ++ put 3 Flush true ++ w 12).
    eexists. split; [vm_compute; reflexivity|]. split; reflexivity. }
  destruct X as (l & s & R & K & E). specialize (H l s 3 R K [Flushed 0]). rewrite E in H.
  destruct (H _ eq_refl 1 false true) as [X|[X|X]]; try (cbn in X; intuition discriminate).
  exists [Take 0; Flushed 3; Take 3], [Ran 2; Take 2; Push 2 true], [Push 0 false]. reflexivity.
Qed.
Print Assumptions mq_flush_refuted.

(** C337: the same for cancelMessage(): a flush rejects the cancel message before it rejects the message to cancel *)
Theorem mq_cancel_refuted : ~ (forall l s f t, run l init = Some s -> option_map kd (nth_error (msgs s) f) = Some (Cancel t) -> clears_one_always f t (hist s)).
Proof.
  intros H.
  assert (X : exists l s, run l init = Some s /\ option_map kd (nth_error (msgs s) 2) = Some (Cancel 1) /\
    hist s = [Flushed 0; Done 2; Take 0; Flushed 2; Take 2; Ran 3; Take 3; Push 3 true; Push 2 true; Push 1 false; Push 0 false]).
  { exists (put 0 Plain false ++ put 1 Plain false ++ put 2 (Cancel 1) true ++ put 3 Flush true ++ w 18).
    eexists. split; [vm_compute; reflexivity|]. split; reflexivity. }
  destruct X as (l & s & R & K & E). specialize (H l s 2 1 R K [Flushed 0]). rewrite E in H.
  destruct (H _ false true eq_refl) as [X|[X|X]]; try (cbn in X; intuition discriminate).
  exists [Take 0; Flushed 2; Take 2; Ran 3; Take 3; Push 3 true], [], [Push 0 false]. reflexivity.
Qed.
Print Assumptions mq_cancel_refuted.

(** C338: after finish() the finish flag of the worker thread need not be set: a flush rejects the message of finish() *)
Theorem mq_finish_refuted : ~ (forall l s f, run l init = Some s -> option_map kd (nth_error (msgs s) f) = Some Finish -> In (Done f) (hist s) -> fin s = true).
Proof.
  intros H.
  assert (X : exists l s, run l init = Some s /\ option_map kd (nth_error (msgs s) 0) = Some Finish /\ In (Done 0) (hist s) /\ fin s = false).
  { exists (put 0 Finish true ++ put 1 Flush true ++ w 20). eexists. split; [vm_compute; reflexivity|]. cbn. auto. }
  destruct X as (l & s & R & K & D & E). specialize (H l s 0 R K D). congruence.
Qed.
Print Assumptions mq_finish_refuted.

(** C339: when no call is in progress and the worker is idle, length() is the number of messages in the queue *)
Theorem mq_length : forall l s, run l init = Some s -> pc s = Idle -> Forall (fun m => cp m <> CInc) (msgs s) ->
  qlen s = Z.of_nat (length (cur s) + length (new s)) /\
  (isRunning s = true <-> empty s = false).
Proof.
  intros l s E P F. pose proof (v_len _ (run_ok l _ _ init_inv E)) as L. unfold wl, owed in L. rewrite P in L. cbn [length] in L.
  assert (C : csum (msgs s) = 0%Z).
  { clear - F. induction F as [|m l H F IH]; [reflexivity|]. cbn. fold (csum l). rewrite IH. destruct (cp m); cbn; congruence. }
  assert (Q : qlen s = Z.of_nat (length (cur s) + length (new s))) by lia. split; [exact Q|].
  unfold isRunning, empty. rewrite Q. destruct (new s), (cur s); cbn [length]; split; intros H; try discriminate; try reflexivity; lia.
Qed.
Print Assumptions mq_length.
Example mq_length_ex : match run (put 0 Plain false ++ put 1 Plain false ++ put 2 Plain true ++ w 7) init with Some s => Some (pc s, qlen s, cur s, new s) | None => None end = Some (Idle, 2%Z, [], [1; 0]).
Proof. vm_compute. reflexivity. Qed.

(** C340: in between it is not: the worker may take a message before its poster has counted it; then length() is 2^64-1
    with an empty queue, and after the next message is posted, isRunning() says false although that message waits *)
Theorem mq_length_refuted :
  (exists l s, run l init = Some s /\ empty s = true /\ length_ s = (2 ^ 64 - 1)%Z) /\
  (exists l s i m, run l init = Some s /\ nth_error (msgs s) i = Some m /\ cp m = CEnd /\ new s = [i] /\ pc s = Idle /\ isRunning s = false).
Proof.
  split.
  - exists ([Post Plain false; Client 0; Client 0] ++ w 10). eexists. split; [vm_compute; reflexivity|]. vm_compute. auto.
  - exists ([Post Plain false; Client 0; Client 0] ++ w 10 ++ put 1 Plain false). eexists. exists 1. eexists.
    split; [vm_compute; reflexivity|]. vm_compute. auto 10.
Qed.
Print Assumptions mq_length_refuted.

(** C341: by pointers: messages posted one after another come out in that order, each once; a message that waits and is
    not the oldest of the new ones is not posted again; but the oldest is, and then it is run, destroyed and used again *)
Theorem mq_twice : forall l f, NoDup l -> length l <= f -> exists s, posts l start = Ok s /\
  pumps f (S (length l)) s = Ok (map Some l ++ [None]) /\ (forall m, In m (tl l) -> post m s = Ok s).
Proof.
  intros l f N F. destruct (fifo_ptr l f N F) as (s & E & P & Q). exists s. split; [exact E|]. split; [exact Q|].
  intros m I. destruct l as [|x l]; [destruct I|]. cbn [tl] in I. destruct P as (C & _ & D & _).
  apply in_split in I. destruct I as (u & v & ->). cbn [rev] in C. rewrite rev_app_distr in C. cbn [rev] in C. rewrite <- !app_assoc in C. cbn [app] in C.
  apply chain_next in C. unfold post, getn. rewrite alive by (rewrite D; intros []). cbn [obind]. rewrite C. destruct (rev u); reflexivity.
Qed.
Print Assumptions mq_twice.
Example mq_twice_ex : (let! s := posts [7; 3; 9] start in pumps 5 4 s) = Ok [Some 7; Some 3; Some 9; None].
Proof. vm_compute. reflexivity. Qed.
Theorem mq_twice_refuted : ~ (forall l m s, NoDup l -> In m l -> posts l start = Ok s -> post m s = Ok s) /\
  (forall f, f >= 3 -> (let! s := posts [7; 7] start in pumps f 2 s) = Undef).
Proof.
  split.
  - intros H. specialize (H [7] 7 _ ltac:(repeat constructor; intros []) (or_introl eq_refl) eq_refl).
    cbn in H. injection H as H. apply (f_equal (fun g => g 7)) in H. discriminate.
  - intros [|[|[|f]]] L; try lia. vm_compute. reflexivity.
Qed.
Print Assumptions mq_twice_refuted.
