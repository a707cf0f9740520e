(** Properties of the automatic start of message threads. *)
From Verif Require Import Common MsgThr_Spec MsgThr_Model MsgThr_Proof.

(** C549: when any number of threads send messages at the same time, the thread is
    started at most once, and once no call is in progress and one has returned, it is running *)
Theorem mt_start : forall n sched, forallb fine sched = true ->
  let s := run sched (init n) in
  starts s <= 1 /\ (starts s = 1 <-> running s = true) /\ ~ In Threw (map look (pcs s)) /\
  (~ In Running (map look (pcs s)) -> In Returned (map look (pcs s)) -> running s = true).
Proof.
  intros n sched F s. assert (H : inv s) by (apply inv_run; auto; apply inv_init).
  refine (conj _ (conj _ (conj _ _))).
  - rewrite (i_starts s H). destruct (running s); cbn; lia.
  - rewrite (i_starts s H). destruct (running s); cbn; split; congruence.
  - intros I. apply in_map_iff in I. destruct I as (p & K & I). destruct p; try discriminate K.
    apply In_nth_error in I. destruct I as (j & I). pose proof (cnt_pos bad _ _ _ I eq_refl). pose proof (i_bad s H). lia.
  - intros Q I. apply in_map_iff in I. destruct I as (p & K & I). destruct p; try discriminate K.
    apply quiet_over; auto. intros q J. destruct (look q) eqn:L; auto.
    + destruct Q. rewrite <- L. apply in_map. auto.
    + destruct q; try discriminate L. apply In_nth_error in J. destruct J as (j & J). pose proof (cnt_pos bad _ _ _ J eq_refl). pose proof (i_bad s H). lia.
Qed.
Print Assumptions mt_start.
(** the second caller finds the lock held and returns before the thread is started *)
Example mt_start_example :
  let s := run [P 0 true; P 1 true; P 0 true; P 1 true; P 1 true; P 0 true; P 0 true; P 0 true; P 0 true; P 0 true] (init 2) in
  map look (pcs s) = [Returned; Returned] /\ running s = true /\
  map look (pcs (run [P 0 true; P 1 true; P 0 true; P 1 true; P 1 true] (init 2))) = [Running; Returned].
Proof. repeat split. Qed.

(** C550: after the thread was started and no call is in progress, it is not started
    again by messages, also when it is stopped *)
Theorem mt_stopped : forall n sched later, forallb fine sched = true ->
  let s := run sched (init n) in
  ~ In Running (map look (pcs s)) -> In Returned (map look (pcs s)) ->
  starts (run later s) = 1.
Proof.
  intros n sched later F s Q I. assert (H : inv s) by (apply inv_run; auto; apply inv_init).
  destruct (mt_start n sched F) as (_ & _ & T & _). fold s in T.
  assert (A : quiet s).
  { intros q J. destruct (look q) eqn:L; auto; exfalso; [apply Q|apply T]; rewrite <- L; apply in_map; auto. }
  apply in_map_iff in I. destruct I as (p & K & I). destruct p; try discriminate K.
  destruct (quiet_over s H A I) as (M & _ & E). rewrite <- E. apply over_run. split; auto.
  intros q J. destruct (A q J) as [L|L]; destruct q; try discriminate L; auto.
Qed.
Print Assumptions mt_stopped.
Example mt_stopped_example :
  let s := run (repeat (P 0 true) 7) (init 2) in
  map look (pcs s) = [Returned; Waiting] /\ starts (run (Stop :: repeat (P 1 true) 7) s) = 1 /\
  map look (pcs (run (Stop :: repeat (P 1 true) 7) s)) = [Returned; Returned].
Proof. repeat split. Qed.

(** C551: a call that began before the first start was complete starts the thread
    again after it was stopped *)
Theorem mt_restart_refuted : exists sched, forallb (fun e => match e with P _ ok => ok | Stop => true end) sched = true /\
  length (filter (fun e => match e with Stop => true | _ => false end) sched) = 1 /\
  let s := run sched (init 2) in map look (pcs s) = [Returned; Returned] /\ starts s = 2 /\ running s = true.
Proof.
  exists ([P 1 true] ++ repeat (P 0 true) 7 ++ [Stop] ++ repeat (P 1 true) 6). repeat split.
Qed.
Print Assumptions mt_restart_refuted.

(** C552: when the first start fails, no message starts the thread any more, whatever
    happens; the calls return as if nothing had happened *)
Theorem mt_failed_refuted : forall n later,
  let s := run (repeat (P 0 false) 6) (init (S n)) in
  map look (pcs s) = Threw :: repeat Waiting n /\ starts (run later s) = 0 /\
  forall i, i < n -> map look (pcs (run (repeat (P (S i) true) 2) s)) = Threw :: upd (repeat Waiting n) i Returned.
Proof.
  intros n later s. assert (E : s = mkSt true false false 0 (PThrew :: repeat PTest n)) by reflexivity.
  assert (W : map look (repeat PTest n) = repeat Waiting n) by (clear; induction n; cbn; congruence).
  refine (conj _ (conj _ _)).
  - rewrite E. cbn. rewrite W. auto.
  - change 0 with (starts s). apply over_run. rewrite E. split; auto. cbn. intros p [<-|I]; auto. apply repeat_spec in I. auto.
  - intros i L. rewrite E. cbn.
    assert (N : nth_error (repeat PTest n) i = Some PTest) by (rewrite nth_error_repeat; auto). rewrite N. cbn.
    rewrite nth_error_upd_eq by (rewrite repeat_length; auto). cbn. f_equal. rewrite <- W. clear.
    generalize (repeat PTest n). intros l. revert i. induction l as [|x l IH]; intros [|i]; cbn; auto. f_equal. auto.
Qed.
Print Assumptions mt_failed_refuted.
