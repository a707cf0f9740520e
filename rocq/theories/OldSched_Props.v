(** Properties of the old scheduler (C342 to C348). *)
From Coq Require Import ZArith Permutation Sorted.
From Verif Require Import Common OldSched_Spec OldSched_Model OldSched_Proof.
Open Scope Z_scope.

Definition w (n : nat) : list act := repeat Work n.
Fixpoint posted (l : list act) : nat := match l with [] => 0 | (Post _ | Prio) :: t => S (posted t) | _ :: t => posted t end.
(** the numbers of the priority messages, if [n] messages were posted before *)
Fixpoint prios (n : nat) (l : list act) : list nat :=
  match l with [] => [] | Prio :: t => n :: prios (S n) t | Post _ :: t => prios (S n) t | _ :: t => prios n t end.
Definition ran_of (l : list act) : list (Z * Z) := match run l init with Some s => map (fun p => (Z.of_nat (tid (fst p)), snd p)) (ran s) | None => [] end.
(** plain messages, a priority message and events, one of them posted while the worker sleeps *)
Definition sched1 : list act :=
  [Post (Some 5); Post None; Post (Some 3); Prio] ++ w 14 ++ [Tick 3] ++ w 12 ++ [Post (Some 4)] ++ w 12 ++ [Tick 9] ++ w 40.
Definition sched2 : list act := [Post (Some 5); Post (Some 9); Post (Some 5); Post (Some 2)] ++ w 7 ++ [Post (Some 5); Tick 6] ++ w 60.

(** C342: every message is run at most once and is not lost: the messages that were run together with those that wait are
    exactly the posted ones; the sort of the new messages always ends and the worker is never stuck *)
Theorem os_once : forall l s, tame l init -> run l init = Some s ->
  Permutation (map (fun p => tid (fst p)) (ran s) ++ map tid (cur s ++ held s ++ new s)) (seq 0 (posted l)) /\ wstep s <> None.
Proof.
  intros l s T E. destruct (run_ok l _ _ init_inv T E) as [V N]. split; [|apply never_stuck; auto].
  assert (Q : forall l s s', run l s = Some s' -> nid s' = (nid s + posted l)%nat).
  { clear. induction l as [|a l IH]; cbn; intros s s' E; [injection E as <-; lia|]. destruct (step a s) as [s1|] eqn:S; [|discriminate].
    rewrite (IH _ _ E). destruct a; cbn in S; try (injection S as <-; cbn; lia).
    f_equal. unfold wstep in S. destruct (pc s) as [|k|k c|k c l'|k l'| | |]; try (injection S as <-; reflexivity).
    - destruct (new s) as [|m0 n0]; [injection S as <-; reflexivity|]. destruct (sortList c (m0 :: n0)); try discriminate. injection S as <-. reflexivity.
    - destruct (cur s); injection S as <-; reflexivity. }
  specialize (Q _ _ _ E). cbn in Q. rewrite <- Q. apply (j_perm _ V).
Qed.
Example os_once_ex : tame sched1 init /\ ran_of sched1 = [(0, 12); (4, 12); (2, 3); (1, 0); (3, 0)].
Proof. split; [apply tameb_ok; vm_compute; reflexivity|]. vm_compute. reflexivity. Qed.

(** C343: no event is run before its time *)
Theorem os_never_early : forall l s m t T, tame l init -> run l init = Some s -> In (m, t) (ran s) -> due m = Some T -> T <= t.
Proof. intros l s m t T TM E. destruct (run_ok l _ _ init_inv TM E) as [V _]. apply (j_ran _ V). Qed.
Example os_never_early_ex : tame sched2 init /\ match run sched2 init with Some s => map (fun p => (due (fst p), snd p)) (ran s) | None => [] end = [(Some 5, 6); (Some 5, 6); (Some 5, 6); (Some 2, 6)].
Proof. split; [apply tameb_ok; vm_compute; reflexivity|]. vm_compute. reflexivity. Qed.

(** C344: getWaitTime gives exactly the time until the first message may be run, and it takes all messages into account that
    were posted before it was called *)
Theorem os_wait : forall l s, tame l init -> run l init = Some s -> pc s = S4 ->
  sleep_ok (now s) (cur s) (waitTime (now s) (cur s)) /\
  (forall m, In m (cur s ++ held s ++ new s) -> (tid m < mark s)%nat -> In m (cur s)).
Proof.
  intros l s T E P. destruct (run_ok l _ _ init_inv T E) as [V N]. split.
  - apply wait_ok; [apply (j_cur _ V)|]. intros m t I D. destruct (N m t) as [A B]; [apply in_or_app; auto|exact D|]. unfold clock in B. rewrite P in B. lia.
  - intros m I L. unfold held in I. rewrite P in I. apply in_app_or in I. destruct I as [I|I]; [exact I|]. cbn [app] in I.
    destruct (j_mark _ V) as [_ M]. rewrite P in M. specialize (M m I). lia.
Qed.
Example os_wait_ex : let l := [Tick 2; Post (Some 9); Post (Some 7); Post (Some 8)] ++ w 5 ++ [Tick 1; Post (Some 1)] in tame l init /\
  match run l init with Some s => Some (pc s, waitTime (now s) (cur s), mark s) | None => None end = Some (S4, Some 4, 3%nat).
Proof. cbv zeta. split; [apply tameb_ok; vm_compute; reflexivity|]. vm_compute. reflexivity. Qed.

(** C345: whenever a message that may be run waits, finitely many steps of the worker alone run a message *)
Theorem os_progress : forall l s m, tame l init -> run l init = Some s -> In m (cur s ++ held s ++ new s) -> delay (now s) m = 0 ->
  exists k s', run (repeat Work k) s = Some s' /\ length (ran s') = S (length (ran s)).
Proof. intros l s m T E I D. destruct (run_ok l _ _ init_inv T E) as [V N]. apply (progress (S (mu s)) s m); auto. Qed.
Example os_progress_ex : let l := [Post (Some 9)] ++ w 6 ++ [Post (Some 4); Tick 4] in tame l init /\
  match run l init with Some s => Some (pc s, map tid (cur s), map tid (new s), now s) | None => None end = Some (S6, [0%nat], [1%nat], 4).
Proof. cbv zeta. split; [apply tameb_ok; vm_compute; reflexivity|]. vm_compute. reflexivity. Qed.

(** C346: if all messages are events, they are run by time, those with the same time in the order of posting; if none is,
    all are run in the order of posting: when a message is run, it goes before every waiting message that was posted
    before pumpMessage was called *)
Theorem os_order : forall b l s s' x, tame l init -> Forall (fits b) l -> run l init = Some s -> wstep s = Some s' -> ran s' = (x, now s) :: ran s ->
  forall y, In y (cur s' ++ held s' ++ new s') -> (tid y < mark s)%nat -> before x y.
Proof.
  intros b l s s' x T F R E X y I L. destruct (run_ok l _ _ init_inv T R) as [V N]. pose proof (hrun_ok b l _ _ init_inv (init_hinv b) F T R) as H.
  assert (Z : forall A (a : A) r, r = a :: r -> False) by (intros A a r Q; apply (f_equal (@length A)) in Q; cbn in Q; lia).
  pose proof (j_mark _ V) as [_ M]. unfold wstep in E. destruct (pc s) as [|k|k c|k c l'|k l'| | |] eqn:P.
  1,2,4,5,6,8: injection E as <-; cbn in X; exfalso; exact (Z _ _ _ X).
  - destruct (new s) as [|m0 n0]; [injection E as <-; cbn in X; exfalso; exact (Z _ _ _ X)|].
    destruct (sortList c (m0 :: n0)); try discriminate. injection E as <-. cbn in X. exfalso. exact (Z _ _ _ X).
  - destruct (cur s) as [|m r] eqn:C; injection E as <-; cbn in X; [exfalso; exact (Z _ _ _ X)|]. injection X as <-.
    cbn [cur new held pc] in I. apply in_app_or in I. destruct I as [I|I].
    + pose proof (h_cur _ _ H) as S. rewrite C in S. apply StronglySorted_inv in S as [_ S]. rewrite Forall_forall in S. apply S. exact I.
    + cbn in I. specialize (M y I). lia.
Qed.
Example os_order_ex : tame sched2 init /\ Forall (fits true) sched2 /\ ran_of (sched2 ++ [Tick 9] ++ w 20) = [(1, 15); (4, 6); (2, 6); (0, 6); (3, 6)].
Proof. split; [apply tameb_ok; vm_compute; reflexivity|]. split; [unfold sched2, w; cbn; repeat constructor|]. vm_compute. reflexivity. Qed.

(** C347: if plain messages are mixed with events, the events that are due need not be run by their times: a new event is put
    before a waiting plain message, and so before an event with an earlier time behind that *)
Theorem os_order_refuted : ~ (forall l s s' x y, tame l init -> run l init = Some s -> wstep s = Some s' -> ran s' = (x, now s) :: ran s ->
  In y (cur s' ++ held s' ++ new s') -> (tid y < mark s)%nat -> due x <> None -> due y <> None -> key x <= key y).
Proof.
  intros H.
  set (l := [Post None; Post None; Post (Some 1)] ++ w 7 ++ [Tick 6; Post (Some 5)] ++ w 6).
  assert (X : exists s s', run l init = Some s /\ wstep s = Some s' /\ ran s' = (mkT 3 (Some 5), now s) :: ran s /\ In (mkT 2 (Some 1)) (cur s' ++ held s' ++ new s') /\ mark s = 4%nat).
  { eexists. eexists. split; [vm_compute; reflexivity|]. split; [vm_compute; reflexivity|]. cbn. auto. }
  destruct X as (s & s' & R & E & A & I & M).
  assert (T : tame l init) by (apply tameb_ok; vm_compute; reflexivity).
  specialize (H l s s' (mkT 3 (Some 5)) (mkT 2 (Some 1)) T R E A I). rewrite M in H. cbn in H.
  assert (5 <= 1) by (apply H; [lia|discriminate|discriminate]). lia.
Qed.

(** C348: priority messages do not always go first: a new event that is overdue is put before a priority message that waits *)
Theorem os_prio_refuted : ~ (forall l s s' x y, tame l init -> run l init = Some s -> wstep s = Some s' -> ran s' = (x, now s) :: ran s ->
  In y (cur s' ++ held s' ++ new s') -> (tid y < mark s)%nat -> In (tid y) (prios 0 l) -> In (tid x) (prios 0 l)).
Proof.
  intros H.
  set (l := [Tick 5; Prio; Post (Some 3)] ++ w 6).
  assert (X : exists s s', run l init = Some s /\ wstep s = Some s' /\ ran s' = (mkT 1 (Some 3), now s) :: ran s /\ In (mkT 0 None) (cur s' ++ held s' ++ new s') /\ mark s = 2%nat).
  { eexists. eexists. split; [vm_compute; reflexivity|]. split; [vm_compute; reflexivity|]. cbn. auto. }
  destruct X as (s & s' & R & E & A & I & M).
  assert (T : tame l init) by (apply tameb_ok; vm_compute; reflexivity).
  specialize (H l s s' (mkT 1 (Some 3)) (mkT 0 None) T R E A I). rewrite M in H. cbn in H.
  destruct H as [H|H]; auto; discriminate.
Qed.

Print Assumptions os_once.
Print Assumptions os_never_early.
Print Assumptions os_wait.
Print Assumptions os_progress.
Print Assumptions os_order.
Print Assumptions os_order_refuted.
Print Assumptions os_prio_refuted.
