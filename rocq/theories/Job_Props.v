(** Properties of jobs. *)
From Verif Require Import Common Job_Spec Job_Model Job_Proof.

(** Whatever the interleaving of the calls, they behave as if each was done at once, in the order in which they end. *)
Theorem job_atomic : forall n l, let w := run n l in chain NotRunning (calls w) (st w).
Proof. intros n l. apply (run_inv n l). Qed.
(** two threads wake up a job while a third one puts it to sleep *)
Definition sched1 : list event :=
  [Call 0 Start; Step 0; Call 0 Take; Step 0; Call 0 Sleep; Call 1 Wake; Call 2 Wake; Step 0; Step 1; Step 2; Step 1; Step 0; Step 2; Step 0; Step 2; Step 0].
Example job_atomic_ex : calls (run 3 sched1) = [(Start, NotRunning); (Take, Ready); (Wake, Running); (Wake, RunEvent); (Sleep, RunEvent)] /\ st (run 3 sched1) = Ready.
Proof. split; reflexivity. Qed.
(** An event that comes while the job runs is not lost: the next sleep makes the job ready instead. *)
Theorem job_event : forall n l l1 l2 r l3, calls (run n l) = l1 ++ (Wake, Running) :: l2 ++ (Sleep, r) :: l3 ->
  (forall x, In x l2 -> fst x <> Stop /\ fst x <> Sleep) -> r = RunEvent /\ chain Ready l3 (st (run n l)).
Proof.
  intros n l l1 l2 r l3 E H. pose proof (job_atomic n l) as C. cbv zeta in C. rewrite E in C. apply chain_app in C. destruct C as (m & _ & C).
  cbn [chain] in C. destruct C as (<- & C). cbn [next] in C. apply chain_app in C. destruct C as (m & C2 & C3).
  assert (M : m = RunEvent).
  { clear C3 E. revert H C2. induction l2 as [|[o s] l2 IH]; intros H C2; cbn [chain] in C2; [congruence|]. destruct C2 as (-> & C2).
    destruct (H (o, RunEvent) (or_introl eq_refl)) as (N1 & N2). cbn [fst] in *. apply IH; [intros x X; apply H; right; exact X|]. destruct o; try congruence; exact C2. }
  subst m. cbn [chain next] in C3. exact C3.
Qed.
Example job_event_ex : exists l1 l2 l3, calls (run 3 sched1) = l1 ++ (Wake, Running) :: l2 ++ (Sleep, RunEvent) :: l3 /\ (forall x, In x l2 -> fst x <> Stop /\ fst x <> Sleep).
Proof. exists [(Start, NotRunning); (Take, Ready)], [(Wake, RunEvent)], []. split; [reflexivity|]. intros x [<-|[]]. split; discriminate. Qed.
(** A job made ready is taken by one runner only: between two successful takings it was made ready again. *)
Theorem job_once : forall n l l1 l2 l3, calls (run n l) = l1 ++ (Take, Ready) :: l2 ++ (Take, Ready) :: l3 -> exists x, In x l2 /\ readies x.
Proof.
  intros n l l1 l2 l3 E. pose proof (job_atomic n l) as C. cbv zeta in C. rewrite E in C. apply chain_app in C. destruct C as (m & _ & C).
  cbn [chain] in C. destruct C as (<- & C). cbn [next] in C. apply chain_app in C. destruct C as (m & C2 & C3). cbn [chain] in C3. destruct C3 as (<- & _).
  assert (G : forall l s, s <> Ready -> chain s l Ready -> exists x, In x l /\ readies x).
  { clear. induction l as [|[o r] l IH]; intros s N C; cbn [chain] in C; [contradiction|]. destruct C as (-> & C).
    assert (D : next o s = Ready \/ next o s <> Ready) by (destruct (next o s); (left; reflexivity) || (right; discriminate)).
    destruct D as [D|D].
    - exists (o, s). split; [left; reflexivity|]. unfold readies. destruct o, s; cbn in D; try discriminate D; auto; contradiction.
    - destruct (IH _ D C) as (x & X & R). exists x. split; [right; exact X|exact R]. }
  exact (G l2 Running ltac:(discriminate) C2).
Qed.
Example job_once_ex : calls (run 1 [Call 0 Start; Step 0; Call 0 Take; Step 0; Call 0 Sleep; Step 0; Step 0; Call 0 Wake; Step 0; Step 0; Call 0 Take; Step 0]) =
  [(Start, NotRunning)] ++ (Take, Ready) :: [(Sleep, Running); (Wake, Sleeping)] ++ (Take, Ready) :: [].
Proof. reflexivity. Qed.
(** FALSE: execute runs the action, and wakeUp of a sleeping job runs it.  The loop runs while the job is not ready, so the action is
    never called and the job stays in the state running. *)
Theorem job_execute_refuted : forall fuel act, execute fuel act NotRunning = Ok (Running, 0) /\ wakeUp fuel act Sleeping = Ok (Running, 0).
Proof. intros fuel act. split; apply runLoop_ready. Qed.
(** FALSE: run of a job that is not ready does nothing.  It calls the action without end, unless the action makes the job ready. *)
Theorem job_run_refuted : forall act s, (forall s', s' <> Ready -> act s' <> Ready) -> s <> Ready -> forall fuel, runJob fuel act s = NoFuel.
Proof.
  intros act s A N fuel. unfold runJob. generalize 0%nat as n. revert s N. induction fuel as [|fuel IH]; intros s N n; cbn [runLoop].
  - destruct s; try reflexivity. contradiction.
  - assert (E : eqS s Ready = false) by (destruct s; try reflexivity; contradiction). rewrite E. cbn [negb]. apply IH. apply A. exact N.
Qed.
Example job_run_ex : (forall s', s' <> Ready -> (fun s : state => s) s' <> Ready) /\ NotRunning <> Ready /\ runJob 1000 (fun s => s) NotRunning = NoFuel.
Proof. split; [tauto|]. split; [discriminate|vm_compute; reflexivity]. Qed.
Print Assumptions job_atomic.
Print Assumptions job_event.
Print Assumptions job_once.
Print Assumptions job_execute_refuted.
Print Assumptions job_run_refuted.
