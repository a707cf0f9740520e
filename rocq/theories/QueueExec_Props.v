(** Properties of the queue executor (C323 to C330).  The schedules begin with a reset, which sets
    the flag that the constructor leaves unset (see C326). *)
From Coq Require Import ZArith Lia Permutation Sorted.
From Verif Require Import Common QueueExec_Spec QueueExec_Model QueueExec_Proof QueueExecLive_Proof.
Import ListNotations.

(** the actions that are being executed *)
Definition executing (l : list qpc) : list nat := flat_map (fun p => match p with Run a => [a] | _ => [] end) l.
Lemma executing_cnt a l : cnt a (executing l) = zsum (runs a) l.
Proof.
  induction l as [|p l IH]; [reflexivity|]. unfold executing in *. cbn [flat_map zsum]. rewrite cnt_app, IH.
  destruct p; cbn [runs]; rewrite ?cnt_cons, ?cnt_nil; lia.
Qed.
(** parts of schedules: [n] steps of thread [w] *)
Definition st_ (w n : nat) : list ev := repeat (Step w Plain) n.
(** a new thread that goes to sleep *)
Definition sleeper (w : nat) : list ev := [Serve] ++ st_ w 5.

(** C323: whatever the clients and the threads do, every action is started at most once, in the order
    of the calls of execute; the actions that were not started wait or were refused by finish; the
    started actions have ended or are being executed *)
Theorem qx_once : forall l, exists s, run (Reset :: l) init = Ok s /\
  in_order (next s) (started s) (queue s) (refused s) /\ Permutation (started s) (ended s ++ executing (ws s)).
Proof.
  intros l. destruct (run_reset l) as (s & E & V). exists s. split; [exact E|]. split; [apply V|].
  apply (Permutation_count_occ Nat.eq_dec). intros a. pose proof (i_run _ V a) as R. rewrite <- executing_cnt in R.
  rewrite count_occ_app. unfold cnt in R. lia.
Qed.
Print Assumptions qx_once.
Example qx_once_ex : (let! s := run (Reset :: [Exec; Exec; Serve] ++ st_ 0 3 ++ [Serve; Exec] ++ st_ 1 2 ++ [Finish; Exec] ++ st_ 0 2) init in
  Ok (next s, started s, queue s, refused s, ended s, ws s)) = Ok (4, [0; 1], [], [3; 2], [0], [Inner; Run 1]).
Proof. vm_compute. reflexivity. Qed.

(** C324: no wake up is lost: if an action waits and a thread serves (it is not on its way out), the
    steps of the threads alone can start the action *)
Theorem qx_progress : forall l s a q w p, Forall (fun e => forall w, e <> Step w CanFinish) l ->
  run (Reset :: l) init = Ok s -> fin s = Some false -> queue s = a :: q ->
  nth_error (ws s) w = Some p -> p <> Leave -> p <> Catch -> p <> Gone ->
  exists l' s', Forall (fun e => exists w, e = Step w Plain) l' /\ run l' s = Ok s' /\ started s' = started s ++ [a].
Proof.
  intros l s a q w p N E F Q W P1 P2 P3. destruct (run_reset l) as (s1 & E1 & V). rewrite E in E1. injection E1 as <-.
  apply (start_next (Z.to_nat (zsum rank (ws s))) s a q V); auto.
  - cbn [run step obind] in E. apply (live_run l (reset init)); auto; [apply reset_inv|]. intros _ X. cbn in X. congruence.
  - pose proof (zsum_le good _ _ _ good_pos W). destruct p; cbn [good] in *; try congruence; lia.
  - pose proof (zsum_pos rank (ws s) rank_pos). lia.
Qed.
Print Assumptions qx_progress.
Example qx_progress_ex : (let! s := run (Reset :: sleeper 0 ++ [Exec]) init in Ok (fin s, queue s, ws s)) = Ok (Some false, [0], [Head]).
Proof. vm_compute. reflexivity. Qed.

(** C325: after finish no action is started until reset; the threads can leave, by their own steps
    alone, and then the gate that stopAll, join and the destructor wait for is open; and when it
    is open, no action is being executed *)
Theorem qx_stop : forall l s, run (Reset :: l) init = Ok s ->
  (gate s = true -> executing (ws s) = []) /\
  (fin s = Some true -> ws s <> [] -> exists l' s', Forall (fun e => exists w, e = Step w Plain) l' /\ run l' s = Ok s' /\
     gate s' = true /\ Forall (fun p => p = Gone) (ws s')) /\
  (fin s = Some true -> forall l' s', ~ In Reset l' -> run l' s = Ok s' -> started s' = started s).
Proof.
  intros l s E. destruct (run_reset l) as (s1 & E1 & V). rewrite E in E1. injection E1 as <-. split; [|split].
  - intros G. pose proof (i_open _ V G) as T0. pose proof (i_thr _ V) as T. rewrite T0 in T.
    destruct (executing (ws s)) as [|a x] eqn:X; [reflexivity|]. assert (Z : (0 < cnt a (executing (ws s)))%Z).
    { rewrite X, cnt_cons. unfold one. rewrite Nat.eqb_refl. unfold cnt. lia. }
    rewrite executing_cnt in Z. destruct (pick _ _ Z) as (w & p & W & P). pose proof (zsum_le inside _ _ _ inside_pos W).
    destruct p; cbn [runs inside] in *; lia.
  - intros F N. destruct (stop_all (Z.to_nat (zsum rank (ws s))) s V F) as (l' & s' & A & E' & V' & G & _ & L).
    { pose proof (zsum_pos rank (ws s) rank_pos). lia. }
    exists l', s'. split; [exact A|]. split; [exact E'|]. assert (GA : Forall (fun p => p = Gone) (ws s')).
    { apply Forall_forall. intros p I. apply In_nth_error in I as (w & I). eauto. }
    split; [|exact GA]. assert (Z : forall f, (forall p, p = Gone -> f p = 0)%Z -> zsum f (ws s') = 0%Z).
    { intros f H. clear - GA H. induction GA as [|p l H1 H2 IH]; cbn [zsum]; [reflexivity|]. rewrite IH, (H p H1). reflexivity. }
    apply (i_last _ V').
    + pose proof (i_thr _ V') as T. rewrite (Z inside) in T; [lia|]. intros p ->. reflexivity.
    + destruct (ws s') as [|p x] eqn:X; [destruct (ws s); [congruence|discriminate]|]. inversion GA; subst. cbn [zsum gone].
      pose proof (zsum_pos gone x gone_pos). lia.
  - intros F l' s' N R. exact (stopped_run l' s s' V F N R).
Qed.
Print Assumptions qx_stop.
Example qx_stop_ex : (let! s := run (Reset :: sleeper 0 ++ sleeper 1 ++ [Exec] ++ st_ 0 1 ++ [Finish]) init in Ok (fin s, ws s, gate s)) =
  Ok (Some true, [Run 0; Head], false).
Proof. vm_compute. reflexivity. Qed.

(** C326: a new executor works: false, the flag that execute and serve read was never written *)
Theorem qx_new_refuted : run [Exec] init = Undef /\ run [Serve; Step 0 Plain; Step 0 Plain] init = Undef.
Proof. split; reflexivity. Qed.
Print Assumptions qx_new_refuted.

(** C327: stopAll, join and the destructor return when no thread is inside: false, as long as no thread
    has ever served, the gate they wait for is closed *)
Theorem qx_gate_refuted : forall l s, ~ In Serve l -> run (Reset :: l) init = Ok s -> gate s = false.
Proof.
  intros l s N E. cbn [run step obind] in E.
  enough (G : forall l s s', ~ In Serve l -> ws s = [] -> gate s = false -> run l s = Ok s' -> gate s' = false) by (eapply G; eauto; reflexivity).
  clear. induction l as [|e l IH]; intros s s' N W G E; cbn [run] in E; [injection E as <-; exact G|].
  assert (NR : ~ In Serve l) by (intros I; apply N; right; exact I).
  assert (WK : forall x, ws x = [] -> ws (wakeThread x) = []).
  { intros x X. destruct (wake_same x) as (_ & _ & _ & _ & _ & _ & _ & _ & _ & L). rewrite X in L. destruct (ws (wakeThread x)); [reflexivity|discriminate]. }
  assert (GK : forall x, gate (wakeThread x) = gate x) by (intros x; apply (wake_same x)).
  destruct e as [| | | |w h]; cbn [step] in E.
  - unfold execute in E. destruct (fin (setNext _ s)) as [[]|]; cbn [obind] in E; [| |discriminate].
    + apply (IH _ _ NR) in E; auto.
    + apply (IH _ _ NR) in E; auto. rewrite GK. exact G.
  - cbn [obind] in E. apply (IH _ _ NR) in E; auto; unfold finish; [apply WK; exact W|rewrite GK; exact G].
  - cbn [obind] in E. apply (IH _ _ NR) in E; auto.
  - destruct N. left. reflexivity.
  - unfold wstep in E. rewrite W in E. destruct w; cbn [nth_error obind] in E; apply (IH _ _ NR) in E; auto.
Qed.
Print Assumptions qx_gate_refuted.
Example qx_gate_ex : (let! s := run (Reset :: [Exec; Finish]) init in Ok (threadsIn s, gate s)) = Ok (0, false).
Proof. reflexivity. Qed.

(** C328: an action does not wait while a serving thread is idle: false, two calls of execute can leave
    one wake up, and then the second action waits for the end of the first one *)
Theorem qx_idle_refuted : exists l s, run (Reset :: l) init = Ok s /\ ws s = [Run 0; Asleep] /\ queue s = [1] /\ fin s = Some false /\
  forall l', Forall (fun e => exists h, e = Step 1 h) l' -> run l' s = Ok s.
Proof.
  exists ([Serve; Serve] ++ st_ 0 4 ++ st_ 1 2 ++ [Exec; Exec] ++ st_ 0 2 ++ st_ 1 1). eexists. split; [vm_compute; reflexivity|].
  split; [reflexivity|]. split; [reflexivity|]. split; [reflexivity|]. induction 1 as [|e l' (h & ->) F IH]; [reflexivity|]. exact IH.
Qed.
Print Assumptions qx_idle_refuted.

(** C329: isRunning says whether an action is being executed: false in both directions, the counter is
    decremented without the lock *)
Theorem qx_running_refuted :
  (exists l s, run (Reset :: l) init = Ok s /\ isRunning s = false /\ executing (ws s) = [1]) /\
  (exists l s, run (Reset :: l) init = Ok s /\ isRunning s = true /\ ws s = [Asleep; Asleep]).
Proof.
  split.
  - exists ([Serve; Serve; Exec; Exec] ++ st_ 0 4 ++ st_ 1 2 ++ st_ 0 1). eexists. split; [vm_compute; reflexivity|]. split; reflexivity.
  - exists ([Serve; Serve; Exec; Exec] ++ st_ 0 2 ++ st_ 1 2 ++ st_ 0 2 ++ st_ 1 2 ++ st_ 0 5 ++ st_ 1 5). eexists. split; [vm_compute; reflexivity|]. split; reflexivity.
Qed.
Print Assumptions qx_running_refuted.

(** C330: an action is executed if a thread serves that was not asked to finish: false, a thread that
    was asked to finish may go to sleep and take the only wake up with it *)
Theorem qx_finish_refuted : exists l s, run (Reset :: l) init = Ok s /\ ws s = [Asleep; Asleep] /\ queue s = [1] /\ fin s = Some false /\
  Forall (fun e => e <> Step 1 CanFinish) l /\ forall l', Forall (fun e => exists w h, e = Step w h) l' -> run l' s = Ok s.
Proof.
  exists ([Serve; Serve] ++ st_ 0 4 ++ st_ 1 2 ++ [Exec; Exec] ++ st_ 0 2 ++ st_ 1 1 ++ st_ 0 3 ++ [Step 0 CanFinish] ++ st_ 0 1).
  eexists. split; [vm_compute; reflexivity|].
  split; [reflexivity|]. split; [reflexivity|]. split; [reflexivity|]. split; [repeat constructor; discriminate|].
  induction 1 as [|e l' (w & h & ->) F IH]; [reflexivity|]. cbn [run step].
  match goal with |- (let! s := wstep w h ?x in _) = _ => replace (wstep w h x) with (Ok x) end; [exact IH|].
  destruct w as [|[|[|w]]]; reflexivity.
Qed.
Print Assumptions qx_finish_refuted.
