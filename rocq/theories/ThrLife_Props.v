(** Properties of the life of a thread. *)
From Verif Require Import Common ThrLife_Spec ThrLife_Model ThrLife_Proof.

(** C531: a client that starts a function, joins, and does so again any number of
    times, where no function throws and the system makes the threads: in every
    schedule the k-th function begins after the (k-1)-th join returned and ends
    before the k-th join returns, start never fails; the object is not touched
    when it does not exist; somebody can always go on until the client is done,
    and then isRunning is false, so that the object can be destroyed and no
    thread has anything to do with it any more *)
Theorem thr_rounds : forall n sched, Forall nice sched ->
  let s := run sched (init [rounds n]) in
  bad s = false /\ (exists k m, k <= n /\ orderly k (log s ++ m)) /\
  ((exists a, nice a /\ step a s <> None) \/
   (clients s = [mkC Idle [] false] /\ orderly n (log s) /\ open s = true /\ forall w thr, step (W w thr) s = None)).
Proof.
  intros n sched F. cbv zeta. pose proof (run_inv n sched _ (inv_init n) F) as I.
  set (s := run sched (init [rounds n])) in *. clearbody s. split; [destruct I; reflexivity|]. split.
  - destruct I as [k m l D M O _|k m l D M O _|k m l D M O _|k m l D p w i c o sr e M O _ _ Es _|k m l D e M O _ Es]; cbn [log].
    + exists k, []. rewrite app_nil_r. split; [lia|auto].
    + exists k, []. rewrite app_nil_r. split; [lia|auto].
    + exists k, []. rewrite app_nil_r. split; [lia|auto].
    + destruct (evs_more _ _ _ _ Es) as (r & Er). exists (S k), (r ++ [Joined 0]). split; [lia|].
      pose proof (evs_round _ _ _ O Er) as R. rewrite <- !app_assoc in *. exact R.
    + exists (S k), [Joined 0]. split; [lia|]. apply evs_round; auto.
  - destruct (inv_progress n s I) as [E|X]; [right|left; auto].
    split; auto. destruct I as [k m l D M O F0|k m l D M O F0|k m l D M O F0|k m l D p w i c o sr e M O F0 Ws Es Sw|k m l D e M O F0 Es]; cbn [clients] in E;
      try discriminate E.
    + destruct m; [|discriminate E]. cbn [log open]. assert (k = n) by lia. subst k. split; auto. split; auto.
      intros w thr. cbn [step workers]. destruct (nth_error D w) as [x|] eqn:X; auto.
      eapply done_no_step; eauto.
    + destruct sr; discriminate E.
Qed.
Print Assumptions thr_rounds.
Definition ws (n w : nat) : list act := repeat (W w false) n.
Definition cs (n c : nat) : list act := repeat (C c false) n.
Example thr_rounds_example : exists s,
  run (cs 4 0 ++ ws 4 0 ++ cs 2 0 ++ ws 3 0 ++ cs 5 0 ++ ws 7 1 ++ cs 3 0) (init [rounds 2]) = s /\
  log s = [Begin 0; Started 0; End_ 0; Joined 0; Begin 1; End_ 1; Started 0; Joined 0] /\ open s = true /\
  Forall nice (cs 4 0 ++ ws 4 0 ++ cs 2 0 ++ ws 3 0 ++ cs 5 0 ++ ws 7 1 ++ cs 3 0).
Proof. eexists. split; [reflexivity|]. do 2 (split; [vm_compute; reflexivity|]). repeat constructor. Qed.

(** C532: after a function that throws, the thread finishes twice: join returns after
    the first time, then the object may be destroyed and is touched later *)
Theorem thr_throw_refuted : exists sched s, run sched (init [[Start; Join; Destroy]]) = s /\
  In (Joined 0) (log s) /\ alive s = false /\ bad s = true.
Proof.
  exists (cs 3 0 ++ ws 4 0 ++ cs 1 0 ++ [W 0 true] ++ ws 2 0 ++ cs 4 0 ++ ws 1 0). eexists. split; [reflexivity|].
  vm_compute. auto 10.
Qed.
Print Assumptions thr_throw_refuted.

(** C533: the same makes the join of the next function return while it runs *)
Theorem thr_throw_join_refuted : exists sched s, run sched (init [rounds 2]) = s /\
  log s = [Begin 0; Started 0; End_ 0; Joined 0; Begin 1; Started 0; Joined 0].
Proof.
  exists (cs 3 0 ++ ws 4 0 ++ cs 1 0 ++ [W 0 true] ++ ws 2 0 ++ cs 2 0 ++ cs 3 0 ++ ws 4 1 ++ cs 1 0 ++ ws 2 0 ++ cs 2 0).
  eexists. split; [reflexivity|]. vm_compute. reflexivity.
Qed.
Print Assumptions thr_throw_join_refuted.

(** C534: when the system cannot make the thread, start throws but the object stays in
    the state "running": whatever happens next, join and the destructor do not return *)
Definition stuck (p : list call) (s : st) : Prop :=
  s = mkSt None false true false [mkC Idle p false] [] [NoThread 0].
Theorem thr_no_thread_refuted : forall c p, c = Join \/ c = Destroy ->
  let s := run [C 0 false; C 0 false; C 0 true] (init [Start :: c :: p]) in
  log s = [NoThread 0] /\ forall sched, let s' := run sched s in open s' = false /\ alive s' = true /\ log s' = [NoThread 0].
Proof.
  intros c p Hc. cbv zeta. assert (K : stuck (c :: p) (run [C 0 false; C 0 false; C 0 true] (init [Start :: c :: p]))) by reflexivity.
  split; [rewrite K; reflexivity|]. set (s := run _ _) in *. clearbody s. unfold stuck in K. subst s.
  induction sched as [|a sched IH]; [cbn; auto|]. cbn [run].
  replace (step a _) with (@None st); [exact IH|].
  destruct a as [[|i] fl|w thr]; cbn; [|destruct i; reflexivity|destruct w; reflexivity].
  destruct Hc as [ -> | -> ]; reflexivity.
Qed.
Print Assumptions thr_no_thread_refuted.

(** C535: start does not wait for the end of the previous thread: a client that starts
    again (and is not told that the thread is busy) may see join return while
    the second function runs, no function throws *)
Theorem thr_early_join_refuted : exists sched s, Forall nice sched /\ run sched (init [[Start; Start; Join]]) = s /\
  log s = [Begin 0; Started 0; End_ 0; Begin 1; Started 0; Joined 0].
Proof.
  exists (cs 3 0 ++ ws 4 0 ++ cs 1 0 ++ ws 2 0 ++ cs 3 0 ++ ws 4 1 ++ cs 1 0 ++ ws 1 0 ++ cs 2 0).
  eexists. split; [repeat constructor|]. split; [reflexivity|]. vm_compute. reflexivity.
Qed.
Print Assumptions thr_early_join_refuted.

(** C536: join writes to the object after it has waited: when another client has started
    a function meanwhile, this is forgotten and a third start runs at the same time *)
Theorem thr_two_clients_refuted : exists sched s, Forall nice sched /\ run sched (init [[Start; Join; Start]; [Start]]) = s /\
  running (log s) = 2.
Proof.
  exists (cs 3 0 ++ ws 4 0 ++ cs 1 0 ++ ws 3 0 ++ cs 1 0 ++ cs 3 1 ++ ws 4 1 ++ cs 1 0 ++ cs 3 0 ++ ws 4 2).
  eexists. split; [repeat constructor|]. split; [reflexivity|]. vm_compute. reflexivity.
Qed.
Print Assumptions thr_two_clients_refuted.
