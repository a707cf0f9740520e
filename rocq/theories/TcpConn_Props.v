(** Theorems about the connections of TCPServer, C487-C494 *)
From Verif Require Import Common TcpConn_Spec TcpConn_Model TcpConn_Proof.
Open Scope N_scope.

Lemma plain_fine l : Forall plain l -> Forall (fine false) l.
Proof. intros F. induction F as [|a l A F IH]; constructor; auto. destruct a; cbn in *; auto. discriminate. Qed.
Lemma single_fine l : Forall plain l -> Forall single l -> Forall (fine true) l.
Proof. intros F. induction F as [|a l A F IH]; intros G; constructor; inversion G; subst; auto. destruct a; cbn in *; auto. Qed.

(** C487: whatever the schedule of the threads, the server does not touch a removed connection; the handler is called once at a
    time, only for what its last answer asked for, and not after the removal *)
Theorem tcp_protocol : forall l, Forall plain l -> exists h s, run l [] init = Ok (h, s) /\ proto h <> None.
Proof.
  intros l F. destruct (run_ok false l init [] (init_ok false) (plain_fine l F)) as (x & E & I). exists (fst x), (snd x). split; [rewrite E; now destruct x|].
  destruct I as [Ht]. destruct Ht; congruence.
Qed.
Print Assumptions tcp_protocol.
Definition demo : list lab :=
  [LAccept CReadWrite; LWake 7; LFire 2; LCheck; LWaker 0; LDispatch true true; LStart; LRet 0 CRead; LWaker 0; LRun 0; LFire 5; LCheck; LDispatch true true; LStart;
   LRet 0 CWake; LRun 0; LRun 0; LRun 0; LRet 0 CWake; LRun 0; LWake 8; LWake 9; LWaker 0; LWaker 0; LWaker 1; LWaker 1; LWaker 0; LWaker 1; LWaker 0; LStart; LWaker 0; LWaker 0; LRet 0 CWake].
Example tcp_protocol_ex :
  match run demo [] init with Ok (h, s) => h = [ERet CWake; EWoken; ECb (CbUser (Some 9%nat)); EWoken; EWake 9; EWake 8; ERet CWake; ECb (CbUser (Some 7%nat)); ERet CWake; ECb CbData; EWoken; ERet CRead; ECb CbWrite; EWake 7; ERet CReadWrite]
    /\ proto h = Some (PWait CWake) /\ ws s = 2 | _ => False end.
Proof. vm_compute. repeat split. Qed.

(** C488: a connection is never left sleeping after a wake-up call that has returned *)
Theorem tcp_wake_not_lost : forall l h s, Forall plain l -> run l [] init = Ok (h, s) -> asleep s -> pending h = false.
Proof.
  intros l h s F E (A1 & A2 & A3 & A4 & A5 & A6 & A7). destruct (run_ok false l init [] (init_ok false) (plain_fine l F)) as (x & E2 & I). rewrite E in E2. injection E2 as <-. cbn [fst snd] in I.
  destruct I as [Ht _ Hp]. destruct (pending h); [|reflexivity]. exfalso. rewrite A1, A2, (nExec_none _ A3), A4, A5, A6, A7 in Ht.
  destruct (Hp eq_refl) as [X|[X|X]].
  - rewrite X in Ht. inversion Ht.
  - rewrite A1 in X. discriminate X.
  - rewrite A2 in X. discriminate X.
Qed.
Print Assumptions tcp_wake_not_lost.
Example tcp_wake_not_lost_ex :
  match run (demo ++ [LRun 0; LRun 0; LRun 0; LRet 0 CWake; LRun 0]) [] init with Ok (h, s) => asleep s /\ nWake h = 3%nat /\ nUser h = 3%nat /\ pending h = false | _ => False end.
Proof. vm_compute. repeat split; auto. Qed.

(** C489: the handler is called for wake-ups at most as often as wakeUp was called, with reasons that were passed *)
Theorem tcp_wake_count : forall l h s, Forall plain l -> run l [] init = Ok (h, s) -> (nUser h <= nWake h)%nat /\ reasons h.
Proof.
  intros l h s F E. destruct (run_ok false l init [] (init_ok false) (plain_fine l F)) as (x & E2 & I). rewrite E in E2. injection E2 as <-. cbn [fst snd] in I.
  destruct I as [_ Hc _ _ _ Hs _ _]. split; [lia|exact Hs].
Qed.
Print Assumptions tcp_wake_count.
Example tcp_wake_count_ex :
  match run (demo ++ [LWake 4; LWaker 0; LWaker 0; LRun 0; LRun 0; LRun 0; LRet 0 CRemove; LRun 0]) [] init with
  Ok (h, s) => nWake h = 4%nat /\ nUser h = 3%nat /\ proto h = Some PGone | _ => False end.
Proof. vm_compute. repeat split. Qed.

(** C490: while no event is input and output at once, a connection is removed only when the handler answers so, after
    onDisconnectByPeer, or when no thread can be had *)
Theorem tcp_removal : forall l h s, Forall plain l -> Forall single l -> run l [] init = Ok (h, s) -> removals h.
Proof.
  intros l h s F G E. destruct (run_ok true l init [] (init_ok true) (single_fine l F G)) as (x & E2 & I). rewrite E in E2. injection E2 as <-. cbn [fst snd] in I.
  apply I. reflexivity.
Qed.
Print Assumptions tcp_removal.
Example tcp_removal_ex :
  match run [LAccept CReadWrite; LFire 2; LCheck; LDispatch true true; LStart; LRet 0 CRead; LRun 0; LFire 1; LWake 3; LCheck; LDispatch false true] [] init with
  Ok (h, s) => h = [EFree; ECb CbDisc; EWake 3; ERet CRead; ECb CbWrite; ERet CReadWrite] | _ => False end.
Proof. vm_compute. reflexivity. Qed.

(** C491 is false: a connection that waits for input or output is removed without any call when both are ready *)
Theorem tcp_both_refuted : ~ (forall l h s, Forall plain l -> run l [] init = Ok (h, s) -> removals h).
Proof.
  intros H. set (l := [LAccept CReadWrite; LFire 3; LCheck; LDispatch true true; LStart; LRun 0]).
  destruct (run l [] init) as [[h s]| | |] eqn:E; try (vm_compute in E; discriminate E).
  specialize (H l h s ltac:(repeat constructor) E). vm_compute in E. injection E as <- <-. cbn in H. apply H.
Qed.
Print Assumptions tcp_both_refuted.

(** C492 is false: when onAccept answers cmdWaitUserWakeup, a wake-up is recorded and the connection sleeps on *)
Theorem tcp_accept_wake_refuted : ~ (forall l h s, Forall running l -> run l [] init = Ok (h, s) -> asleep s -> pending h = false).
Proof.
  intros H. set (l := [LAccept CWake; LWake 5; LWaker 0; LWaker 0]).
  destruct (run l [] init) as [[h s]| | |] eqn:E; try (vm_compute in E; discriminate E).
  specialize (H l h s ltac:(repeat constructor) E). vm_compute in E. injection E as <- <-. assert (X : true = false); [|discriminate X].
  apply H. vm_compute. repeat split; auto.
Qed.
Print Assumptions tcp_accept_wake_refuted.

(** C493 is false: a reason passed once is given to the handler twice, and the reason of another call never *)
Theorem tcp_reason_refuted : ~ (forall l h s r, Forall plain l -> run l [] init = Ok (h, s) ->
  (length (filter (fun e => match e with EWake q => Nat.eqb q r | _ => false end) h) <= 1)%nat ->
  (length (filter (fun e => match e with ECb (CbUser (Some q)) => Nat.eqb q r | _ => false end) h) <= 1)%nat).
Proof.
  intros H. set (l := [LAccept CRead; LFire 1; LCheck; LDispatch true true; LStart; LWake 1; LWaker 0; LWaker 0; LRet 0 CWake; LRun 0; LRun 0;
    LWake 2; LWaker 0; LRun 0; LWaker 0; LRet 0 CWake; LRun 0; LRun 0; LRun 0]).
  destruct (run l [] init) as [[h s]| | |] eqn:E; try (vm_compute in E; discriminate E).
  specialize (H l h s 2%nat ltac:(repeat constructor) E). vm_compute in E. injection E as <- <-. vm_compute in H. specialize (H (le_n _)).
  apply (Nat.nle_succ_diag_l 1). exact H.
Qed.
Print Assumptions tcp_reason_refuted.

(** C494 is false: a call that passed the check of the shutdown flag gives the connection to a thread after the threads have been
    stopped; the connection is destroyed and then used *)
Theorem tcp_stop_refuted : ~ (forall l, run l [] init <> Undef).
Proof.
  intros H. apply (H [LAccept CRead; LFire 1; LCheck; LStop; LStop; LDispatch true true; LStop; LStop; LStart]). vm_compute. reflexivity.
Qed.
Print Assumptions tcp_stop_refuted.
