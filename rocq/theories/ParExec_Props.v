(** Properties of the parallel executor (C291 to C296). *)
From Coq Require Import ZArith Lia.
From Verif Require Import Common ParExec_Model ParExec_Proof ParExecLive_Proof.
Import ListNotations.
Local Open Scope Z_scope.

(** parts of schedules: [n] steps of the caller, [n] steps of a worker *)
Definition c_ (n : nat) : list ev := repeat (Call false) n.
Definition w_ (w n : nat) : list ev := repeat (Wrk w false) n.
(** an action is given to a new worker [w], executed, and the worker goes to sleep *)
Definition first (w : nat) : list ev := [Exec] ++ c_ 6 ++ w_ w 4 ++ c_ 1 ++ w_ w 6.
(** a sleeping worker's idle time is over, it counts itself out *)
Definition idle (w : nat) : list ev := [Wrk w true; Wrk w false].

(** C291: no memory of a call that is over is used, no action is executed twice, an action is
    executed once if execute returned (at the latest by the worker that is about to), and never
    if execute has thrown the timeout *)
Theorem exec_once : forall k l, exists s, run k l init = Ok s /\
  (forall a, (count_occ Nat.eq_dec (ran s) a <= 1)%nat) /\
  (forall a, In (a, true) (done s) -> In a (ran s) /\ (forall h, ~ In (Work h a) (ws s)) \/ ~ In a (ran s) /\ exists h, In (Work h a) (ws s)) /\
  (forall a, In (a, false) (done s) -> ~ In a (ran s) /\ forall h, ~ In (Work h a) (ws s)).
Proof.
  intros k l. destruct (run_ok k l init init_inv) as (s & E & V). exists s. split; [exact E|].
  pose proof (i_tok _ V) as T. assert (P : forall a, 0 <= actZ a (act s) /\ 0 <= zsum (early a) (ws s) /\ 0 <= zsum (works a) (ws s) /\ 0 <= cnt a (ran s)).
  { intros a. repeat split; [apply actZ_pos|apply zsum_pos, early_pos|apply zsum_pos, works_pos|apply cnt_pos]. }
  assert (W : forall a, want a (next s) (call s) (done s) <= 1) by (intros a; unfold want; destruct (_ && _)%bool; lia).
  assert (CI : forall a, 0 < cnt a (ran s) <-> In a (ran s)) by (intros a; unfold cnt; rewrite (count_occ_In Nat.eq_dec); lia).
  assert (WI : forall a h, In (Work h a) (ws s) -> 1 <= zsum (works a) (ws s)).
  { intros a h I. apply In_nth_error in I. destruct I as (w & I). pose proof (zsum_le (works a) _ _ _ (works_pos a) I) as X. cbn [works] in X. rewrite one_refl in X. exact X. }
  assert (WJ : forall a, 0 < zsum (works a) (ws s) -> exists h, In (Work h a) (ws s)).
  { intros a X. destruct (pick (works a) (ws s)) as (w & p & I & Q); [intros []; cbn [works]; try lia; apply one_pos|exact X|].
    apply nth_error_In in I. destruct p as [| | | | | | | | | | | |h b| | |]; cbn [works] in Q; try lia. unfold one in Q. destruct (Nat.eqb_spec a b); [subst; eauto|lia]. }
  assert (Z : forall a r, In (a, r) (done s) -> actZ a (act s) + zsum (early a) (ws s) = 0).
  { intros a r I. destruct (P a) as (P1 & P2 & _). destruct (Z_lt_le_dec 0 (actZ a (act s) + zsum (early a) (ws s))) as [X|X]; [|lia].
    destruct (i_hold _ V a X) as [Y _]. destruct (i_done _ V a r I) as (_ & Y' & _). congruence. }
  split; [|split].
  - intros a. specialize (T a). specialize (P a). specialize (W a). unfold cnt in *. lia.
  - intros a I. specialize (T a). specialize (P a). specialize (Z a true I). destruct (i_done _ V a true I) as (D1 & D2 & D3).
    assert (WD : withdrawn a (done s) = false).
    { unfold withdrawn. destruct (existsb _ _) eqn:X; [|reflexivity]. apply existsb_exists in X. destruct X as ((x, y) & I' & X). cbn [fst snd] in X. apply andb_prop in X. destruct X as [X Y]. apply Nat.eqb_eq in X. subst x. destruct y; [discriminate|].
      pose proof (i_uniq _ V) as U. clear - I I' U. induction (done s) as [|d l IH]; [destruct I|]. cbn [map] in U. apply NoDup_cons_iff in U. destruct U as [U1 U2].
      destruct I as [->|I], I' as [X|I']; [discriminate| | |apply IH; auto].
      - destruct U1. apply (in_map fst _ _ I').
      - subst d. destruct U1. apply (in_map fst _ _ I). }
    unfold want in T. apply Nat.ltb_lt in D1. rewrite D1, D3, WD in T. cbn [andb negb] in T.
    destruct (Z_lt_le_dec 0 (cnt a (ran s))) as [X|X].
    + left. split; [apply CI; exact X|]. intros h J. apply WI in J. lia.
    + right. split; [rewrite <- CI; lia|]. apply WJ. lia.
  - intros a I. specialize (T a). specialize (P a). assert (WD : withdrawn a (done s) = true).
    { unfold withdrawn. apply existsb_exists. exists (a, false). split; [exact I|]. cbn. rewrite Nat.eqb_refl. reflexivity. }
    unfold want in T. rewrite WD in T. cbn [negb] in T. rewrite andb_false_r in T. split; [rewrite <- CI; lia|]. intros h J. apply WI in J. lia.
Qed.
Print Assumptions exec_once.
(* the first action is executed, the second one waits too long for the only worker, which is busy *)
Example once_ex : (let! s := run (mkConf 1 false true) (first 0 ++ [Exec] ++ c_ 3 ++ w_ 0 6 ++ c_ 3 ++ [Exec] ++ c_ 5 ++ [Call true; Call true; Call false; Call true; Call true] ++ w_ 0 1) init in Ok (ran s, done s)) =
  Ok ([1; 0], [(2, false); (1, true); (0, true)])%nat.
Proof. vm_compute. reflexivity. Qed.

(** C292: if idle workers never end, there are never more than the given number of threads *)
Theorem exec_threads : forall k l s, 0 <= maxT k -> idleInf k = true -> run k l init = Ok s ->
  Z.of_nat (length (filter (fun p => negb (isDead p)) (ws s))) <= maxT k.
Proof.
  intros k l s M K E. rewrite living_filter. apply (j_live k). apply (few_run k l init s K init_inv (init_few k M) E).
Qed.
Print Assumptions exec_threads.

(** C293: never more actions at once than the given number of threads.  In fact two actions are
    executed at once with at most one thread. *)
Theorem exec_threads_refuted : exists l s, run (mkConf 1 true false) l init = Ok s /\ ws s = [Work Again 1; Work Plain 2]%nat.
Proof.
  exists (first 0 ++ idle 0 ++ [Exec] ++ c_ 6 ++ w_ 0 4 ++ c_ 1 ++ [Exec] ++ c_ 3 ++ w_ 1 4).
  eexists. split; [vm_compute; reflexivity|reflexivity].
Qed.
Print Assumptions exec_threads_refuted.

(** C294: without stopAll and idle timeouts a call of execute never hangs: whatever has happened,
    the steps of the caller and the workers can still make it return *)
Theorem exec_returns : forall k l s a, 1 <= maxT k -> idleInf k = true -> ~ In Stop l -> run k l init = Ok s ->
  (valid a (call s) = true \/ pre a (call s) = true) -> exists l' s', Forall internal l' /\ run k l' s = Ok s' /\ In (a, true) (done s').
Proof.
  intros k l s a M K N E H. apply (ret_all k M K a s); [|exact H]. apply (good_run k l init s M K N); [|exact E]. apply good_init, M.
Qed.
Print Assumptions exec_returns.
Example returns_ex : (let! s := run (mkConf 1 true true) (first 0 ++ [Exec] ++ c_ 3) init in Ok (ws s, call s, valid 1 (call s))) = Ok ([Woken], Loop 1 false false, true).
Proof. vm_compute. reflexivity. Qed.

(** C295: execute works after stopAll.  In fact the stopped workers stay counted: with one thread
    the next call waits for ever. *)
Theorem exec_after_stop_refuted : exists l s, run (mkConf 1 true true) l init = Ok s /\ valid 1 (call s) = true /\
  forall l', exists s', run (mkConf 1 true true) l' s = Ok s' /\ valid 1 (call s') = true /\ ran s' = [0%nat].
Proof.
  exists (first 0 ++ [Stop] ++ c_ 2 ++ w_ 0 3 ++ c_ 1 ++ [Exec] ++ c_ 5).
  eexists. split; [vm_compute; reflexivity|]. split; [reflexivity|]. intros l'.
  match goal with |- exists s', run ?k l' ?s = _ /\ _ => destruct (lost_run k l' s) as (c & E & V); [repeat split|exists (setCall c s)] end.
  split; [exact E|]. split; [cbn [call setCall]; rewrite V; reflexivity|reflexivity].
Qed.
Print Assumptions exec_after_stop_refuted.

(** C296: execute never hangs.  In fact with idle timeouts the counter of threads can fall below
    zero, and then no thread is started any more. *)
Theorem exec_idle_refuted : exists l s, ~ In Stop l /\ run (mkConf 1 true false) l init = Ok s /\ valid 3 (call s) = true /\
  forall l', exists s', run (mkConf 1 true false) l' s = Ok s' /\ valid 3 (call s') = true /\ ran s' = [2; 1; 0]%nat.
Proof.
  exists (first 0 ++ idle 0 ++ first 1 ++ idle 1 ++ w_ 1 1 ++ [Exec] ++ c_ 6 ++ w_ 0 2 ++ w_ 1 1 ++ w_ 0 2 ++ c_ 1 ++ w_ 0 6 ++ w_ 2 4 ++
          idle 0 ++ idle 2 ++ w_ 0 2 ++ w_ 2 2 ++ [Exec] ++ c_ 5).
  eexists. split; [vm_compute; intuition discriminate|]. split; [vm_compute; reflexivity|]. split; [reflexivity|]. intros l'.
  match goal with |- exists s', run ?k l' ?s = _ /\ _ => destruct (lost_run k l' s) as (c & E & V); [repeat split|exists (setCall c s)] end.
  split; [exact E|]. split; [cbn [call setCall]; rewrite V; reflexivity|reflexivity].
Qed.
Print Assumptions exec_idle_refuted.
