(** Theorems about the set of sockets over poll(2), C483-C486 *)
From Verif Require Import Common PollSel_Spec PollSel_Model PollSel_Proof.
Open Scope N_scope.

(** C483: in every history the pool given to poll begins with the pipe and has each charged socket exactly once, and while
    nothing has been cancelled no other; sockets that wait for input are watched for input *)
Theorem pollsel_pool : forall l w, let h := fst (run l [] (init w)) in let p := pool (snd (run l [] (init w))) in
  (exists e r, p = mkE w e :: r)
  /\ (forall fd m d, charged h fd = Some (m, d) -> exists i, ((0 < i < length p)%nat /\ efd (nth i p (mkE 0 0)) = fd) /\ (N.testbit m 0 = true -> N.testbit (eev (nth i p (mkE 0 0))) 0 = true)
       /\ forall j, (0 < j < length p)%nat -> efd (nth j p (mkE 0 0)) = fd -> j = i)
  /\ (cancelled h = false -> forall i, (0 < i < length p)%nat -> exists q, charged h (efd (nth i p (mkE 0 0))) = Some q).
Proof.
  intros l w. cbv zeta. destruct (run_ok l w (init w) [] (init_ok w)) as (HP & HC & _). set (h := fst (run l [] (init w))) in *. set (s := snd (run l [] (init w))) in *.
  split; [apply HP|]. split.
  - intros fd m d E. destruct (HC fd) as (C1 & C2 & _). rewrite C1 in E. destruct (N.eqb_spec (wfor (sock s fd)) 0) as [Z|N]; [discriminate|]. injection E as EM ED. destruct (C2 N) as (i & I1 & I2). exists i.
    split; [apply (p_back _ _ HP fd i I1)|]. split.
    + intros B. rewrite I2, EM. unfold evOf. rewrite B, N.lor_spec. reflexivity.
    + intros j Hj Q. pose proof (p_in _ _ HP j Hj) as R. rewrite Q in R. congruence.
  - intros CC i Hi. pose proof (p_in _ _ HP i Hi) as R. destruct (HC (efd (nth i (pool s) (mkE 0 0)))) as (C1 & _ & C3). rewrite C1. destruct (N.eqb_spec (wfor (sock s (efd (nth i (pool s) (mkE 0 0))))) 0) as [Z|N]; [|eauto].
    rewrite (C3 CC Z) in R. discriminate.
Qed.
Print Assumptions pollsel_pool.
Example pollsel_pool_ex :
  let l := [OSet 5 1 50%Z; OSet 6 1 60%Z; OSet 7 3 70%Z; OSet 8 1 80%Z; OReport 2; OSet 5 0 0%Z; OSet 9 1 90%Z; OTimeout 8; OSet 6 1 61%Z] in
  pool (snd (run l [] (init 3))) = [mkE 3 1; mkE 7 3; mkE 9 1; mkE 6 1] /\ charged (fst (run l [] (init 3))) 6 = Some (1, 61%Z) /\ cancelled (fst (run l [] (init 3))) = false.
Proof. vm_compute. repeat split. Qed.

(** C484: only charged sockets are delivered, with the data of the last charge, at most once for each charge *)
Theorem pollsel_oneshot : forall l w, delivers_charged (fst (run l [] (init w))).
Proof. intros l w. apply (run_ok l w (init w) [] (init_ok w)). Qed.
Print Assumptions pollsel_oneshot.
Example pollsel_oneshot_ex :
  fst (run [OSet 5 1 50%Z; OSet 6 1 60%Z; OReport 1; OTimeout 5; OReport 1; OSet 6 1 61%Z; OCancel; OReport 1; OTimeout 6] [] (init 3))
  = [ECancel; ESet 6 1 61%Z; EDeliver 6 60%Z; EDeliver 5 50%Z; ESet 6 1 60%Z; ESet 5 1 50%Z].
Proof. vm_compute. reflexivity. Qed.

(** C485 is false: a socket that waits for output is not watched for output (the constants are those of a signal) *)
Theorem pollsel_events_refuted : ~ (forall l w fd m d, charged (fst (run l [] (init w))) fd = Some (m, d) ->
  exists i, efd (nth i (pool (snd (run l [] (init w)))) (mkE 0 0)) = fd /\ eev (nth i (pool (snd (run l [] (init w)))) (mkE 0 0)) = watched m).
Proof.
  intros H. destruct (H [OSet 5 2 50%Z] 3%nat 5%nat 2 50%Z eq_refl) as (i & I1 & I2). destruct i as [|[|i]]; vm_compute in I1, I2; [discriminate|discriminate|]. destruct i; discriminate.
Qed.
Print Assumptions pollsel_events_refuted.

(** C486 is false: after cancelAll the cancelled sockets are still given to poll *)
Theorem pollsel_cancel_refuted : ~ (forall l w i, let h := fst (run l [] (init w)) in let p := pool (snd (run l [] (init w))) in
  (0 < i < length p)%nat -> exists q, charged h (efd (nth i p (mkE 0 0))) = Some q).
Proof. intros H. destruct (H [OSet 5 1 50%Z; OCancel] 3%nat 1%nat) as (q & E); [vm_compute; lia|]. vm_compute in E. discriminate. Qed.
Print Assumptions pollsel_cancel_refuted.
