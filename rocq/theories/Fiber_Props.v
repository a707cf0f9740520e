(** Theorems about fibers, C495-C502 *)
From Verif Require Import Common Fiber_Spec Fiber_Model Fiber_Proof.

(** C495: with a zeroed context of the master, in every program control moves as it should: wakeUp and start give it to their target,
    sleep to the last caller (the master if it has ended), an end to the master; current() is the fiber that has control; sleep returns
    the last reason; a stopped fiber gets the exception; checkState is right.  Without stop no program is ended *)
Theorem fiber_control : forall l, Forall keeps l ->
  (runOps l [] (init true) = Throw \/ exists h s, runOps l [] (init true) = Ok (h, s) /\ valid h /\ owes h = false)
  /\ (~ (exists f, In (OStop f) l) -> runOps l [] (init true) <> Throw).
Proof.
  intros l K. split.
  - destruct (run_ok l (init true) [] init_ok K) as [E|(x & E & I)]; [now left|right]. exists (fst x), (snd x). split; [rewrite E; now destruct x|]. split; apply I.
  - intros N. apply run_ns; auto.
    + exact init_ok.
    + intros f d. cbn. destruct (Nat.eqb f 0); intros Q; inversion Q. discriminate.
    + apply Forall_forall. intros o O. destruct o; cbn; auto. apply N. eauto.
Qed.
Print Assumptions fiber_control.
Definition demo := [OStart 1; OStart 2; OSleep; OWake 2 5; OCurrent; OSleep; OWake 0 6; OStop 2; OExit true; OCheck 2; OCheck 2; OWake 2 9; OWake 1 8; OCurrent; OSleep;
  OWake 1 4; OExit false; OStart 2; OCheck 1].
Example fiber_control_ex :
  match runOps demo [] (init true) with
  Ok (h, s) => h = [ECheck 1 false; EStart 0 2; EFree 1; EExit 1 false; ERet 1 (Some 4); EWake 0 1 4; ESleep 1 0; ECur 1; EWake 0 1 8; EWakeNo 0 2; ECheck 2 false; ECheckExc 2;
     EFree 2; EExit 2 true; EStopped 2; EWake 0 2 0; EStop 0 2; EWake 1 0 6; ESleep 2 1; ECur 2; ERet 2 (Some 5); EWake 1 2 5; ESleep 2 1; EStart 1 2; EStart 0 1] | _ => False end.
Proof. vm_compute. repeat split. Qed.

(** C495: and each operation does what its description says, then only the resumed fiber's sleep ends or it is stopped *)
Theorem fiber_operations : forall l o h s h2 s2, Forall keeps (l ++ [o]) -> runOps l [] (init true) = Ok (h, s) -> runOps (l ++ [o]) [] (init true) = Ok (h2, s2) ->
  exists t, h2 = t ++ answer h o ++ h /\ Forall after t.
Proof.
  intros l o h s h2 s2 K E E2. apply Forall_app in K. destruct K as [K1 K2]. inversion K2; subst.
  destruct (run_ok l (init true) [] init_ok K1) as [E3|(x & E3 & I)]; rewrite E in E3; [discriminate E3|]. injection E3 as <-. cbn [fst snd] in I.
  rewrite runOps_app, E in E2. cbn [fst snd] in E2. destruct (step s o) as [y| | |] eqn:S; try discriminate E2. injection E2 as E3 E4.
  destruct (adds_step s h o I H1 y S) as (t & T & F). exists t. split; [|exact F]. rewrite <- E3, T. now rewrite app_assoc.
Qed.
Print Assumptions fiber_operations.
Example fiber_operations_ex : match runOps (firstn 4 demo) [] (init true) with Ok (h, s) => answer h (OWake 0 6) = [EWake 2 0 6] /\ answer h (OStop 1) = [EWake 2 1 0; EStop 2 1] /\ answer h OSleep = [ESleep 2 1] | _ => False end.
Proof. vm_compute. repeat split. Qed.

(** C496: the context and the stack of a fiber are freed exactly once, when its function has ended *)
Theorem fiber_memory : forall l h s, Forall keeps l -> runOps l [] (init true) = Ok (h, s) -> valid h /\ forall f, nFree h f = nExit h f.
Proof.
  intros l h s K E. destruct (run_ok l (init true) [] init_ok K) as [E2|(x & E2 & I)]; rewrite E in E2; [discriminate E2|]. injection E2 as <-. split; apply I.
Qed.
Print Assumptions fiber_memory.
Example fiber_memory_ex :
  match runOps [OStart 1; OSleep; OWake 1 1; OExit false; OStart 1; OExit true; OStart 2] [] (init true) with Ok (h, s) => nFree h 1 = 2 /\ nExit h 1 = 2 /\ active h 2 = true | _ => False end.
Proof. vm_compute. repeat split. Qed.

(** C497 is false: the flags of the context of the master are read and were never written *)
Theorem fiber_master_refuted : ~ (forall l, Forall keeps l -> runOps l [] (init false) <> Undef).
Proof. intros H. apply (H [OStart 1; OSleep]); [repeat constructor|]. vm_compute. reflexivity. Qed.
Print Assumptions fiber_master_refuted.

(** C498 is false: a fiber stopped while it waits in wakeUp of another ends the program *)
Theorem fiber_stop_refuted : ~ (forall l, Forall keeps l -> runOps l [] (init true) <> Throw).
Proof. intros H. apply (H [OStart 1; OStart 2; OSleep; OWake 2 5; OWake 0 6; OStop 1]); [repeat constructor|]. vm_compute. reflexivity. Qed.
Print Assumptions fiber_stop_refuted.

(** C499 is false: sleep returns although nobody has called wakeUp, with the reason of an earlier one *)
Theorem fiber_reason_refuted : ~ (forall l h s f r, Forall keeps l -> runOps l [] (init true) = Ok (ERet f r :: h, s) -> exists a q h2, h = EWake a f q :: h2 /\ r = Some q).
Proof.
  intros H. set (l := [OStart 1; OStart 2; OSleep; OWake 2 5; OWake 0 6; OWake 1 7; OSleep; OSleep; OSleep]).
  destruct (runOps l [] (init true)) as [[h s]| | |] eqn:E; try (vm_compute in E; discriminate E).
  destruct h as [|e h]; [vm_compute in E; discriminate E|]. assert (Q : e = ERet 1 (Some 7) /\ exists t, h = ESleep 2 1 :: t) by (vm_compute in E; inversion E; eauto).
  destruct Q as [-> (t & ->)]. destruct (H l _ s 1 (Some 7) ltac:(repeat constructor) E) as (a & q & h2 & Q & _). discriminate Q.
Qed.
Print Assumptions fiber_reason_refuted.

(** C500 is false: the destructor of a sleeping fiber does not end while an exception is in flight *)
Theorem fiber_unwind_refuted : ~ (forall l, runOps l [] (init true) <> NoFuel).
Proof. intros H. apply (H [OStart 1; OSleep; ODestroy 1 true]). vm_compute. reflexivity. Qed.
Print Assumptions fiber_unwind_refuted.

(** C501 is false: an exception left from an earlier run makes the destructor leave the fiber suspended with its stack *)
Theorem fiber_destroy_refuted : ~ (forall l h s f, runOps l [] (init true) = Ok (h, s) -> In (EGone f) h -> active h f = false).
Proof.
  intros H. set (l := [OStart 1; OExit true; OStart 1; OSleep; ODestroy 1 false]).
  destruct (runOps l [] (init true)) as [[h s]| | |] eqn:E; try (vm_compute in E; discriminate E).
  pose proof (H l h s 1 E) as Q. vm_compute in E. injection E as <- <-. specialize (Q (or_introl eq_refl)). vm_compute in Q. discriminate Q.
Qed.
Print Assumptions fiber_destroy_refuted.

(** C502 is false: a fiber that sleeps goes to the address of its caller even when that has been destroyed *)
Theorem fiber_caller_refuted : ~ (forall l, runOps l [] (init true) <> Undef).
Proof. intros H. apply (H [OStart 1; OStart 2; OWake 0 0; ODestroy 1 false; OExit false; OCurrent; OSleep; OSleep]). vm_compute. reflexivity. Qed.
Print Assumptions fiber_caller_refuted.
