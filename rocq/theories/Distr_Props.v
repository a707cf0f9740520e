(** Properties of the distributor of messages to listeners. *)
From Verif Require Import Common Distr_Spec Distr_Model Distr_Proof.

(** C386: with one stage, for every admitted behaviour of the program and of the listeners, the calls of listeners, their order
    and the results are those of the queue of messages; no destroyed memory is used. *)
Theorem distr_refine : forall l o s, srun l sinit = Some (o, s) -> exists m, run l init = Ok (o, m).
Proof. intros l o s H. destruct (run_ok _ _ _ _ _ R_init H) as [m [A B]]. eauto. Qed.
Print Assumptions distr_refine.
(** three listeners; in the call of the first one it is removed, the third one is removed too, another is added to the front and a
    nested message is sent *)
Example distr_refine_ex :
  option_map fst (srun [Add 1; Add 2; Add 3; Add 4; Send None 7 0; Remove 3; Remove 1; PriorityAdd 5; Send None 8 0; Return; Return; Return; Return; Return] sinit)
  = Some [Nothing; Nothing; Nothing; Nothing; Call 1 7; Removed true; Removed true; Nothing; Call 2 7; Call 4 7; Call 5 8; Call 2 8; Call 4 8; Done].
Proof. reflexivity. Qed.

(** C387: if the listeners do not change and nothing is cancelled, every listener gets every message, once for each time it was
    added, in the order of sending, also if listeners send messages; all is done when the outermost send returns. *)
Theorem distr_all : forall ps l o m, forallb quiet l = true -> run (map Add ps ++ l) init = Ok (o, m) -> frames m = [] ->
  forall p, got p o = flat_map (fun k => repeat k (count_occ Nat.eq_dec ps p)) (sent l).
Proof. exact all_ok. Qed.
Print Assumptions distr_all.
Example distr_all_ex : exists o m,
  run (map Add [1; 2] ++ [Send None 7 0; Send None 8 0; Send None 9 0; Return; Return; Return; Return; Return; Return]) init = Ok (o, m)
  /\ frames m = [] /\ got 2 o = [7; 8; 9].
Proof. eexists _, _. split; [vm_compute; reflexivity|]. split; reflexivity. Qed.

(** C388: at any moment, if the listeners just return, every send returns and nothing is left in the queue. *)
Theorem distr_return : forall l o s, srun l sinit = Some (o, s) -> exists n o2 m, run (l ++ repeat Return n) init = Ok (o ++ o2, m) /\ frames m = [] /\ items (stages m) = [].
Proof.
  intros l o s H. assert (I : idle s) by (eapply idle_run; [|exact H]; intros _; reflexivity).
  destruct (returns_run _ s I eq_refl) as [o2 [s2 [A [B C]]]]. exists (todo (queue s) + depth s), o2.
  assert (X : srun (l ++ repeat Return (todo (queue s) + depth s)) sinit = Some (o ++ o2, s2)) by (rewrite srun_app, H, A; reflexivity).
  destruct (run_ok _ _ _ _ _ R_init X) as [m [Y Z]]. exists m. split; [exact Y|]. split.
  - pose proof (r_depth _ _ Z) as D. rewrite B in D. now destruct (frames m).
  - pose proof (r_st _ _ Z) as D. rewrite C in D. now rewrite (SR_nil _ _ _ D).
Qed.
Print Assumptions distr_return.
Example distr_return_ex : exists o s, srun [Add 1; Add 2; Send None 7 0; Send None 8 0; Send None 9 0] sinit = Some (o, s) /\ depth s = 3.
Proof. eexists _, _. split; reflexivity. Qed.

(** C389: also if listeners are added and removed and messages are cancelled during sending, a listener added once gets no message
    twice and gets them in the order of sending. *)
Theorem distr_order : forall l o s p, srun l sinit = Some (o, s) -> count_occ Nat.eq_dec (added l) p <= 1 -> exists m, run l init = Ok (o, m) /\ sub (got p o) (sent l).
Proof.
  intros l o s p H C. destruct (run_ok _ _ _ _ _ R_init H) as [m [A B]]. exists m. split; [exact A|].
  refine (order_run p l sinit init o s R_init _ C H). split; [reflexivity|constructor].
Qed.
Print Assumptions distr_order.
Example distr_order_ex : exists o s,
  srun [Add 1; Add 2; Send None 7 0; Add 3; Remove 2; Send None 8 0; Stop 0; Return; Return; Send None 9 0; Return; Return] sinit = Some (o, s)
  /\ got 3 o = [7; 9] /\ got 1 o = [7; 9] /\ got 2 o = [].
Proof. eexists _, _. split; [vm_compute; reflexivity|]. repeat split. Qed.

(** C390: a listener that is not added, or was removed as many times as it was added, is not called until it is added again. *)
Theorem distr_gone : forall l1 l2 o1 o2 s p, srun (l1 ++ IsAdded p :: l2) sinit = Some (o1 ++ Number 0 :: o2, s) -> length o1 = length l1 -> ~ In p (added l2) ->
  exists m, run (l1 ++ IsAdded p :: l2) init = Ok (o1 ++ Number 0 :: o2, m) /\ got p o2 = [].
Proof.
  intros l1 l2 o1 o2 s p H LE NI. destruct (run_ok _ _ _ _ _ R_init H) as [m [A B]]. exists m. split; [exact A|].
  rewrite srun_app in H. destruct (srun l1 sinit) as [[o s1]|] eqn:E1; [|discriminate]. cbn [srun sexec] in H. destruct (srun l2 s1) as [[o' s2]|] eqn:E2; [|discriminate].
  injection H as H _. assert (L : length o = length l1).
  { clear - E1. revert o s1 E1. generalize sinit. induction l1 as [|a t IH]; cbn; intros s0 o s1 E; [injection E as <- <-; auto|].
    destruct (sexec a s0) as [[x s2]|]; [|discriminate]. destruct (srun t s2) as [[xs s3]|] eqn:E3; [|discriminate]. injection E as <- <-. cbn. f_equal. eauto. }
  assert (Q : o = o1 /\ Number (number p (lst s1)) :: o' = Number 0 :: o2).
  { revert H L LE. clear. generalize (length l1). intros n H L LE. subst n. revert o1 H LE. induction o as [|a o IH]; intros [|b o1] H LE; cbn in *; try discriminate; auto.
    injection H as -> H. destruct (IH o1 H) as [-> K]; [lia|]. auto. }
  destruct Q as [-> Q]. injection Q as Q1 ->. destruct (run_ok _ _ _ _ _ R_init E1) as [m1 [A1 B1]].
  eapply apart_run; [|exact NI|exact E2]. split; [exact Q1|]. apply Forall_forall. intros x I. pose proof (msgs_number _ _ B1 p x I). lia.
Qed.
Print Assumptions distr_gone.
Example distr_gone_ex : exists o1 o2 s,
  srun ([Add 1; Add 2; Add 3; Send None 7 0; Remove 2] ++ IsAdded 2 :: [Return; Return]) sinit = Some (o1 ++ Number 0 :: o2, s) /\ length o1 = 5 /\ got 3 o2 = [7].
Proof. exists [Nothing; Nothing; Nothing; Call 1 7; Removed true], [Call 3 7; Done]. eexists. split; [vm_compute; reflexivity|]. repeat split. Qed.

(** C391: after stop(), and after an exception of a listener, no listener gets a message that was sent before. *)
Theorem distr_stop : forall a l1 l2 o1 o2 s1 s2 p k, (a = Stop 0 \/ a = Raise) -> srun (l1 ++ [a]) sinit = Some (o1, s1) -> srun l2 s1 = Some (o2, s2) ->
  exists m, run ((l1 ++ [a]) ++ l2) init = Ok (o1 ++ o2, m) /\ (In k (got p o2) -> In k (sent l2)).
Proof.
  intros a l1 l2 o1 o2 s1 s2 p k HA H1 H2. assert (X : srun ((l1 ++ [a]) ++ l2) sinit = Some (o1 ++ o2, s2)) by (rewrite srun_app, H1, H2; reflexivity).
  destruct (run_ok _ _ _ _ _ R_init X) as [m [A B]]. exists m. split; [exact A|]. intros I. pose proof (in_run _ _ _ _ _ _ H2 I) as J.
  assert (Q : msgs s1 = []); [|rewrite Q in J; exact J].
  rewrite srun_app in H1. destruct (srun l1 sinit) as [[o s0]|]; [|discriminate]. cbn [srun] in H1. destruct HA as [-> | ->]; cbn [sexec] in H1.
  - injection H1 as <- <-. reflexivity.
  - destruct (depth s0); [discriminate|]. injection H1 as <- <-. reflexivity.
Qed.
Print Assumptions distr_stop.
Example distr_stop_ex : exists o1 s1 o2 s2, srun ([Add 1; Add 2; Send None 7 0; Send None 8 0] ++ [Raise]) sinit = Some (o1, s1)
  /\ srun [Send None 9 0; Return; Return; Return] s1 = Some (o2, s2) /\ o2 = [Call 1 9; Call 2 9; Done; Done].
Proof. eexists _, _, _, _. split; [vm_compute; reflexivity|]. split; reflexivity. Qed.

(** C392 is false: the sender named in send() is not skipped, it gets its own message. *)
Theorem distr_sender_refuted : ~ (forall l o m p k, run l init = Ok (o, m) -> (forall q j s, In (Send q j s) l -> q = Some p) -> In k (sent l) -> ~ In k (got p o)).
Proof.
  intros H. eapply (H [Add 1; Send (Some 1) 7 0] [Nothing; Call 1 7] _ 1 7); [vm_compute; reflexivity| |now left|now left].
  intros q j s [I|[I|[]]]; congruence.
Qed.
Print Assumptions distr_sender_refuted.
(** C393 is false: a listener is removed, another is added: the list of listeners uses the destroyed entry. *)
Theorem distr_readd_refuted : ~ (forall l, (forall p, In (Remove p) l -> In p (added l)) -> forallb (fun a => match a with Add _ | Remove _ => true | _ => false end) l = true ->
  exists o m, run l init = Ok (o, m)).
Proof.
  intros H. destruct (H [Add 1; Add 2; Remove 2; Add 3]) as [o [m E]]; [|reflexivity|discriminate].
  intros p [I|[I|[I|[I|[]]]]]; try discriminate. injection I as <-. cbn. auto.
Qed.
Print Assumptions distr_readd_refuted.
(** C394 is false: with stages, a listener of one stage sends two messages in another stage: the second send uses the item of the
    first one that is not on the stack any more. *)
Theorem distr_stages_refuted : ~ (forall l, forallb (fun a => match a with Add _ | Send _ _ _ | Return => true | _ => false end) l = true -> run l init <> Undef).
Proof. intros H. apply (H [Add 1; Send None 5 0; Send None 6 1; Return; Send None 7 1]); reflexivity. Qed.
Print Assumptions distr_stages_refuted.
(** C395 is false: an exception of a listener stops the messages of one stage only. *)
Theorem distr_raise_refuted : ~ (forall l1 l2 o1 o2 m1 m2 p, run (l1 ++ [Raise]) init = Ok (o1, m1) -> run l2 m1 = Ok (o2, m2) -> sent l2 = [] -> got p o2 = []).
Proof.
  intros H. assert (Q : [5] = []); [|discriminate].
  change [5] with (got 2 [Call 2 5]). eapply (H [Add 1; Add 2; Send None 5 0; Send None 6 1] [Return]); [vm_compute; reflexivity|vm_compute; reflexivity|reflexivity].
Qed.
Print Assumptions distr_raise_refuted.
(** C396 is false: a listener called with the exit message removes the next listener: the distributor uses the destroyed entry. *)
Theorem distr_exit_refuted : ~ (forall l, forallb (fun a => match a with Add _ | Remove _ | Exit _ | Return => true | _ => false end) l = true ->
  (exists o m, run (removelast l) init = Ok (o, m) /\ frames m <> []) -> run l init <> Undef).
Proof. intros H. apply (H [Add 1; Add 2; Exit 9; Remove 2; Return]); [reflexivity| |reflexivity]. eexists _, _. split; [reflexivity|discriminate]. Qed.
Print Assumptions distr_exit_refuted.
