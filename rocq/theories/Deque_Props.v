(** C20 and C59: deque, queue and stack. *)
From Verif Require Import Common Deque_Model Deque_Spec Deque_Proof.

(** Every program on a fresh deque gets the answers of the list, whatever the ring does;
    nothing is undefined; and the destructor afterwards ends the life of every item, once. *)
Theorem C20_deque : forall A (os : list (dop A)),
  exists d, run dempty_new os = Ok (fst (spec_run [] os), d)
    /\ dlength d = length (snd (spec_run [] os))
    /\ exists m, ddestroy d = Ok m /\ Forall (fun c => c = None) m.
Proof.
  intros A os.
  enough (G : forall d l, rep d (rev l) -> exists d', run d os = Ok (fst (spec_run l os), d') /\ rep d' (rev (snd (spec_run l os)))).
  { destruct (G dempty_new [] rep_new) as (d & E & R). exists d. split; [exact E|]. split.
    - rewrite (dlength_ok d _ R). apply rev_length.
    - apply (ddestroy_ok d _ R). }
  induction os as [|o os IH]; intros d l R.
  - exists d. split; [reflexivity|exact R].
  - cbn [run spec_run]. destruct (step_ok d l o R) as (d1 & E1 & R1). rewrite E1. cbn [obind].
    destruct (spec_step l o) as [a l1]. cbn [fst snd] in *.
    destruct (IH d1 l1 R1) as (d2 & E2 & R2). rewrite E2. cbn [obind].
    destruct (spec_run l1 os) as [r l2]. exists d2. split; [reflexivity|exact R2].
Qed.
Print Assumptions C20_deque.

(** First in, first out: what was taken, followed by what is still inside, is what was pushed. *)
Theorem C20_queue : forall A (os : list (option A)),
  exists taken d left, queueRun dempty_new os = Ok (taken, d) /\ taken ++ left = pushed os /\ dlength d = length left.
Proof.
  intros A os.
  enough (G : forall d l, rep d (rev l) -> exists taken d' left, queueRun d os = Ok (taken, d') /\ taken ++ left = l ++ pushed os /\ rep d' (rev left)).
  { destruct (G dempty_new [] rep_new) as (t & d & r & E & Ev & R). exists t, d, r. repeat split; auto.
    rewrite (dlength_ok d _ R). apply rev_length. }
  induction os as [|[x|] os IH]; intros d l R.
  - exists [], d, l. split; [reflexivity|]. split; [cbn; rewrite app_nil_r; reflexivity|exact R].
  - cbn [queueRun]. destruct (pushBack_ok d _ x R) as (d' & E & R'). rewrite E. cbn [obind].
    rewrite <- rev_unit in R'. destruct (IH d' _ R') as (t & d2 & r & E2 & Ev & R2). exists t, d2, r. split; [exact E2|].
    split; [|exact R2]. rewrite Ev, <- app_assoc. reflexivity.
  - cbn [queueRun]. rewrite (dempty_ok d _ R). destruct l as [|x l].
    + apply (IH d [] R).
    + assert (Z : match rev (x :: l) with [] => true | _ => false end = false) by (cbn; destruct (rev l); reflexivity).
      rewrite Z. rewrite (getFront_ok d (rev l) x R). cbn [obind].
      destruct (popFront_ok d (rev l) x R) as (d' & E & R'). rewrite E. cbn [obind].
      destruct (IH d' l R') as (t & d2 & r & E2 & Ev & R2). rewrite E2. cbn [obind].
      exists (x :: t), d2, r. split; [reflexivity|]. split; [|exact R2]. cbn [app]. rewrite Ev. reflexivity.
Qed.
Print Assumptions C20_queue.

Theorem C20_stack : forall A (os : list (option A)), stackRun dempty_new os = Ok (stack_spec [] os).
Proof.
  intros A os. enough (G : forall d l, rep d l -> stackRun d os = Ok (stack_spec l os)) by (apply G, rep_new).
  induction os as [|[x|] os IH]; intros d l R; [reflexivity| |].
  - cbn [stackRun stack_spec]. destruct (pushBack_ok d _ x R) as (d' & E & R'). rewrite E. cbn [obind]. apply (IH d' _ R').
  - cbn [stackRun stack_spec]. rewrite (dempty_ok d _ R). destruct l as [|x l]; [apply (IH d [] R)|].
    rewrite (getBack_ok d l x R). cbn [obind]. destruct (popBack_ok d l x R) as (d' & E & R'). rewrite E. cbn [obind].
    rewrite (IH d' l R'). reflexivity.
Qed.
Print Assumptions C20_stack.

(** A history that wraps around the ring, grows twice and empties the deque. *)
Example C20_example :
  run dempty_new [DPushFront 1; DPushBack 2; DPushBack 3; DPopFront; DPushFront 4; DPushFront 5; DAt 1; DSet 0 9;
                  DGetBack; DGetFront; DLength; DReserve 9; DPopBack; DPopBack; DPopBack; DPopBack; DPopBack; DEmpty]
  = Ok ([Done; Done; Done; Done; Done; Done; Item 2; Done; Item 9; Item 5; Number 4; Flag true; Done; Done; Done; Done; Failed; Flag true],
        mkDeque (repeat None 9) 0 0).
Proof. vm_compute. reflexivity. Qed.
Example C20_example_queue :
  exists d, queueRun dempty_new [Some 1; Some 2; None; Some 3; None; None; None] = Ok ([1; 2; 3], d).
Proof. eexists. vm_compute. reflexivity. Qed.
Example C20_example_stack : stackRun dempty_new [Some 1; Some 2; None; Some 3; None; None; None] = Ok [2; 3; 1].
Proof. reflexivity. Qed.

(** C59: a copy of a deque is not a deque with the same items: unless the deque is empty,
    reading either end of the copy, and destroying the copy, is undefined behaviour. *)
Theorem C59_copy_refuted : forall A (d : deque A) l, rep d l -> l <> [] ->
  dlength (dcopy d) = length l /\ getFront (dcopy d) = Undef /\ getBack (dcopy d) = Undef /\ ddestroy (dcopy d) = Undef.
Proof.
  intros A d l R N. destruct (head_cases d l R N) as (P & T & L & C).
  assert (S : size (dcopy d) = size d) by (unfold size, dcopy; cbn; apply repeat_length).
  assert (Lc : dlength (dcopy d) = length l).
  { rewrite <- (dlength_ok d l R). unfold dlength. rewrite S. reflexivity. }
  assert (Z : dempty (dcopy d) = false) by (unfold dempty, dcopy; cbn [dhead]; destruct (Nat.eqb_spec (dhead d) 0); auto; lia).
  assert (Rd : forall i, readCell (mem (dcopy d)) i = Undef).
  { intros i. unfold readCell, dcopy. cbn [mem]. destruct (nth_error (repeat None (size d)) i) as [c|] eqn:E; [|reflexivity].
    apply nth_error_In, repeat_spec in E. subst c. reflexivity. }
  split; [exact Lc|]. unfold getFront, getBack. rewrite Z, !Rd. split; [reflexivity|]. split; [reflexivity|].
  unfold ddestroy. rewrite Lc, S. destruct (length l) as [|n]; [lia|]. cbn [destroyAll]. rewrite modIndex_ok by lia. cbn [obind].
  unfold destroy, dcopy. cbn [mem]. destruct (nth_error (repeat None (size d)) _) as [c|] eqn:E; [|reflexivity].
  apply nth_error_In, repeat_spec in E. subst c. reflexivity.
Qed.
Print Assumptions C59_copy_refuted.
Example C59_example : exists d : deque nat, run dempty_new [DPushBack 7] = Ok ([Done], d) /\ rep d [7].
Proof.
  eexists. split; [reflexivity|]. apply mk_rep; cbn; auto; try discriminate.
  intros j Hj. destruct j; [reflexivity|lia].
Qed.
