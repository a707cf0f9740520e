(** Properties of the lock-free list (C186-C189). *)
From Verif Require Import Common SList_Spec SList_Model SList_Proof.

(** ** C186: the list is a stack for all threads *)

(** only push and pop are called, and fewer than [align] items are taken from a list while one
    pop of it runs from its last look at the top to its attempt to replace it *)
Fixpoint tame (align : nat) (sched : list (nat * cmd)) (s : state) : Prop :=
  match sched with
  | [] => True
  | (t, c) :: r =>
      plain c /\ match pcs s t with PopCas l _ _ k => taken l (log s) < k + align | _ => True end /\
      tame align r (match move align t c s with Some s' => s' | None => s end)
  end.

(** The log has an entry for each finished call at one moment between its start and its end; in
    that order the calls behave as those of stacks. *)
Theorem slist_is_a_stack : forall align sched, 0 < align -> tame align sched init -> legal (log (run align sched init)).
Proof.
  intros align sched AP TM.
  assert (G : forall sched s st, inv align s st -> tame align sched s -> exists st', inv align (run align sched s) st').
  { clear sched TM. induction sched as [|[t c] r IH]; intros s st V TM; [exists st; exact V|]. cbn [run tame] in *. destruct TM as (P & Q & R).
    destruct (move align t c s) as [s'|] eqn:E; [|eapply IH; eauto]. destruct (move_inv align AP s st t c s' V P Q E) as (st' & V').
    eapply IH; eauto. }
  destruct (G sched init _ (inv_init align AP) TM) as (st & V). exists st. apply V.
Qed.
Print Assumptions slist_is_a_stack.

(** ** C187: any number of pops may run beside another *)
Definition push (t l i : nat) : list (nat * cmd) := repeat (t, CPush l i) 4.
Definition pop (t l : nat) : list (nat * cmd) := repeat (t, CPop l) 4.

Lemma run_app align a b s : run align (a ++ b) s = run align b (run align a s).
Proof. revert s. induction a as [|[t c] a IH]; intros s; [reflexivity|]. cbn [app run]. apply IH. Qed.

Lemma step_run align t c r s s' : move align t c s = Some s' -> run align ((t, c) :: r) s = run align r s'.
Proof. intros E. cbn [run]. rewrite E. reflexivity. Qed.

(** a whole call of pop and push with nobody else moving *)
Lemma pop_call align t l s p c : pcs s t = Idle -> tops s l = (Some p, c) ->
  exists s', run align (pop t l) s = s' /\ (forall k, tops s' k = if k =? l then (nxt s p, (c + 1) mod align) else tops s k) /\
    (forall i, nxt s' i = nxt s i) /\ (forall i, outside s' i = if i =? p then true else outside s i) /\
    (forall u, pcs s' u = pcs s u) /\ log s' = log s ++ [EPop l p].
Proof.
  intros P Q. eexists. split.
  { unfold pop. cbn [repeat].
  eapply eq_trans; [apply step_run; unfold move; rewrite P; reflexivity|].
  eapply eq_trans; [apply step_run; unfold move; cbn [setPc pcs]; rewrite Nat.eqb_refl; unfold popGot; cbn [setPc tops]; rewrite Q; cbn [fst]; reflexivity|].
  eapply eq_trans; [apply step_run; unfold move; cbn [setPc pcs]; rewrite Nat.eqb_refl; cbn [fst setPc nxt]; reflexivity|].
  eapply eq_trans; [apply step_run|].
  { unfold move. cbn [setPc pcs]. rewrite Nat.eqb_refl. cbn [setPc tops fst snd]. rewrite Q. unfold weqb. cbn [fst snd oeqb]. rewrite !Nat.eqb_refl. reflexivity. }
  reflexivity. }
  cbn [run setPc setOut logEv setTop tops nxt outside pcs log]. repeat split; auto.
  intros u. destruct (Nat.eqb_spec u t) as [->|]; auto.
Qed.

Lemma push_call align t l i s w : pcs s t = Idle -> tops s l = w -> outside s i = true ->
  exists s', run align (push t l i) s = s' /\ (forall k, tops s' k = if k =? l then (Some i, snd w) else tops s k) /\
    (forall j, nxt s' j = if j =? i then fst w else nxt s j) /\ (forall j, outside s' j = if j =? i then false else outside s j) /\
    (forall u, pcs s' u = pcs s u) /\ log s' = log s ++ [EPush l i].
Proof.
  intros P Q O. eexists. split.
  { unfold push. cbn [repeat].
  eapply eq_trans; [apply step_run; unfold move; rewrite P, O; reflexivity|].
  eapply eq_trans; [apply step_run; unfold move; cbn [setPc pcs]; rewrite Nat.eqb_refl; cbn [setPc setOut tops]; rewrite Q; reflexivity|].
  eapply eq_trans; [apply step_run; unfold move; cbn [setPc pcs]; rewrite Nat.eqb_refl; cbn [setPc setNxt]; reflexivity|].
  eapply eq_trans; [apply step_run|].
  { unfold move. cbn [setPc pcs]. rewrite Nat.eqb_refl. cbn [setPc setOut setNxt tops fst snd]. rewrite Q. unfold weqb.
      replace (oeqb (fst w) (fst w)) with true by (destruct (fst w); cbn; rewrite ?Nat.eqb_refl; reflexivity). rewrite !Nat.eqb_refl. reflexivity. }
  reflexivity. }
  cbn [run setPc setOut setNxt logEv setTop tops nxt outside pcs log]. repeat split; auto.
  intros u. destruct (Nat.eqb_spec u t) as [->|]; auto.
Qed.

(** thread 0 waits in pop for its compare and exchange, item 1 is outside of the list *)
Definition waiting (align : nat) (c : nat) (s : state) : Prop :=
  tops s 0 = (Some 0, c) /\ nxt s 0 = None /\ outside s 0 = false /\ pcs s 1 = Idle /\
  pcs s 0 = PopCas 0 (Some 0, 0) (Some 1) 0 /\ exists st, replay (log s) (fun _ => []) = Some st /\ st 0 = [0].

Lemma waiting_round align c s : waiting align c s -> waiting align ((c + 1) mod align) (run align (pop 1 0 ++ push 1 0 0) s).
Proof.
  intros (A & B & O & C & D & st & R & S). rewrite run_app.
  destruct (pop_call align 1 0 s 0 c C A) as (s1 & -> & T1 & N1 & O1 & P1 & L1).
  destruct (push_call align 1 0 0 s1 _ (eq_trans (P1 1) C) (T1 0) (O1 0)) as (s2 & -> & T2 & N2 & O2 & P2 & L2).
  unfold waiting. rewrite T2, N2, O2, P2, P2, P1, P1. cbn [Nat.eqb fst snd]. repeat (split; [reflexivity || assumption|]).
  rewrite L2, L1, replay_app, replay_app, R. cbn [replay]. rewrite S. cbn [Nat.eqb]. eexists. split; reflexivity.
Qed.

Fixpoint rounds (n : nat) : list (nat * cmd) := match n with O => [] | S m => pop 1 0 ++ push 1 0 0 ++ rounds m end.

Lemma waiting_rounds align n : 0 < align -> forall c s, waiting align (c mod align) s -> waiting align ((c + n) mod align) (run align (rounds n) s).
Proof.
  intros AP. induction n as [|n IH]; intros c s Wt; [rewrite Nat.add_0_r; exact Wt|]. cbn [rounds]. rewrite app_assoc, run_app.
  replace (c + S n) with (S c + n) by lia. apply IH. replace (S c mod align) with ((c mod align + 1) mod align).
  - apply waiting_round. exact Wt.
  - rewrite Nat.add_mod_idemp_l by lia. f_equal. lia.
Qed.

(** the first three steps of pop *)
Lemma pop_begin align t l s p c : pcs s t = Idle -> tops s l = (Some p, c) ->
  exists s', run align (repeat (t, CPop l) 3) s = s' /\ (forall k, tops s' k = tops s k) /\
    (forall i, nxt s' i = nxt s i) /\ (forall i, outside s' i = outside s i) /\
    (forall u, pcs s' u = if u =? t then PopCas l (Some p, c) (nxt s p) (taken l (log s)) else pcs s u) /\ log s' = log s.
Proof.
  intros P Q. eexists. split.
  { cbn [repeat].
  eapply eq_trans; [apply step_run; unfold move; rewrite P; reflexivity|].
  eapply eq_trans; [apply step_run; unfold move; cbn [setPc pcs]; rewrite Nat.eqb_refl; unfold popGot; cbn [setPc tops]; rewrite Q; cbn [fst]; reflexivity|].
  eapply eq_trans; [apply step_run; unfold move; cbn [setPc pcs]; rewrite Nat.eqb_refl; cbn [fst setPc nxt]; reflexivity|].
  reflexivity. }
  cbn [run setPc tops nxt outside pcs log]. repeat split; auto.
  intros u. destruct (Nat.eqb_spec u t) as [->|]; auto.
Qed.
(** and its last one *)
Lemma pop_end align t l s p c n k x : pcs s t = PopCas l (Some p, c) n k -> tops s l = (Some p, c) ->
  exists s', run align [(t, x)] s = s' /\ (forall k, tops s' k = if k =? l then (n, (c + 1) mod align) else tops s k) /\
    (forall i, nxt s' i = nxt s i) /\ (forall i, outside s' i = if i =? p then true else outside s i) /\
    (forall u, pcs s' u = if u =? t then Idle else pcs s u) /\ log s' = log s ++ [EPop l p].
Proof.
  intros P Q. eexists. split.
  { eapply eq_trans; [apply step_run; unfold move; rewrite P, Q; unfold weqb; cbn [fst snd oeqb]; rewrite !Nat.eqb_refl; reflexivity|].
  reflexivity. }
  cbn [run setPc setOut logEv setTop tops nxt outside pcs log]. repeat split; auto.
Qed.

Lemma start_waiting align : 2 <= align ->
  waiting align (2 mod align) (run align (push 1 0 1 ++ push 1 0 0 ++ repeat (0, CPop 0) 3 ++ pop 1 0 ++ pop 1 0 ++ push 1 0 0) init).
Proof.
  intros A2. rewrite !run_app.
  destruct (push_call align 1 0 1 init (None, 0) eq_refl eq_refl eq_refl) as (s1 & -> & T1 & N1 & O1 & P1 & L1).
  destruct (push_call align 1 0 0 s1 _ (P1 1) (T1 0) (O1 0)) as (s2 & -> & T2 & N2 & O2 & P2 & L2).
  destruct (pop_begin align 0 0 s2 0 0) as (s3 & -> & T3 & N3 & O3 & P3 & L3); [rewrite P2, P1; reflexivity|exact (T2 0)|].
  destruct (pop_call align 1 0 s3 0 0) as (s4 & -> & T4 & N4 & O4 & P4 & L4); [rewrite P3, P2, P1; reflexivity|rewrite T3; exact (T2 0)|].
  destruct (pop_call align 1 0 s4 1 (1 mod align)) as (s5 & -> & T5 & N5 & O5 & P5 & L5);
    [rewrite P4, P3, P2, P1; reflexivity|rewrite T4, N3, N2; reflexivity|].
  destruct (push_call align 1 0 0 s5 (None, 2 mod align)) as (s6 & -> & T6 & N6 & O6 & P6 & L6).
  - rewrite P5, P4, P3, P2, P1. reflexivity.
  - rewrite T5, N4, N3, N2, N1. cbn [Nat.eqb fst]. f_equal. rewrite Nat.add_mod_idemp_l by lia. reflexivity.
  - rewrite O5, O4. reflexivity.
  - unfold waiting. rewrite T6, N6, O6, !P6, !P5, !P4, !P3, !P2, !P1, L6, L5, L4, L3, L2, L1, N2. cbn [Nat.eqb fst snd].
    repeat (split; [reflexivity|]). eexists. split; reflexivity.
Qed.

(** Refuted for every alignment with two threads: while thread 0 is in pop, thread 1 takes [align]
    items.  Then thread 0 puts an item back that thread 1 has taken, and it is taken again. *)
Theorem slist_many_pops_refuted : forall align, 2 <= align ->
  exists sched, Forall (fun tc => fst tc < 2 /\ plain (snd tc)) sched /\ ~ legal (log (run align sched init)).
Proof.
  intros align A2.
  exists ((push 1 0 1 ++ push 1 0 0 ++ repeat (0, CPop 0) 3 ++ pop 1 0 ++ pop 1 0 ++ push 1 0 0) ++ rounds (align - 2) ++ [(0, CPop 0)] ++ pop 0 0). split.
  - assert (P1 : forall t l i, t < 2 -> Forall (fun tc : nat * cmd => fst tc < 2 /\ plain (snd tc)) (push t l i)).
    { intros t l i H. unfold push. cbn [repeat]. repeat (apply Forall_cons; [split; [exact H|exact I]|]). apply Forall_nil. }
    assert (P2 : forall t l n, t < 2 -> Forall (fun tc : nat * cmd => fst tc < 2 /\ plain (snd tc)) (repeat (t, CPop l) n)).
    { intros t l n H. induction n; cbn [repeat]; [apply Forall_nil|]. apply Forall_cons; [split; [exact H|exact I]|assumption]. }
    assert (P3 : forall n, Forall (fun tc : nat * cmd => fst tc < 2 /\ plain (snd tc)) (rounds n)).
    { induction n; cbn [rounds]; [constructor|]. apply Forall_app. split; [apply P2; lia|]. apply Forall_app. split; [apply P1; lia|assumption]. }
    unfold pop. repeat (apply Forall_app; split); try apply P1; try apply P2; try apply P3; try lia. apply Forall_cons; [split; [cbn; lia|exact I]|apply Forall_nil].
  - rewrite (run_app align _ (rounds _ ++ _)), (run_app align (rounds _)), (run_app align [_]).
    pose proof (waiting_rounds align (align - 2) ltac:(lia) 2 _ (start_waiting align A2)) as W2. replace (2 + (align - 2)) with align in W2 by lia.
    rewrite Nat.mod_same in W2 by lia.
    match goal with |- context [run align (rounds _) ?s] => set (s2 := run align (rounds (align - 2)) s) in * end. clearbody s2.
    destruct W2 as (A & B & O & C & D & st & R & S).
    destruct (pop_end align 0 0 s2 0 0 _ _ (CPop 0) D A) as (s3 & -> & T3 & N3 & O3 & P3 & L3).
    destruct (pop_call align 0 0 s3 1 (1 mod align)) as (s4 & -> & T4 & N4 & O4 & P4 & L4); [rewrite P3; reflexivity|rewrite T3; reflexivity|].
    intros (st' & L). rewrite L4, L3, replay_app, replay_app, R in L. cbn [replay] in L. rewrite S in L. cbn [Nat.eqb] in L. discriminate.
Qed.
Print Assumptions slist_many_pops_refuted.

(** ** C188: taking a whole list beside a pop *)
Fixpoint pushes (i : nat) (h : list event) : nat :=
  match h with EPush _ j :: r => (if j =? i then 1 else 0) + pushes i r | _ :: r => pushes i r | [] => 0 end.
Fixpoint pops (i : nat) (h : list event) : nat :=
  match h with EPop _ j :: r => (if j =? i then 1 else 0) + pops i r | _ :: r => pops i r | [] => 0 end.

Lemma swap_call align t l src s : pcs s t = Idle -> l <> src ->
  exists s', run align (repeat (t, CSwap l src) 3) s = s' /\
    (forall k, tops s' k = if k =? l then tops s src else if k =? src then tops s l else tops s k) /\
    (forall i, nxt s' i = nxt s i) /\ (forall i, outside s' i = outside s i) /\
    (forall u, pcs s' u = pcs s u) /\ log s' = log s.
Proof.
  intros P NE. eexists. split.
  { cbn [repeat].
  eapply eq_trans; [apply step_run; unfold move; rewrite P; reflexivity|].
  eapply eq_trans; [apply step_run; unfold move; cbn [setPc pcs]; rewrite Nat.eqb_refl; reflexivity|].
  eapply eq_trans; [apply step_run; unfold move; cbn [setPc pcs]; rewrite Nat.eqb_refl; reflexivity|].
  reflexivity. }
  cbn [run setPc setTop tops nxt outside pcs log]. repeat split; auto.
  intros u. destruct (Nat.eqb_spec u t) as [->|]; auto.
Qed.

(** Refuted: thread 0 is in pop of list 0; thread 1 takes the list into its own empty list 1, takes
    one item from it and puts it back into list 0.  The cookie is the same again: the second item
    is now in both lists and is taken twice, though it was put in once. *)
Theorem slist_take_refuted : forall align, 2 <= align ->
  exists sched, Forall (fun tc => match snd tc with CSwap 1 0 => True | c => plain c end) sched /\
    let s := run align sched init in pushes 1 (log s) = 1 /\ pops 1 (log s) = 2.
Proof.
  intros align A2.
  exists (push 1 0 1 ++ push 1 0 0 ++ repeat (0, CPop 0) 3 ++ repeat (1, CSwap 1 0) 3 ++ pop 1 1 ++ push 1 0 0 ++ [(0, CPop 0)] ++ pop 0 0 ++ pop 1 1).
  split; [unfold push, pop; cbn [repeat app]; repeat constructor; exact I|]. rewrite !run_app. cbv zeta.
  destruct (push_call align 1 0 1 init (None, 0) eq_refl eq_refl eq_refl) as (s1 & -> & T1 & N1 & O1 & P1 & L1).
  destruct (push_call align 1 0 0 s1 _ (P1 1) (T1 0) (O1 0)) as (s2 & -> & T2 & N2 & O2 & P2 & L2).
  destruct (pop_begin align 0 0 s2 0 0) as (s3 & -> & T3 & N3 & O3 & P3 & L3); [rewrite P2, P1; reflexivity|exact (T2 0)|].
  destruct (swap_call align 1 1 0 s3) as (s4 & -> & T4 & N4 & O4 & P4 & L4); [rewrite P3, P2, P1; reflexivity|lia|].
  destruct (pop_call align 1 1 s4 0 0) as (s5 & -> & T5 & N5 & O5 & P5 & L5);
    [rewrite P4, P3, P2, P1; reflexivity|rewrite T4; cbn [Nat.eqb]; rewrite T3, T2; reflexivity|].
  destruct (push_call align 1 0 0 s5 (None, 0)) as (s6 & -> & T6 & N6 & O6 & P6 & L6).
  { rewrite P5, P4, P3, P2, P1. reflexivity. }
  { rewrite T5, T4. cbn [Nat.eqb]. rewrite T3, T2, T1. reflexivity. }
  { rewrite O5. reflexivity. }
  destruct (pop_end align 0 0 s6 0 0 (nxt s2 0) (taken 0 (log s2)) (CPop 0)) as (s7 & -> & T7 & N7 & O7 & P7 & L7).
  { rewrite P6, P5, P4, P3. reflexivity. }
  { rewrite T6. reflexivity. }
  destruct (pop_call align 0 0 s7 1 (1 mod align)) as (s8 & -> & T8 & N8 & O8 & P8 & L8).
  { rewrite P7. reflexivity. }
  { rewrite T7, N2. reflexivity. }
  destruct (pop_call align 1 1 s8 1 (1 mod align)) as (s9 & -> & T9 & N9 & O9 & P9 & L9).
  { rewrite P8, P7, P6, P5, P4, P3, P2, P1. reflexivity. }
  { rewrite T8, T7, T6, T5, N4, N3, N2. reflexivity. }
  rewrite L9, L8, L7, L6, L5, L4, L3, L2, L1. split; reflexivity.
Qed.
Print Assumptions slist_take_refuted.

(** ** C189: exchanging the content of two lists *)

(** Refuted: the current list is the one that is not exchanged atomically.  An item another thread
    puts into it meanwhile is lost: no list has it. *)
Theorem slist_swap_refuted : forall align, exists sched,
  let s := run align sched init in
  log s = [EPush 0 0] /\ (forall t, pcs s t = Idle) /\ (forall l, fst (tops s l) = None).
Proof.
  intros align. exists ([(0, CSwap 0 1)] ++ push 1 0 0 ++ repeat (0, CSwap 0 1) 2). cbn.
  split; [reflexivity|]. split.
  - intros [|[|t]]; reflexivity.
  - intros [|[|l]]; reflexivity.
Qed.
Print Assumptions slist_swap_refuted.

(** Refuted: when the top is not the expected one, swapWhenTopIs changes its argument all the same:
    it becomes a second name of the current list and its own items are lost. *)
Theorem slist_swap_if_refuted : forall align s t l src cond, pcs s t = Idle -> l <> src -> cond <> fst (tops s l) ->
  exists s', move align t (CSwapIf l src cond) s = Some s' /\ tops s' l = tops s l /\ tops s' src = tops s l.
Proof.
  intros align s t l src cond P NE C. unfold move. rewrite P. cbv zeta.
  destruct (weqb (tops s l) (cond, snd (tops s l))) eqn:E.
  - apply weqb_eq in E. rewrite E in C. destruct (C eq_refl).
  - eexists. split; [reflexivity|]. cbn [setTop tops]. rewrite Nat.eqb_refl. destruct (Nat.eqb_spec l src); [contradiction|]. auto.
Qed.
Print Assumptions slist_swap_if_refuted.

Theorem slist_swap_if_matching : forall align s t l src, pcs s t = Idle -> l <> src ->
  exists s', move align t (CSwapIf l src (fst (tops s l))) s = Some s' /\ tops s' l = tops s src /\ tops s' src = tops s l.
Proof.
  intros align s t l src P NE. unfold move. rewrite P. cbv zeta. unfold weqb. cbn [fst snd].
  replace (oeqb (fst (tops s l)) (fst (tops s l))) with true by (destruct (fst (tops s l)); cbn; rewrite ?Nat.eqb_refl; reflexivity).
  rewrite Nat.eqb_refl. eexists. split; [reflexivity|]. cbn [setTop tops]. rewrite !Nat.eqb_refl. destruct (Nat.eqb_spec l src); [contradiction|]. cbn [andb setTop tops]. rewrite ?Nat.eqb_refl. split; reflexivity.
Qed.
Print Assumptions slist_swap_if_matching.

(** ** Cases that meet the hypotheses *)
Definition busy : list (nat * cmd) :=
  push 0 0 7 ++ push 0 0 8 ++ repeat (1, CPop 0) 3 ++ pop 2 0 ++ repeat (2, CPush 0 9) 3 ++ repeat (1, CPop 0) 3 ++ repeat (2, CPush 0 9) 3 ++ pop 1 0.
Example busy_tame : tame 16 busy init.
Proof. vm_compute. repeat (split; [exact I || (repeat constructor)|]). exact I. Qed.
Example busy_log : log (run 16 busy init) = [EPush 0 7; EPush 0 8; EPop 0 8; EPop 0 7; EPush 0 9; EPop 0 9] /\
  legal (log (run 16 busy init)).
Proof. split; [vm_compute; reflexivity|]. eexists. vm_compute. reflexivity. Qed.
