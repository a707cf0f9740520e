(** Properties of the mutex (C193-C196). *)
From Verif Require Import Common Mutex_Model Mutex_Proof.

(** ** C193: mutual exclusion *)

(** the program never calls tryLock *)
Definition neverTries (sched : list (nat * cmd)) : Prop := Forall (fun tc => snd tc <> CTry) sched.

(** Whatever the threads call and however they interleave, at most one thread was told to hold the
    mutex and did not give it back, and the mutex names it.  It stays the holder until it called
    unlock as often as it locked.  [init 0] is a new mutex; [init 1] is one that was locked and
    unlocked before. *)
Theorem mutex_exclusive : forall r sched, r = 1 \/ r = 0 /\ neverTries sched ->
  let s := run sched (init r) in
  (forall t u, 0 < held s t -> 0 < held s u -> t = u) /\ (forall t, 0 < held s t -> owner s = Some t) /\
  (forall t, pcs s t = Idle -> 0 < held s t -> recursion s = held s t).
Proof.
  intros r sched R. cbv zeta.
  assert (V : inv (r = 0) (run sched (init r))).
  { apply run_inv; [apply inv_init; lia|]. intros N. destruct R as [R|[_ R]]; [congruence|exact R]. }
  assert (O : forall t, 0 < held (run sched (init r)) t -> owner (run sched (init r)) = Some t).
  { intros t H. apply (i_own _ _ V). pose proof (i_rec _ _ V t) as Q. destruct (pcs (run sched (init r)) t); cbn in *; auto; lia. }
  split; [|split]; [|exact O|].
  - intros t u A B. apply O in A. apply O in B. congruence.
  - intros t P H. pose proof (i_rec _ _ V t) as Q. rewrite P in Q. exact (Q H).
Qed.
Print Assumptions mutex_exclusive.

(** ** C194: no waiting thread is forgotten *)

(** A thread that waits without having been signaled has somebody to wait for: another thread holds
    the mutex, or is inside of a call and can go on. *)
Theorem mutex_no_lost_waiter : forall r sched w, r = 1 \/ r = 0 /\ neverTries sched ->
  let s := run sched (init r) in
  pcs s w = LWait -> signaled s w = false ->
  exists u, u <> w /\ (0 < held s u \/ pcs s u <> Idle /\ forall c, move u c s <> None).
Proof.
  intros r sched w R. cbv zeta.
  assert (V : inv (r = 0) (run sched (init r))).
  { apply run_inv; [apply inv_init; lia|]. intros N. destruct R as [R|[_ R]]; [congruence|exact R]. }
  revert V. generalize (run sched (init r)). intros s V P S.
  assert (HC : forall u x, handing (pcs s u) = Some x -> u <> w /\ pcs s u <> Idle /\ forall c, move u c s <> None).
  { intros u x H. split; [intros ->; rewrite P in H; discriminate|]. unfold move. destruct (pcs s u); try discriminate H; split; discriminate. }
  assert (QL : qlock s = true -> exists u, u <> w /\ (0 < held s u \/ pcs s u <> Idle /\ forall c, move u c s <> None)).
  { intros Q. destruct (i_qlock _ _ V Q) as (u & x & H). exists u. destruct (HC u x H). auto. }
  destruct (owner s) as [o|] eqn:EO.
  - destruct (i_just _ _ V o EO) as [J|[J K]].
    + assert (N : o <> w) by (intros ->; rewrite P in J; destruct J).
      destruct (qlock s) eqn:EQ; [apply QL; reflexivity|].
      exists o. split; [exact N|]. destruct (pcs s o) eqn:EP; cbn in J; try contradiction; auto;
        right; (split; [discriminate|]); intros c; unfold move; rewrite EP, ?EQ; try discriminate. destruct (queue s); discriminate.
    + destruct K as [K|[u K]].
      * assert (N : o <> w) by (intros ->; congruence).
        destruct (qlock s) eqn:EQ; [apply QL; reflexivity|].
        exists o. split; [exact N|]. destruct (pcs s o) eqn:EP; cbn in J; try contradiction;
        right; (split; [discriminate|]); intros c; unfold move; rewrite EP, ?EQ, ?K, ?EO; discriminate.
      * exists u. apply usig_hand in K. destruct (HC _ _ K). auto.
  - destruct (i_wait _ _ V w) as [I|[I|[u I]]]; [rewrite P; exact Logic.I| |congruence|].
    + destruct (i_lost _ _ V EO) as [L|[u L]]; [destruct (L w I P)|].
      exists u. split; [intros ->; rewrite P in L; destruct L|]. right. unfold move. destruct (pcs s u); try contradiction; split; try discriminate; rewrite EO; discriminate.
    + exists u. destruct (HC _ _ I). auto.
Qed.
Print Assumptions mutex_no_lost_waiter.

(** ** C195: a lock with a time limit that fails changes nothing for its thread *)
Theorem mutex_timeout_honest : forall r sched t c, r = 1 \/ r = 0 /\ neverTries sched ->
  let s := run sched (init r) in
  pcs s t = LTest ->
  if signaled s t then owner s = Some t
  else ~ In t (queue s) /\ (forall u, handing (pcs s u) <> Some t) /\ owner s <> Some t /\
       exists s', move t c s = Some s' /\ pcs s' t = Idle /\ held s' t = 0.
Proof.
  intros r sched t c R. cbv zeta.
  assert (V : inv (r = 0) (run sched (init r))).
  { apply run_inv; [apply inv_init; lia|]. intros N. destruct R as [R|[_ R]]; [congruence|exact R]. }
  revert V. generalize (run sched (init r)). intros s V P.
  assert (H : forall u, handing (pcs s u) <> Some t).
  { intros u H. destruct (i_hand _ _ V u t H) as (_ & W & _). rewrite P in W. exact W. }
  destruct (signaled s t) eqn:S.
  - apply (i_sig _ _ V); [rewrite P; exact I|exact S].
  - split; [|split; [exact H|split]].
    + intros Q. destruct (i_queue _ _ V t Q) as [[W _]|W]; rewrite P in W; [exact W|discriminate].
    + intros O. destruct (i_just _ _ V t O) as [J|[_ [J|[u J]]]]; [rewrite P in J; exact J|congruence|].
      apply usig_hand in J. exact (H _ J).
    + unfold move. rewrite P, S. eexists. split; [reflexivity|]. cbn. unfold fset. rewrite Nat.eqb_refl.
      pose proof (i_rec _ _ V t) as Q. rewrite P in Q. auto.
Qed.
Print Assumptions mutex_timeout_honest.

(** ** C196: tryLock *)

Lemma fset_eq {A} (f : nat -> A) t a : fset f t a t = a.
Proof. unfold fset. rewrite Nat.eqb_refl. reflexivity. Qed.
Lemma fset_neq {A} (f : nat -> A) t a u : u <> t -> fset f t a u = f u.
Proof. intros N. unfold fset. apply Nat.eqb_neq in N. rewrite N. reflexivity. Qed.
Lemma step_and t c r s s' (P : state -> Prop) : move t c s = Some s' -> P (run r s') -> P (run ((t, c) :: r) s).
Proof. intros E H. cbn [run]. rewrite E. exact H. Qed.

(** Refuted: a thread that got a new mutex with tryLock and locks it once more gives it up with the
    first unlock: afterwards it and another thread hold the mutex together. *)
Theorem mutex_try_refuted : forall t u, t <> u ->
  let s := run (repeat (t, CTry) 2 ++ repeat (t, CLock) 3 ++ repeat (t, CUnlock) 5 ++ repeat (u, CLock) 3) (init 0) in
  held s t = 1 /\ pcs s t = Idle /\ held s u = 1 /\ pcs s u = Idle.
Proof.
  intros t u N. assert (E1 : t <> u) by congruence. assert (E2 : u <> t) by congruence.
  cbv zeta. cbn [repeat app].
  repeat (eapply step_and; [unfold move; cbn [pcs owner recursion queue qlock signaled held init setPc setOwner setRec setQueue setSig setHeld done];
    rewrite ?fset_eq, ?(fun A f a => @fset_neq A f _ a _ E1), ?(fun A f a => @fset_neq A f _ a _ E2), ?Nat.eqb_refl;
    cbn [pcs owner recursion queue qlock signaled held init setPc setOwner setRec setQueue setSig setHeld done Nat.ltb Nat.leb Nat.add Nat.sub];
    rewrite ?fset_eq, ?(fun A f a => @fset_neq A f _ a _ E1), ?(fun A f a => @fset_neq A f _ a _ E2), ?Nat.eqb_refl; reflexivity|]).
  cbn [run pcs owner recursion queue qlock signaled held init setPc setOwner setRec setQueue setSig setHeld done].
  rewrite ?fset_eq, ?(fun A f a => @fset_neq A f _ a _ E1), ?(fun A f a => @fset_neq A f _ a _ E2), ?fset_eq, ?(fun A f a => @fset_neq A f _ a _ E1), ?(fun A f a => @fset_neq A f _ a _ E2). auto.
Qed.
Print Assumptions mutex_try_refuted.

(** Refuted: tryLock by the thread that holds the mutex fails, while lock would succeed. *)
Theorem mutex_try_recursive_refuted : forall s t c, pcs s t = TCas -> owner s = Some t ->
  exists s', move t c s = Some s' /\ pcs s' t = Idle /\ held s' t = held s t.
Proof.
  intros s t c P O. unfold move. rewrite P, O. eexists. split; [reflexivity|]. cbn. unfold fset. rewrite Nat.eqb_refl. auto.
Qed.
Print Assumptions mutex_try_recursive_refuted.

(** ** Cases that meet the hypotheses *)
Definition contend : list (nat * cmd) :=
  repeat (0, CLock) 3 ++ repeat (1, CLock) 4 ++ repeat (2, CLock) 4 ++ repeat (0, CLock) 3 ++ repeat (0, CUnlock) 3.
Example contend_ok : neverTries contend.
Proof. unfold contend. cbn. repeat constructor; discriminate. Qed.
Example contend_waits : let s := run contend (init 0) in
  held s 0 = 1 /\ (pcs s 1 = LWait /\ signaled s 1 = false) /\ queue s = [1; 2] /\ held s 1 = 0.
Proof. vm_compute. auto. Qed.
Example contend_next : let s := run (contend ++ repeat (0, CUnlock) 6 ++ repeat (1, CLock) 2) (init 0) in
  held s 0 = 0 /\ held s 1 = 1 /\ owner s = Some 1 /\ queue s = [2] /\ pcs s 2 = LWait.
Proof. vm_compute. auto. Qed.
Example contend_late : let s := run (contend ++ [(1, CTimeout); (1, CTimeout)]) (init 0) in
  pcs s 1 = LTest /\ signaled s 1 = false /\ queue s = [2].
Proof. vm_compute. auto. Qed.
Example contend_late_signaled : let s := run (contend ++ [(1, CTimeout)] ++ repeat (0, CUnlock) 6 ++ [(1, CTimeout)]) (init 0) in
  pcs s 1 = LTest /\ signaled s 1 = true /\ owner s = Some 1.
Proof. vm_compute. auto. Qed.
(** a mutex that was locked and unlocked is as one with the counter 1 *)
Example used_mutex : let s := run (repeat (0, CLock) 3 ++ repeat (0, CUnlock) 5) (init 0) in
  owner s = None /\ recursion s = 1 /\ queue s = [] /\ qlock s = false /\ pcs s 0 = Idle /\ held s 0 = 0.
Proof. vm_compute. auto 10. Qed.
