(** Properties of the spin locks (C190-C192). *)
From Verif Require Import Common SpinLock_Model.

(** ** C190: SpinLock is exclusive *)
Definition noSteal (tc : nat * scmd) : Prop := match snd tc with SCSteal _ => False | _ => True end.

Definition sinv (s : sstate) : Prop :=
  (forall t, sheld s t = true -> sowner s = Some t) /\
  (forall t, match spcs s t with SGive _ => sowner s = Some t | SSteal _ => False | _ => True end) /\
  (forall t, sowner s = Some t -> sheld s t = true).

Lemma smove_inv t c s s' : sinv s -> noSteal (t, c) -> smove t c s = Some s' -> sinv s'.
Proof.
  intros (A & B & C) NS M. unfold smove in M. pose proof (B t) as BT. destruct (spcs s t) as [| |u|u] eqn:EP.
  - destruct c as [| | |u|u]; try destruct NS.
    + injection M as <-. split; [exact A|]. split; [|exact C]. intros u. cbn [spcs sowner]. unfold oset. destruct (Nat.eqb_spec u t); [exact I|apply B].
    + destruct (sowner s) as [u|] eqn:EO; cbn [strylock] in M; injection M as <-.
      * destruct (Nat.eqb_spec u t) as [->|NE]; (split; [|split]); cbn [sheld sowner spcs]; auto.
        -- intros v. unfold oset. destruct (Nat.eqb_spec v t) as [->|]; auto.
        -- intros v. unfold oset. destruct (Nat.eqb_spec v t) as [->|]; auto.
      * split; [|split]; cbn [sheld sowner spcs].
        -- intros v. unfold oset. destruct (Nat.eqb_spec v t) as [->|]; auto. intros X. apply A in X. discriminate.
        -- intros v. specialize (B v). destruct (spcs s v); auto. discriminate.
        -- intros v X. injection X as <-. unfold oset. rewrite Nat.eqb_refl. reflexivity.
    + injection M as <-. split; [|split]; cbn [sheld sowner spcs].
      * intros v. unfold oset. destruct (Nat.eqb_spec v t) as [->|NE]; [discriminate|]. intros X. apply A in X. rewrite X. destruct (Nat.eqb_spec v t); congruence.
      * intros v. specialize (B v). destruct (spcs s v) eqn:EV; auto. rewrite B. destruct (Nat.eqb_spec v t) as [->|]; congruence.
      * intros v X. destruct (sowner s) as [u|] eqn:EO; [|discriminate]. destruct (Nat.eqb_spec u t); [discriminate|]. injection X as <-.
        unfold oset. destruct (Nat.eqb_spec u t); [contradiction|]. apply C. reflexivity.
    + destruct (sowner s) as [v|] eqn:EO; [|injection M as <-; repeat split; assumption || (rewrite EO; assumption)].
      destruct (Nat.eqb_spec v t) as [->|]; injection M as <-; (split; [|split]); cbn [sheld sowner spcs]; auto; try (rewrite EO; assumption).
      intros v. unfold oset. destruct (Nat.eqb_spec v t) as [->|]; auto. apply B.
  - destruct (sowner s) as [u|] eqn:EO; cbn [strylock] in M.
    + destruct (Nat.eqb_spec u t) as [->|NE]; injection M as <-.
      * split; [|split]; cbn [sheld sowner spcs]; intros v; unfold oset; destruct (Nat.eqb_spec v t) as [->|]; auto. apply B.
      * split; [|split]; rewrite ?EO; auto.
    + injection M as <-. split; [|split]; cbn [sheld sowner spcs]; intros v; unfold oset; destruct (Nat.eqb_spec v t) as [->|]; auto.
      * intros X. apply A in X. discriminate.
      * specialize (B v). destruct (spcs s v); auto. discriminate.
      * congruence.
  - injection M as <-. split; [|split]; cbn [sheld sowner spcs]; intros v; unfold oset.
    + destruct (Nat.eqb_spec v u) as [->|]; [reflexivity|]. destruct (Nat.eqb_spec v t); [discriminate|]. intros X. apply A in X. congruence.
    + destruct (Nat.eqb_spec v t) as [->|N]; [exact I|]. specialize (B v). destruct (spcs s v); auto. congruence.
    + intros X. injection X as <-. rewrite Nat.eqb_refl. reflexivity.
  - destruct BT.
Qed.

Lemma srun_inv sched s : sinv s -> Forall noSteal sched -> sinv (srun sched s).
Proof.
  revert s. induction sched as [|[t c] r IH]; intros s V F; [exact V|]. apply Forall_cons_iff in F as [F1 F2]. cbn [srun].
  destruct (smove t c s) as [s'|] eqn:E; apply IH; auto. eapply smove_inv; eauto.
Qed.

(** with lock, tryLock, unlock and give called in any order by any threads, at most one thread
    was told to own the lock, and the lock names it *)
Theorem spin_exclusive : forall sched, Forall noSteal sched ->
  let s := srun sched sinit in
  (forall t u, sheld s t = true -> sheld s u = true -> t = u) /\ (forall t, sheld s t = true <-> sowner s = Some t).
Proof.
  intros sched F. cbv zeta. destruct (srun_inv sched sinit) as (A & B & C); [repeat split; cbn; auto; discriminate|exact F|].
  split; [|split; auto]. intros t u X Y. apply A in X. apply A in Y. congruence.
Qed.
Print Assumptions spin_exclusive.

(** a thread that spins gets the lock with its next step once the lock is free *)
Theorem spin_gets_free_lock : forall s t c, spcs s t = SLock -> sowner s = None ->
  exists s', smove t c s = Some s' /\ sheld s' t = true /\ spcs s' t = SIdle.
Proof.
  intros s t c P O. unfold smove. rewrite P, O. cbn [strylock]. eexists. split; [reflexivity|]. cbn. unfold oset. rewrite Nat.eqb_refl. auto.
Qed.
Print Assumptions spin_gets_free_lock.

(** ** C191: stealing a lock *)

(** Refuted: two threads that steal the lock of a dead owner at the same time both succeed, for
    any three threads. *)
Theorem spin_steal_refuted : forall dead a b, dead <> a -> dead <> b -> a <> b ->
  let s := srun [(dead, SCTry); (a, SCSteal dead); (b, SCSteal dead); (a, SCTry); (b, SCTry)] sinit in
  sheld s a = true /\ sheld s b = true.
Proof.
  intros dead a b N1 N2 N3.
  assert (E : forall x y, x <> y -> (x =? y) = false /\ (y =? x) = false) by (intros x y N; split; apply Nat.eqb_neq; congruence).
  destruct (E _ _ N1) as [E1 E2]. destruct (E _ _ N2) as [E3 E4]. destruct (E _ _ N3) as [E5 E6]. clear E.
  cbv zeta. unfold srun, sinit. unfold oset.
  repeat (unfold smove at 1; cbn -[Nat.eqb smove]; unfold oset; rewrite ?Nat.eqb_refl, ?E1, ?E2, ?E3, ?E4, ?E5, ?E6; cbn -[Nat.eqb smove]).
  rewrite ?Nat.eqb_refl, ?E1, ?E2, ?E3, ?E4, ?E5, ?E6. auto.
Qed.
Print Assumptions spin_steal_refuted.

(** ** C192: SpinLockRecursive counts *)
Definition rdue (p : rpc) : nat := match p with RUnlock | RDec => 1 | _ => 0 end.
Definition rinv (s : rstate) : Prop :=
  (forall t, 0 < rheld s t -> rowner s = Some t) /\
  (forall t, match rpcs s t with RIdle | RTry _ => True | _ => rowner s = Some t end) /\
  (forall t, match rpcs s t with
             | RSet => rheld s t = 0
             | RFree => rheld s t = 0 /\ rcount s = 0
             | p => rowner s = Some t -> rcount s = rheld s t + rdue p /\ 0 < rcount s
             end).

Lemma rmove_inv t c s s' : rinv s -> rmove t c s = Some s' -> rinv s'.
Proof.
  intros (A & B & C) M. unfold rmove in M. pose proof (B t) as BT. pose proof (C t) as CT.
  assert (X : forall u, u <> t -> rowner s = Some t -> rheld s u = 0 /\ match rpcs s u with RIdle | RTry _ => True | _ => False end).
  { intros u N O. split.
    - destruct (rheld s u) eqn:E; [reflexivity|]. specialize (A u). rewrite E in A. assert (rowner s = Some u) by (apply A; lia). congruence.
    - specialize (B u). destruct (rpcs s u); auto; congruence. }
  destruct (rpcs s t) as [|spin| | | | |] eqn:EP.
  - destruct c.
    + injection M as <-. split; [exact A|]. split; intros u; cbn [rsetPc rpcs rowner rcount rheld]; unfold oset; destruct (Nat.eqb_spec u t) as [->|]; auto; try apply B; try apply C.
    + injection M as <-. split; [exact A|]. split; intros u; cbn [rsetPc rpcs rowner rcount rheld]; unfold oset; destruct (Nat.eqb_spec u t) as [->|]; auto; try apply B; try apply C.
    + destruct (Nat.ltb_spec 0 (rheld s t)) as [H|H]; [|discriminate]. injection M as <-. pose proof (A t H) as O. destruct (CT O) as [CT1 CT2].
      split; [|split]; intros u; cbn [rpcs rowner rcount rheld]; unfold oset; destruct (Nat.eqb_spec u t) as [->|]; auto; try apply B; try apply C.
      intros _. cbn [rdue] in *. lia.
  - destruct (rowner s) as [u|] eqn:EO.
    + destruct (Nat.eqb_spec u t) as [->|NE].
      * injection M as <-. destruct (CT eq_refl) as [CT1 CT2].
        split; [cbn; rewrite EO; exact A|]. split; intros v; cbn [rsetPc rpcs rowner rcount rheld]; unfold oset; destruct (Nat.eqb_spec v t) as [->|]; rewrite ?EO; auto; try apply B; try apply C.
      * destruct spin; injection M as <-.
        -- split; [rewrite EO; exact A|]. split; intros v; rewrite EO; [apply B|apply C].
        -- split; [cbn; rewrite EO; exact A|]. split; intros v; cbn [rsetPc rpcs rowner rcount rheld]; unfold oset; destruct (Nat.eqb_spec v t) as [->|]; rewrite ?EO; auto; try apply B; try apply C.
    + injection M as <-. assert (Z : forall v, rheld s v = 0). { intros v. destruct (rheld s v) eqn:E; [reflexivity|]. specialize (A v). rewrite E in A. assert (None = Some v) by (apply A; lia). discriminate. }
      split; [|split]; intros v; cbn [rpcs rowner rcount rheld]; unfold oset.
      * rewrite Z. lia.
      * destruct (Nat.eqb_spec v t) as [->|]; [reflexivity|]. specialize (B v). destruct (rpcs s v); auto; discriminate.
      * destruct (Nat.eqb_spec v t) as [->|N]; [apply Z|]. specialize (B v). specialize (C v). destruct (rpcs s v); auto; try discriminate; intros Y; congruence.
  - injection M as <-. split; [|split]; intros v; cbn [rpcs rowner rcount rheld]; unfold oset.
    + destruct (Nat.eqb_spec v t) as [->|N]; [auto|]. destruct (X v N BT). lia.
    + destruct (Nat.eqb_spec v t) as [->|N]; [exact I|apply B].
    + destruct (Nat.eqb_spec v t) as [->|N]; [intros _; cbn [rdue]; lia|]. destruct (X v N BT) as [X1 X2].
      specialize (C v). destruct (rpcs s v); try destruct X2; intros Y; congruence.
  - injection M as <-. destruct (CT BT) as [CT1 CT2]. split; [|split]; intros v; cbn [rpcs rowner rcount rheld]; unfold oset.
    + destruct (Nat.eqb_spec v t) as [->|N]; [auto|]. destruct (X v N BT). lia.
    + destruct (Nat.eqb_spec v t) as [->|N]; [exact I|apply B].
    + destruct (Nat.eqb_spec v t) as [->|N]; [intros _; cbn [rdue] in *; lia|]. destruct (X v N BT) as [X1 X2].
      destruct (rpcs s v); try destruct X2; intros Y; congruence.
  - rewrite BT, Nat.eqb_refl in M. injection M as <-. split; [cbn; exact A|]. split; intros v; cbn [rsetPc rpcs rowner rcount rheld]; unfold oset.
    + destruct (Nat.eqb_spec v t) as [->|N]; [exact BT|apply B].
    + destruct (Nat.eqb_spec v t) as [->|N]; [exact CT|apply C].
  - injection M as <-. destruct (CT BT) as [CT1 CT2]. cbn [rdue] in CT1. split; [exact A|]. split; intros v; cbn [rpcs rowner rcount rheld]; unfold oset.
    + destruct (Nat.eqb_spec v t) as [->|N]; [destruct (_ =? 0); auto|apply B].
    + destruct (Nat.eqb_spec v t) as [->|N].
      * destruct (Nat.eqb_spec (rcount s - 1) 0); [lia|]. intros _. cbn [rdue]. lia.
      * destruct (X v N BT) as [X1 X2]. destruct (rpcs s v); try destruct X2; intros Y; congruence.
  - injection M as <-. destruct CT as [CT1 CT2]. split; [|split]; intros v; cbn [rpcs rowner rcount rheld]; unfold oset.
    + intros H. assert (O := A v H). assert (v = t) by congruence. subst. lia.
    + destruct (Nat.eqb_spec v t) as [->|N]; [exact I|]. destruct (X v N BT) as [X1 X2]. destruct (rpcs s v); try destruct X2; exact I.
    + destruct (Nat.eqb_spec v t) as [->|N]; [discriminate|]. destruct (X v N BT) as [X1 X2]. destruct (rpcs s v); try destruct X2; discriminate.
Qed.

Lemma rrun_inv sched s : rinv s -> rinv (rrun sched s).
Proof.
  revert s. induction sched as [|[t c] r IH]; intros s V; [exact V|]. cbn [rrun].
  destruct (rmove t c s) as [s'|] eqn:E; apply IH; auto. eapply rmove_inv; eauto.
Qed.

(** [rheld]: how often a thread locked minus how often it unlocked *)
Theorem spin_recursive_exclusive : forall sched, let s := rrun sched rinit in
  (forall t u, 0 < rheld s t -> 0 < rheld s u -> t = u) /\
  (forall t, 0 < rheld s t -> rowner s = Some t) /\
  (forall t, (forall u, rpcs s u = RIdle) -> rheld s t = 0 -> rowner s <> Some t).
Proof.
  intros sched. cbv zeta. destruct (rrun_inv sched rinit) as (A & B & C).
  { repeat split; cbn; auto; try lia; discriminate. }
  split; [|split; [exact A|]].
  - intros t u X Y. apply A in X. apply A in Y. congruence.
  - intros t Q H O. specialize (C t). rewrite Q in C. destruct (C O). cbn [rdue] in *. lia.
Qed.
Print Assumptions spin_recursive_exclusive.

(** ** Cases that meet the hypotheses *)
Example spin_case :
  let s := srun [(1, SCLock); (2, SCLock); (1, SCLock); (2, SCLock); (1, SCGive 3); (1, SCGive 3); (2, SCLock); (3, SCUnlock); (2, SCLock)] sinit in
  sheld s 1 = false /\ sheld s 2 = true /\ sheld s 3 = false.
Proof. vm_compute. auto. Qed.
Example spin_recursive_case :
  let s := rrun (repeat (1, RCLock) 6 ++ [(1, RCUnlock); (1, RCUnlock); (1, RCUnlock); (2, RCTry); (2, RCTry)]) rinit in
  rheld s 1 = 1 /\ rowner s = Some 1 /\ rheld s 2 = 0 /\ rpcs s 2 = RIdle.
Proof. vm_compute. auto. Qed.
