(** Lemmas about the queue executor. *)
From Coq Require Import ZArith Lia Permutation Sorted.
From Verif Require Import Common QueueExec_Spec QueueExec_Model.
Import ListNotations.
Local Open Scope Z_scope.

Fixpoint zsum (f : qpc -> Z) (l : list qpc) : Z := match l with [] => 0 | p :: l => f p + zsum f l end.
Lemma zsum_upd f l : forall c p q, nth_error l c = Some p -> zsum f (upd l c q) = zsum f l - f p + f q.
Proof.
  induction l as [|x l IH]; intros [|c] p q H; cbn [nth_error upd zsum] in *; try discriminate.
  - injection H as ->. lia.
  - rewrite (IH c p q H). lia.
Qed.
Lemma zsum_app f a b : zsum f (a ++ b) = zsum f a + zsum f b.
Proof. induction a as [|x a IH]; cbn [app zsum]; [reflexivity|]. rewrite IH. lia. Qed.
Lemma zsum_pos f l : (forall p, 0 <= f p) -> 0 <= zsum f l.
Proof. intros F. induction l as [|y l IH]; cbn [zsum]; [lia|]. specialize (F y). lia. Qed.
Lemma zsum_le f l : forall c p, (forall p, 0 <= f p) -> nth_error l c = Some p -> f p <= zsum f l.
Proof.
  induction l as [|x l IH]; intros [|c] p F H; cbn [nth_error zsum] in *; try discriminate.
  - injection H as ->. pose proof (zsum_pos f l F). lia.
  - specialize (IH c p F H). specialize (F x). lia.
Qed.
Lemma pick f l : 0 < zsum f l -> exists w p, nth_error l w = Some p /\ 0 < f p.
Proof.
  induction l as [|x l IH]; cbn [zsum]; [lia|]. intros H. destruct (Z_lt_le_dec 0 (f x)) as [X|X].
  - exists 0%nat, x. auto.
  - destruct IH as (w & p & E & Q); [lia|]. exists (S w), p. auto.
Qed.
Lemma zsum_mono f g l : (forall p, f p <= g p) -> zsum f l <= zsum g l.
Proof. intros F. induction l as [|y l IH]; cbn [zsum]; [lia|]. specialize (F y). lia. Qed.

Definition one (a b : nat) : Z := if Nat.eqb a b then 1 else 0.
Definition cnt (a : nat) (l : list nat) : Z := Z.of_nat (count_occ Nat.eq_dec l a).
Lemma cnt_cons a x l : cnt a (x :: l) = one a x + cnt a l.
Proof. unfold cnt, one. cbn [count_occ]. destruct (Nat.eq_dec x a) as [E|E], (Nat.eqb_spec a x); try congruence; lia. Qed.
Lemma cnt_app a x y : cnt a (x ++ y) = cnt a x + cnt a y.
Proof. unfold cnt. rewrite count_occ_app. lia. Qed.
Lemma cnt_nil a : cnt a [] = 0.
Proof. reflexivity. Qed.

(** the thread is counted; it has left; it passes a wake up on; it is neither waiting nor away *)
Definition inside (p : qpc) : Z := match p with Start | Gone => 0 | _ => 1 end.
Definition gone (p : qpc) : Z := match p with Gone => 1 | _ => 0 end.
Definition carrier (p : qpc) : Z := match p with Start | Head | Leave => 1 | _ => 0 end.
Definition active (p : qpc) : Z := match p with Wait | Asleep | Gone => 0 | _ => 1 end.
Definition runs (a : nat) (p : qpc) : Z := match p with Run b => one a b | _ => 0 end.
Lemma inside_pos p : 0 <= inside p. Proof. destruct p; cbn; lia. Qed.
Lemma gone_pos p : 0 <= gone p. Proof. destruct p; cbn; lia. Qed.
Lemma carrier_pos p : 0 <= carrier p. Proof. destruct p; cbn; lia. Qed.
Lemma active_pos p : 0 <= active p. Proof. destruct p; cbn; lia. Qed.
Lemma one_pos a b : 0 <= one a b. Proof. unfold one. destruct (_ =? _)%nat; lia. Qed.
Lemma runs_pos a p : 0 <= runs a p. Proof. destruct p; cbn; try lia. apply one_pos. Qed.

(** ** order of the actions *)
Lemma sorted_snoc l x : StronglySorted lt l -> Forall (fun y => (y < x)%nat) l -> StronglySorted lt (l ++ [x]).
Proof.
  induction 1 as [|a l S IH F]; intros G; cbn [app].
  - constructor; constructor.
  - inversion G; subst. constructor; [auto|]. apply Forall_app. split; [exact F|]. constructor; [assumption|constructor].
Qed.
Lemma sorted_prefix a b : StronglySorted lt (a ++ b) -> StronglySorted lt a.
Proof.
  induction a as [|x a IH]; cbn [app]; intros H; [constructor|]. inversion H as [|y l S F]; subst. constructor; [auto|].
  apply Forall_app in F. tauto.
Qed.
Lemma order_below n st q r : in_order n st q r -> Forall (fun y => (y < n)%nat) (st ++ q).
Proof.
  intros (P & _). apply Forall_forall. intros x I. assert (J : In x (seq 0 n)). { eapply Permutation_in; [exact P|]. rewrite app_assoc. apply in_or_app. auto. }
  apply in_seq in J. lia.
Qed.
Lemma order_accept n st q r : in_order n st q r -> in_order (S n) st (q ++ [n]) r.
Proof.
  intros O. pose proof (order_below _ _ _ _ O) as B. destruct O as (P & S). split.
  - rewrite seq_S. cbn [plus]. etransitivity; [|apply Permutation_app_tail; exact P].
    rewrite <- !app_assoc. apply Permutation_app_head, Permutation_app_head. cbn [app]. apply Permutation_cons_append.
  - rewrite app_assoc. apply sorted_snoc; assumption.
Qed.
Lemma order_refuse n st q r : in_order n st q r -> in_order (S n) st q (n :: r).
Proof.
  intros (P & S). split; [|exact S]. rewrite seq_S. cbn [plus]. etransitivity; [|apply Permutation_app_tail; exact P].
  rewrite <- !app_assoc. apply Permutation_app_head, Permutation_app_head. apply Permutation_cons_append.
Qed.
Lemma order_clear n st q r : in_order n st q r -> in_order n st [] (q ++ r).
Proof. intros (P & S). split; [exact P|]. rewrite app_nil_r. apply (sorted_prefix _ _ S). Qed.
Lemma order_start n st a q r : in_order n st (a :: q) r -> in_order n (st ++ [a]) q r.
Proof. intros (P & S). split; rewrite <- !app_assoc; assumption. Qed.

Lemma NoDup_app_snoc (l : list nat) x : NoDup l -> ~ In x l -> NoDup (l ++ [x]).
Proof. intros N I. apply (Permutation_NoDup (l := x :: l)); [apply Permutation_cons_append|]. constructor; auto. Qed.

(** ** the semaphore *)
Record sem (s : st) : Prop := {
  s_in : forall w, In w (waiters s) <-> nth_error (ws s) w = Some Asleep;
  s_nodup : NoDup (waiters s);
  s_zero : waiters s <> [] -> counter s = O }.

Lemma nth_upd (l : list qpc) w p v : nth_error (upd l w p) v = if Nat.eqb v w then (match nth_error l w with Some _ => Some p | None => None end) else nth_error l v.
Proof.
  revert w v. induction l as [|x l IH]; intros [|w] [|v]; cbn [upd nth_error Nat.eqb]; auto; try (destruct (Nat.eqb v w); reflexivity).
Qed.

(** a thread that does not sleep goes on awake *)
Lemma sem_move s w p q : sem s -> nth_error (ws s) w = Some p -> p <> Asleep -> q <> Asleep -> sem (setPc w q s).
Proof.
  intros [I N Z] E NP NQ. split; cbn [setPc setWs waiters ws counter]; auto.
  intros v. rewrite nth_upd. destruct (Nat.eqb_spec v w) as [->|NE]; [|apply I]. rewrite E. rewrite I, E. split; congruence.
Qed.
Lemma wake_ok s : sem s ->
  sem (wakeThread s) /\
  ((exists w, nth_error (ws s) w = Some Asleep /\ wakeThread s = setPc w Head (setWaiters (tl (waiters s)) (setCounter O s))) \/
   (waiters s = [] /\ wakeThread s = setCounter (S (pred (counter s))) s)).
Proof.
  intros [I N Z]. unfold wakeThread. cbn [waiters setCounter]. destruct (waiters s) as [|w l] eqn:W.
  - split; [|right; auto]. split; cbn [setCounter waiters ws counter]; rewrite ?W; auto. congruence.
  - assert (E : nth_error (ws s) w = Some Asleep) by (apply I; left; reflexivity).
    assert (CZ : counter s = O) by (apply Z; discriminate). rewrite CZ. cbn [pred].
    split; [|left; exists w; split; [exact E|reflexivity]].
    inversion N as [|x y N1 N2]; subst. split; cbn [setPc setWs setWaiters setCounter waiters ws counter].
    + intros v. rewrite nth_upd, E. destruct (Nat.eqb_spec v w) as [->|NE]; [split; [tauto|discriminate]|].
      rewrite <- I. cbn [In]. intuition congruence.
    + exact N2.
    + reflexivity.
Qed.

(** ** the invariant *)
Record inv (s : st) : Prop := {
  i_sem : sem s;
  i_fin : fin s <> None;
  i_thr : Z.of_nat (threadsIn s) = zsum inside (ws s);
  i_open : gate s = true -> threadsIn s = O;
  i_last : threadsIn s = O -> 0 < zsum gone (ws s) -> gate s = true;
  i_finq : fin s = Some true -> queue s = [];
  i_tok : fin s = Some true -> (0 < threadsIn s)%nat -> 0 < Z.of_nat (counter s) + zsum carrier (ws s);
  i_ord : in_order (next s) (started s) (queue s) (refused s);
  i_run : forall a, cnt a (started s) = cnt a (ended s) + zsum (runs a) (ws s) }.

Ltac cb := cbn [queue counter waiters running threadsIn gate fin ws next started ended refused setQueue setCounter setWaiters setRunning setThreads setGate setFin setWs setNext setStarted setEnded setRefused setPc].
Ltac sm E := repeat rewrite (zsum_upd _ _ _ _ _ E); rewrite ?zsum_app, ?cnt_app, ?cnt_cons, ?cnt_nil; cbn [inside gone carrier active runs zsum].

Lemma reset_inv : inv (reset init).
Proof.
  unfold reset, init. split; cb; try discriminate; try reflexivity; try (cbn; lia).
  - split; cb; [|constructor|congruence]. intros w. split; [intros []|destruct w; discriminate].
  - split; [constructor|constructor].
Qed.

(** wakeThread keeps everything and leaves a token *)
Lemma wake_sum s f : sem s -> exists z, zsum f (ws (wakeThread s)) = zsum f (ws s) + z * (f Head - f Asleep) /\
  0 <= z <= 1 /\ Z.of_nat (counter (wakeThread s)) + z >= 1.
Proof.
  intros S. destruct (wake_ok s S) as (_ & [(w & E & X)|(W & X)]); rewrite X; cb.
  - exists 1. rewrite (zsum_upd _ _ _ _ _ E). lia.
  - exists 0. lia.
Qed.
Lemma wake_same s : queue (wakeThread s) = queue s /\ running (wakeThread s) = running s /\ threadsIn (wakeThread s) = threadsIn s /\
  gate (wakeThread s) = gate s /\ fin (wakeThread s) = fin s /\ next (wakeThread s) = next s /\ started (wakeThread s) = started s /\
  ended (wakeThread s) = ended s /\ refused (wakeThread s) = refused s /\ length (ws (wakeThread s)) = length (ws s).
Proof. unfold wakeThread. cb. destruct (waiters s); cb; rewrite ?upd_length; auto 12. Qed.

Lemma wake_inv s : sem s -> fin s <> None -> Z.of_nat (threadsIn s) = zsum inside (ws s) -> (gate s = true -> threadsIn s = O) ->
  (threadsIn s = O -> 0 < zsum gone (ws s) -> gate s = true) -> (fin s = Some true -> queue s = []) ->
  in_order (next s) (started s) (queue s) (refused s) -> (forall a, cnt a (started s) = cnt a (ended s) + zsum (runs a) (ws s)) ->
  inv (wakeThread s).
Proof.
  intros S F T O L Q D R. destruct (wake_ok s S) as (S' & _). destruct (wake_same s) as (E1 & E2 & E3 & E4 & E5 & E6 & E7 & E8 & E9 & _).
  split; rewrite ?E1, ?E2, ?E3, ?E4, ?E5, ?E6, ?E7, ?E8, ?E9; auto.
  - destruct (wake_sum s inside S) as (z & E & _). rewrite E. cbn [inside]. lia.
  - destruct (wake_sum s gone S) as (z & E & _). rewrite E. cbn [gone]. intros A B. apply L; [exact A|lia].
  - intros _ _. destruct (wake_sum s carrier S) as (z & E & B & C). rewrite E. cbn [carrier]. pose proof (zsum_pos carrier (ws s) carrier_pos). lia.
  - intros a. destruct (wake_sum s (runs a) S) as (z & E & _). rewrite E. cbn [runs]. rewrite R. lia.
Qed.

Lemma sem_ext s s' : sem s -> ws s' = ws s -> waiters s' = waiters s -> counter s' = counter s -> sem s'.
Proof. intros [I N Z] A B C. split; rewrite ?A, ?B, ?C; auto. Qed.

(** a thread moves and the semaphore stays *)
Lemma sem_to s s' w p q : sem s -> nth_error (ws s) w = Some p ->
  ws s' = upd (ws s) w q -> waiters s' = waiters s -> counter s' = counter s -> p <> Asleep -> q <> Asleep -> sem s'.
Proof. intros S E A B C N1 N2. apply (sem_ext (setPc w q s)); auto. apply (sem_move s w p); auto. Qed.
Ltac mv S E := eapply (sem_to _ _ _ _ _ S E); [reflexivity|reflexivity|reflexivity|first [assumption|discriminate]|discriminate].

Lemma next_inv s w p : inv s -> nth_error (ws s) w = Some p -> fin s = Some false -> p <> Asleep -> (forall a, runs a p = 0) -> inside p = 1 -> gone p = 0 -> inv (next_action w s).
Proof.
  intros [S F T O L Q K D R] E FF NA R0 I1 G0. unfold next_action. destruct (queue s) as [|a q] eqn:QE.
  - split; cb; rewrite ?QE; auto; try congruence.
    + mv S E.
    + sm E. lia.
    + sm E. intros A B. apply L; auto. lia.
    + intros b. sm E. rewrite R, R0. lia.
  - split; cb; auto; try congruence.
    + mv S E.
    + sm E. lia.
    + sm E. intros A B. apply L; auto. lia.
    + apply order_start. exact D.
    + intros b. sm E. rewrite R, R0. lia.
Qed.

Lemma wstep_inv w h s : inv s -> exists s', wstep w h s = Ok s' /\ inv s'.
Proof.
  intros V. unfold wstep. destruct (nth_error (ws s) w) as [p|] eqn:E; [|exists s; auto].
  pose proof V as [S F T O L Q K D R]. pose proof (zsum_le inside _ _ _ inside_pos E) as LI.
  destruct p as [| |a| |v| | | | | |]; cbn [inside] in LI.
  - eexists. split; [reflexivity|]. split; cb; auto; try discriminate.
    + mv S E.
    + sm E. lia.
    + intros A _. sm E. pose proof (zsum_le carrier _ _ _ carrier_pos E) as LC. cbn [carrier] in LC. lia.
    + intros b. sm E. rewrite R. lia.
  - assert (X : inv (setPc w Leave s)).
    { split; cb; auto; try congruence.
      + mv S E.
      + sm E. lia.
      + sm E. intros A B. apply L; auto. lia.
      + intros A B. sm E. specialize (K A B). lia.
      + intros b. sm E. rewrite R. lia. }
    destruct (fin s) as [f|] eqn:FE; [|congruence]. destruct f; [eexists; split; [reflexivity|exact X]|]. destruct h; eexists; (split; [reflexivity|]); auto;
      apply (next_inv s w Head); auto; discriminate.
  - assert (X : forall q, q = Catch \/ q = Dec -> inv (setPc w q (setEnded (a :: ended s) s))).
    { intros q QQ. split; cb; auto; try congruence.
      + eapply (sem_to _ _ _ _ q S E); try reflexivity; destruct QQ; subst; discriminate.
      + destruct QQ; subst; sm E; lia.
      + destruct QQ; subst; sm E; intros A B; apply L; auto; lia.
      + intros A B. specialize (K A B). destruct QQ; subst; sm E; lia.
      + intros b. destruct QQ; subst; sm E; rewrite R; lia. }
    destruct h; eexists; (split; [reflexivity|]); apply X; auto.
  - eexists. split; [reflexivity|]. split; cb; auto; try discriminate.
    + mv S E.
    + sm E. lia.
    + sm E. intros A B. apply L; auto. lia.
    + intros A B. sm E. specialize (K A B). lia.
    + intros b. sm E. rewrite R. lia.
  - eexists. split; [reflexivity|]. split; cb; auto; try discriminate.
    + mv S E.
    + sm E. lia.
    + sm E. intros A B. apply L; auto. lia.
    + intros A B. sm E. specialize (K A B). lia.
    + intros b. sm E. rewrite R. lia.
  - assert (X : inv (setPc w Wait s)).
    { split; cb; auto; try congruence.
      + mv S E.
      + sm E. lia.
      + sm E. intros A B. apply L; auto. lia.
      + intros A B. sm E. specialize (K A B). lia.
      + intros b. sm E. rewrite R. lia. }
    destruct (fin s) as [f|] eqn:FE; [|congruence]. destruct f; [eexists; split; [reflexivity|exact X]|]. destruct h; eexists; (split; [reflexivity|]); auto;
      apply (next_inv s w Inner); auto; discriminate.
  - eexists. split; [reflexivity|]. split; cb; auto; try discriminate.
    + mv S E.
    + sm E. lia.
    + sm E. intros A B. apply L; auto. lia.
    + intros A B. sm E. specialize (K A B). lia.
    + intros b. sm E. rewrite R. lia.
  - destruct (counter s) as [|n] eqn:C.
    + eexists. split; [reflexivity|]. split; cb; auto; try discriminate.
      * destruct S as [I N Z]. split; cb.
        -- intros v. rewrite nth_upd, E, in_app_iff, I. cbn [In]. destruct (Nat.eqb_spec v w) as [->|NE]; [tauto|]. intuition congruence.
        -- apply NoDup_app_snoc. exact N. intros X. apply I in X. congruence.
        -- auto.
      * sm E. lia.
      * sm E. intros A B. apply L; auto. lia.
      * intros A B. sm E. specialize (K A B). lia.
      * intros b. sm E. rewrite R. lia.
    + eexists. split; [reflexivity|]. split; cb; auto; try discriminate.
      * destruct S as [I N Z]. destruct (waiters s) as [|x y] eqn:W; [|specialize (Z ltac:(discriminate)); congruence].
        split; cb; rewrite ?W; auto; [|congruence]. intros v. rewrite nth_upd, E, I. destruct (Nat.eqb_spec v w) as [->|NE]; [rewrite E; split; discriminate|tauto].
      * sm E. lia.
      * sm E. intros A B. apply L; auto. lia.
      * intros A B. sm E. specialize (K A B). lia.
      * intros b. sm E. rewrite R. lia.
  - exists s. auto.
  - cb. assert (SS : sem (setPc w Gone (setThreads (pred (threadsIn s)) s))) by mv S E.
    destruct (Nat.eqb_spec (pred (threadsIn s)) 0) as [Z0|NZ].
    + eexists. split; [reflexivity|]. split; cb; auto.
      * apply (sem_ext _ _ SS); reflexivity.
      * sm E. lia.
      * lia.
      * intros b. sm E. rewrite R. lia.
    + eexists. split; [reflexivity|]. apply wake_inv; cb; auto.
      * sm E. lia.
      * intros G. specialize (O G). lia.
      * intros b. sm E. rewrite R. lia.
  - exists s. auto.
Qed.

Lemma step_inv e s : inv s -> exists s', step e s = Ok s' /\ inv s'.
Proof.
  intros V. pose proof V as [S F T O L Q K D R]. destruct e as [| | | |w h]; cbn [step].
  - unfold execute. cb. destruct (fin s) as [[]|] eqn:FE; [| |congruence].
    + eexists. split; [reflexivity|]. split; cb; auto; try congruence.
      * apply (sem_ext _ _ S); reflexivity.
      * apply order_refuse, D.
    + eexists. split; [reflexivity|]. apply wake_inv; cb; auto; try congruence.
      * apply (sem_ext _ _ S); reflexivity.
      * apply order_accept, D.
  - eexists. split; [reflexivity|]. unfold finish. apply wake_inv; cb; auto; try discriminate.
    + apply (sem_ext _ _ S); reflexivity.
    + apply order_clear, D.
  - eexists. split; [reflexivity|]. unfold reset. split; cb; auto; try discriminate. apply (sem_ext _ _ S); reflexivity.
  - eexists. split; [reflexivity|]. split; cb; auto.
    + destruct S as [I N Z]. split; cb; auto. intros v. rewrite I. split; intros X.
      * rewrite nth_error_app1; [exact X|]. apply nth_error_Some. congruence.
      * destruct (Nat.lt_ge_cases v (length (ws s))); [rewrite nth_error_app1 in X; auto|]. rewrite nth_error_app2 in X by lia.
        destruct (v - length (ws s))%nat as [|k]; [discriminate|]. destruct k; discriminate.
    + rewrite zsum_app. cbn. lia.
    + rewrite zsum_app. cbn. intros A B. apply L; auto. lia.
    + intros A B. rewrite zsum_app. cbn. specialize (K A B). lia.
    + intros a. rewrite zsum_app. cbn. rewrite R. lia.
  - apply wstep_inv, V.
Qed.
Lemma run_inv l : forall s, inv s -> exists s', run l s = Ok s' /\ inv s'.
Proof.
  induction l as [|e l IH]; intros s V; cbn [run]; [eauto|]. destruct (step_inv e s V) as (s1 & E & V1). rewrite E. cbn [obind]. apply IH, V1.
Qed.
Lemma run_reset l : exists s, run (Reset :: l) init = Ok s /\ inv s.
Proof. cbn [run step obind]. apply run_inv, reset_inv. Qed.
