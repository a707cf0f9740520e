(** Theorems about pairs of locks (base/sync/lockPair.h) *)
From Verif Require Import Common LockPair_Spec LockPair_Model LockPair_Proof.

Lemma reach n cs l s : wf n cs -> run l (init n cs) = Moved s -> Inv s.
Proof. intros W E. pose proof (run_ok l _ (init_ok n cs W)) as Q. rewrite E in Q. exact Q. Qed.
Definition two : list (nat * nat * list call) := [(0, 1, [Lock; TryLock]); (1, 0, [Lock]); (1, 2, [LockFor])].
Lemma two_wf : wf 3 two.
Proof. intros a b c [E|[E|[E|[]]]]; injection E as <- <- <-; lia. Qed.

(** C379: a call that says the locks were got has got both, any other end of a call leaves the thread without locks, whatever the
    other threads do and whichever operation throws *)
Theorem lp_result n cs l s t e s' x x' c r : wf n cs -> run l (init n cs) = Moved s -> step t e s = Moved s' ->
  nth_error (ths s) t = Some x -> nth_error (ths s') t = Some x' -> finished x' = finished x ++ [(c, r)] ->
  may_give c r /\ match r with Got => owns (owner s') t (lk1 x') /\ owns (owner s') t (lk2 x') | _ => forall k, ~ owns (owner s') t k end.
Proof.
  intros W R E N N' F. pose proof (reach _ _ _ _ W R) as IV. pose proof (step_ok t e s IV) as Q. rewrite E in Q. destruct Q as (IV' & x0 & x1 & N0 & T & _ & _ & K1 & K2 & O & _).
  assert (x0 = x) as -> by congruence. assert (x1 = x') as -> by (rewrite T, nth_error_upd_eq in N' by (apply nth_error_Some; congruence); congruence). split.
  - apply (g4 _ _ (i_good _ IV' t x' N')). rewrite F. apply in_or_app. cbn. auto.
  - rewrite K1, K2. destruct O as [O|(r' & O & H)].
    + rewrite O in F. exfalso. assert (L : length (finished x) = length (finished x ++ [(c, r)])) by congruence. rewrite app_length in L. cbn in L. lia.
    + rewrite O in F. apply app_inj_tail in F. destruct F as [_ F]. injection F as _ ->. exact H.
Qed.
Print Assumptions lp_result.
(** thread 0 gets the first lock, the second one throws, so the first is released again *)
Example lp_result_ex : exists s, run [(0, Go); (0, Go); (0, Raise); (0, Go)] (init 3 two) = Moved s /\ nth_error (owner s) 0 = Some None /\
  exists x, nth_error (ths s) 0 = Some x /\ finished x = [(Lock, Thrown)].
Proof. eexists. vm_compute. repeat split. eexists. split; reflexivity. Qed.

(** C380: a thread is the only owner of its locks from the end of the call that got them to unlock(); a thread out of all calls
    owns nothing; no thread unlocks a lock of another one *)
Theorem lp_excl n cs l : wf n cs -> run l (init n cs) <> Broken /\ forall s, run l (init n cs) = Moved s ->
  (forall t x, nth_error (ths s) t = Some x -> pc x = Inside -> owns (owner s) t (lk1 x) /\ owns (owner s) t (lk2 x)) /\
  (forall t x k, nth_error (ths s) t = Some x -> pc x = Idle -> ~ owns (owner s) t k) /\
  (forall t u x y k, nth_error (ths s) t = Some x -> nth_error (ths s) u = Some y -> pc x = Inside -> pc y = Inside ->
     k = lk1 x \/ k = lk2 x -> k = lk1 y \/ k = lk2 y -> t = u).
Proof.
  intros W. split; [pose proof (run_ok l _ (init_ok n cs W)) as Q; destruct (run l (init n cs)); [discriminate|discriminate|destruct Q]|].
  intros s R. pose proof (reach _ _ _ _ W R) as IV.
  assert (I1 : forall t x, nth_error (ths s) t = Some x -> pc x = Inside -> owns (owner s) t (lk1 x) /\ owns (owner s) t (lk2 x)).
  { intros t x N P. rewrite !(own_held _ _ _ IV N). unfold held. rewrite P. cbn. auto. }
  split; [exact I1|]. split.
  - intros t x k N P. rewrite (own_held _ _ _ IV N). unfold held. rewrite P. auto.
  - intros t u x y k N M P Q A B. destruct (I1 t x N P) as [X1 X2]. destruct (I1 u y M Q) as [Y1 Y2]. unfold owns in *.
    destruct A as [->| ->], B as [B|B]; rewrite B in *; congruence.
Qed.
Print Assumptions lp_excl.
Example lp_excl_ex : exists s, run [(2, Go); (0, Go); (0, Go); (0, Go)] (init 3 two) = Moved s /\ (exists x, nth_error (ths s) 0 = Some x /\ pc x = Inside) /\ owner s = [Some 0; Some 0; None] /\ step 2 Go s = Blocked.
Proof. eexists. vm_compute. repeat split. eexists. split; reflexivity. Qed.

(** C381: there is no deadlock: from every state the threads can go on so that all calls end, each with its result *)
Theorem lp_live n cs l s : wf n cs -> run l (init n cs) = Moved s ->
  exists l2 s2, (forall t e, In (t, e) l2 -> e = Go) /\ run l2 s = Moved s2 /\
    forall t a b c, nth_error cs t = Some (a, b, c) -> exists x, nth_error (ths s2) t = Some x /\ pc x = Idle /\ todo x = [] /\ map fst (finished x) = c.
Proof.
  intros W R. pose proof (reach _ _ _ _ W R) as IV. destruct (complete s IV) as (l2 & s2 & O & R2 & IV2 & D). exists l2, s2. split; [exact O|]. split; [exact R2|]. intros t a b c N.
  pose proof (same_trans _ _ _ (run_same _ _ _ (init_ok n cs W) R) (run_same _ _ _ IV R2)) as (_ & S2 & S3). cbn [init ths] in S2. rewrite map_length in S2.
  destruct (nth_error (ths s2) t) as [x|] eqn:E; [|apply nth_error_None in E; assert (t < length cs) by (apply nth_error_Some; congruence); lia]. exists x. split; [reflexivity|]. destruct (D t x E) as [P T]. split; [exact P|]. split; [exact T|].
  destruct (S3 t x E) as (y & Y & C & _). cbn [init ths] in Y. rewrite nth_error_map, N in Y. injection Y as <-. unfold calls, pend in C. rewrite P, T in C. cbn in C. rewrite app_nil_r in C. exact C.
Qed.
Print Assumptions lp_live.
(** two threads hold one lock each and want the other one *)
Example lp_live_ex : exists s, run [(0, Go); (1, Go); (0, Go); (1, Go)] (init 3 two) = Moved s /\ owner s = [Some 0; Some 1; None].
Proof. eexists. vm_compute. repeat split. Qed.

(** C382: exceptions come from the locks only *)
Theorem lp_nothrow n cs l s t x c : wf n cs -> run l (init n cs) = Moved s -> (forall u, ~ In (u, Raise) l) -> nth_error (ths s) t = Some x -> ~ In (c, Thrown) (finished x).
Proof.
  intros W R NR N. apply (run_thrown l _ s (init_ok n cs W) R) with (t := t); [|exact NR|exact N]. intros u y U. cbn [init ths] in U. rewrite nth_error_map in U. destruct (nth_error cs u); [|discriminate]. injection U as <-. cbn. repeat split; try discriminate. auto.
Qed.
Print Assumptions lp_nothrow.
Example lp_nothrow_ex : exists s x, run [(0, Go); (0, Go); (0, Go); (0, Go); (0, Go); (0, Go)] (init 3 two) = Moved s /\ nth_error (ths s) 0 = Some x /\ finished x = [(Lock, Got)] /\ pc x = Idle.
Proof. eexists _, _. vm_compute. repeat split. Qed.

(** C383: tryLock() does not wait: a thread that called it can go on in every state *)
Theorem lp_try n cs l s t x : wf n cs -> run l (init n cs) = Moved s -> nth_error (ths s) t = Some x -> pc x <> Idle -> cur x = TryLock -> exists s', step t Go s = Moved s'.
Proof.
  intros W R N P C. pose proof (reach _ _ _ _ W R) as IV. pose proof (i_good _ IV t x N) as G. pose proof (g5 _ _ G) as G5.
  assert (REL : forall k y, In k (held x) -> exists s', release s t k y = Moved s').
  { intros k y I. apply (own_held _ _ _ IV N) in I. unfold owns in I. unfold release. rewrite I, Nat.eqb_refl. eauto. }
  assert (TRY : forall k y z, k < length (owner s) -> exists s', try_ s t k y z = Moved s').
  { intros k y z K. unfold try_, put. destruct (nth_error (owner s) k) as [[u|]|] eqn:E; eauto. apply nth_error_None in E. lia. }
  pose proof (g1 _ _ G) as K1. pose proof (g2 _ _ G) as K2. unfold step. rewrite N. unfold held in REL. destruct (pc x) eqn:Q; try congruence; try (apply REL; cbn; auto); try (apply TRY; auto). unfold put. eauto.
Qed.
Print Assumptions lp_try.
Example lp_try_ex : exists s x, run [(0, Go); (0, Go); (0, Go); (0, Go); (0, Go); (0, Go); (1, Go); (1, Go); (0, Go); (0, Go)] (init 3 two) = Moved s /\ nth_error (ths s) 0 = Some x /\ pc x = T2 /\ cur x = TryLock.
Proof. eexists _, _. vm_compute. repeat split. Qed.

(** C384 refuted: two threads with the same locks in opposite order may go round for ever, though both run all the time and no
    operation fails *)
Definition round_ := [(0, Go); (1, Go); (0, Go); (1, Go); (0, Go); (1, Go); (0, Go); (1, Go); (0, Go); (1, Go); (0, Go); (1, Go)].
Theorem lp_livelock_refuted : exists s, run [(0, Go); (1, Go)] (init 2 [(0, 1, [Lock]); (1, 0, [Lock])]) = Moved s /\
  (forall x, In x (ths s) -> finished x = []) /\ forall k, run (concat (repeat round_ k)) s = Moved s.
Proof.
  eexists. split; [vm_compute; reflexivity|]. split; [intros x [<-|[<-|[]]]; reflexivity|]. induction k as [|k IH]; [reflexivity|]. cbn [repeat concat]. rewrite run_app. exact IH.
Qed.
Print Assumptions lp_livelock_refuted.

(** C385 refuted: a pair of one lock taken twice is never got, also by a single thread *)
Theorem lp_same_refuted : forall k, exists s x, run (repeat (0, Go) k) (init 1 [(0, 0, [Lock])]) = Moved s /\ nth_error (ths s) 0 = Some x /\ finished x = [].
Proof.
  intros k. destruct k as [|k]; [eexists _, _; repeat split|]. change (repeat (0, Go) (S k)) with ([(0, Go)] ++ repeat (0, Go) k). rewrite run_app. cbn [run].
  set (T := fun p => mkT 0 0 [] Lock p []). assert (H : forall k ow p, (ow = [None] /\ (p = L1 \/ p = L4)) \/ (ow = [Some 0] /\ (p = L2 \/ p = L3 \/ p = L5 \/ p = L6)) ->
    exists s x, run (repeat (0, Go) k) (mkS ow [T p]) = Moved s /\ nth_error (ths s) 0 = Some x /\ finished x = []).
  { induction k0 as [|j IH]; intros ow p H; [eexists _, _; repeat split|]. cbn [repeat run]. destruct H as [[-> [->| ->]]|[-> [->|[->|[->| ->]]]]]; cbn.
    - apply (IH [Some 0] L2). auto.
    - apply (IH [Some 0] L5); tauto.
    - apply (IH [Some 0] L3); tauto.
    - apply (IH [None] L4); tauto.
    - apply (IH [Some 0] L6); tauto.
    - apply (IH [None] L1); tauto. }
  apply (H k [None] L1); tauto.
Qed.
Print Assumptions lp_same_refuted.
