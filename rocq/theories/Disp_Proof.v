(** Lemmas about the dispatcher and the scheduler. *)
From Coq Require Import ZArith Permutation.
From Verif Require Import Common Disp_Spec Heap_Model Heap_Proof Disp_Model.

Lemma dispatched_app a b : dispatched (a ++ b) = dispatched a ++ dispatched b.
Proof. apply flat_map_app. Qed.
Lemma settled_app a b : settled (a ++ b) = settled a ++ settled b.
Proof. apply flat_map_app. Qed.
Lemma drun_app a : forall s b, drun s (a ++ b) = let! s := drun s a in drun s b.
Proof.
  induction a as [|o a IH]; intros s b; cbn [app drun obind]; [reflexivity|].
  destruct (dstep s o); cbn [obind]; auto.
Qed.

(** the queue after [d] was dispatched and [l] was settled *)
Inductive shape : list nat -> list (option nat) -> list nat -> Prop :=
| sh_none : shape [] [] []
| sh_wait a d : shape (a :: d) (Some a :: map Some d) []
| sh_done a d : shape (a :: d) (None :: map Some d) [a].

Lemma rejectQueue_fuel d q l : shape d q l -> exists r q', rejectQueue (length q) q = Ok (r, q') /\ shape d q' (l ++ r).
Proof.
  assert (N : forall f q, rejectQueue f (None :: q) = Ok ([], None :: q)) by (intros [|f] q0; reflexivity).
  intros [|a d0|a d0]; cbn [length].
  - do 2 eexists. split; [reflexivity|]. constructor.
  - cbn [rejectQueue getNextAction]. rewrite N. cbn [obind]. do 2 eexists. split; [reflexivity|]. constructor.
  - rewrite N. do 2 eexists. split; [reflexivity|]. constructor.
Qed.

Lemma settled_rej r : settled (map Rejected r ++ [Left]) = r.
Proof. induction r as [|a r IH]; [reflexivity|]. cbn [map app]. change (a :: settled (map Rejected r ++ [Left]) = a :: r). rewrite IH. reflexivity. Qed.

Lemma dstep_shape s o d : shape d (dqueue s) (settled (dlog s)) ->
  exists s', dstep s o = Ok s' /\ shape (d ++ dispatched [o]) (dqueue s') (settled (dlog s')).
Proof.
  intros H. destruct o as [a| | |]; cbn [dstep dispatched flat_map app]; rewrite ?app_nil_r.
  - eexists. split; [reflexivity|]. unfold dispatch, onNewMessage.
    destruct s as [q ns r l]. cbn [dqueue running dlog needstop] in *. inversion H as [E1 E2 E3|b d0 E1 E2 E3|b d0 E1 E2 E3]; subst; cbn [app].
    + destruct r; cbn [dqueue dlog]; rewrite ?settled_app, <- E3; cbn; apply (sh_wait a []).
    + cbn [dqueue dlog]. rewrite <- E3. change [Some a] with (map Some [a]); rewrite <- map_app. apply sh_wait.
    + cbn [dqueue dlog]. rewrite <- E3. change [Some a] with (map Some [a]); rewrite <- map_app. apply sh_done.
  - eexists. split; [reflexivity|]. unfold enter. destruct (running s); exact H.
  - unfold turn. destruct (running s); cbn [negb]; [|eauto]. destruct (needstop s).
    + unfold finishRun. destruct (rejectQueue_fuel _ _ _ H) as (r & q' & E & S1). rewrite E. cbn [obind]. eexists. split; [reflexivity|].
      cbn [dqueue dlog]. rewrite settled_app, settled_rej. exact S1.
    + inversion H as [E1 E2 E3|b d0 E1 E2 E3|b d0 E1 E2 E3]; subst; rewrite <- ?E2; cbn [getNextAction]; (eexists; split; [reflexivity|]);
        cbn [dqueue dlog]; rewrite settled_app, <- E3; cbn; constructor.
  - eexists. split; [reflexivity|]. unfold quit, onNewMessage. cbn [running]. destruct (running s); cbn [dqueue dlog]; [|exact H].
    rewrite settled_app. cbn. rewrite app_nil_r. exact H.
Qed.

Lemma drun_shape ops : forall s d, shape d (dqueue s) (settled (dlog s)) ->
  exists s', drun s ops = Ok s' /\ shape (d ++ dispatched ops) (dqueue s') (settled (dlog s')).
Proof.
  induction ops as [|o ops IH]; intros s d H.
  - exists s. cbn. rewrite app_nil_r. auto.
  - destruct (dstep_shape s o d H) as (s1 & E1 & H1). destruct (IH s1 _ H1) as (s2 & E2 & H2).
    exists s2. cbn [drun]. rewrite E1. cbn [obind]. split; [exact E2|].
    rewrite <- app_assoc in H2. rewrite <- dispatched_app in H2. exact H2.
Qed.
Lemma drun_new ops : exists s, drun disp_new ops = Ok s /\ shape (dispatched ops) (dqueue s) (settled (dlog s)).
Proof. apply (drun_shape ops disp_new []). constructor. Qed.

(** ** Scheduler *)
Lemma cmp_asym a b : cmpQueue a b = true -> cmpQueue b a = false.
Proof. unfold cmpQueue. intros H. apply Z.ltb_lt in H. apply Z.ltb_ge. lia. Qed.
Lemma cmp_le a b : le cmpQueue a b <-> (fst b <= fst a)%Z.
Proof. unfold le, cmpQueue. apply Z.ltb_ge. Qed.
Lemma cmp_trans a b c : le cmpQueue a b -> le cmpQueue b c -> le cmpQueue a c.
Proof. rewrite !cmp_le. lia. Qed.

Definition d0 : item := (0%Z, 0).
Definition sinv (q : list item) (h : heap item) : Prop :=
  isHeap cmpQueue d0 h /\ hsize h = length (arr h) /\ Permutation q (arr h).

Lemma sinv_earliest q h : sinv q h -> 0 < hsize h -> get (arr h) 0 = Ok (nth 0 (arr h) d0) /\ earliest (nth 0 (arr h) d0) q.
Proof.
  intros ((Hl & Ho) & L & P) Hp. split; [apply get_ok; lia|]. split.
  - eapply Permutation_in; [symmetry; exact P|]. apply nth_In. lia.
  - intros j Hj. apply (Permutation_in _ P) in Hj. apply (In_nth _ _ d0) in Hj as (k & Hk & <-).
    apply (cmp_le (nth k (arr h) d0) (nth 0 (arr h) d0)).
    apply (top_max cmpQueue d0 cmp_asym cmp_trans (hsize h)); [exact Ho|lia].
Qed.

Lemma schedule_ok q h i : sinv q h -> exists h', schedule h i = Ok h' /\ sinv (q ++ [i]) h'.
Proof.
  intros ((Hl & Ho) & L & P). unfold schedule.
  destruct (push_ok cmpQueue d0 cmp_asym cmp_trans (mkHeap (arr h ++ [i]) (hsize h))) as (h' & E & H' & S1 & R).
  - split; cbn [hsize arr]; [rewrite app_length; lia|]. intros k K1 K2. rewrite !app_nth1; try lia; [apply Ho; auto|].
    pose proof (parent_lt cmpQueue d0 k K1). lia.
  - cbn [hsize arr]. rewrite app_length. cbn [length]. lia.
  - rewrite E. cbn [obind]. eexists. split; [reflexivity|]. cbn [hsize arr] in *.
    pose proof (reorder_length d0 _ _ _ R) as L2. rewrite app_length in L2. cbn [length] in L2. split; [exact H'|]. split; [lia|].
    etransitivity; [apply Permutation_app_tail; exact P|]. exact (ro_perm _ _ _ _ R).
Qed.

Lemma nth_trunc (l : list item) k : k < length l - 1 -> nth k (trunc l 1) d0 = nth k l d0.
Proof. intros H. unfold trunc. apply nth_firstn_lt. exact H. Qed.

Lemma onIdle_ok q h now : sinv q h ->
  (hsize h = 0 /\ q = [] /\ onIdle h now = Ok (h, Sleep None)) \/
  (exists i, earliest i q /\ (now <= fst i)%Z /\ onIdle h now = Ok (h, Sleep (Some (fst i)))) \/
  (exists i q' h', earliest i q /\ (fst i < now)%Z /\ Permutation q (i :: q') /\ sinv q' h' /\
     onIdle h now = Ok (h', Fire (snd i) (let! itm := get (arr h') 0 in Ok (snd itm)))).
Proof.
  intros I. unfold onIdle. destruct (Nat.eqb_spec (hsize h) 0) as [Z0|N].
  - left. split; [exact Z0|]. split; [|reflexivity]. destruct I as (_ & L & P). rewrite Z0 in L.
    destruct (arr h); [|discriminate]. apply Permutation_nil. symmetry. exact P.
  - right. destruct (sinv_earliest q h I ltac:(lia)) as (G & EA). rewrite G. cbn [obind].
    set (i := nth 0 (arr h) d0) in *. destruct (Z.ltb_spec (fst i) now) as [Hlt|Hge].
    + right. destruct I as (Hh & L & P). destruct (pop_ok cmpQueue d0 cmp_asym cmp_trans h Hh ltac:(lia)) as (h' & E & H' & S1 & R & T1).
      rewrite E. cbn [obind]. pose proof (reorder_length d0 _ _ _ R) as L2. destruct H' as (Hl' & Ho').
      exists i, (trunc (arr h') 1), (mkHeap (trunc (arr h') 1) (hsize h')). split; [exact EA|]. split; [exact Hlt|].
      assert (LT : length (trunc (arr h') 1) = hsize h') by (unfold trunc; rewrite firstn_length; lia).
      split; [|split; [|reflexivity]].
      * etransitivity; [exact P|]. etransitivity; [exact (ro_perm _ _ _ _ R)|]. unfold trunc.
        pose proof (firstn_S_perm d0 (length (arr h') - 1) (arr h') ltac:(lia)) as F.
        replace (S (length (arr h') - 1)) with (length (arr h')) in F by lia. rewrite firstn_all in F.
        replace (nth (length (arr h') - 1) (arr h') d0) with i in F; [exact F|].
        symmetry. replace (length (arr h') - 1) with (hsize h') by lia. exact T1.
      * split; [|split; [cbn [hsize arr]; lia|reflexivity]]. split; cbn [hsize arr]; [lia|].
        intros k K1 K2. pose proof (parent_lt cmpQueue d0 k K1). rewrite !nth_trunc by lia. apply Ho'; auto.
    + left. exists i. auto.
Qed.

Definition view (r : option idle) : sobs :=
  match r with None => ONone | Some (Sleep t) => OSleep t | Some (Fire p _) => OTaken p end.

Lemma sstep_ok q h o : sinv q h ->
  exists h' r q', sstep h o = Ok (h', r) /\ sched_spec q o q' (view r) /\ sinv q' h'.
Proof.
  intros I. destruct o as [i|now]; cbn [sstep].
  - destruct (schedule_ok q h i I) as (h' & E & I'). rewrite E. cbn [obind]. exists h', None, (q ++ [i]).
    split; [reflexivity|]. split; [constructor|exact I'].
  - destruct (onIdle_ok q h now I) as [(Z0 & -> & E)|[(i & EA & Hn & E)|(i & q' & h' & EA & Hn & P & I' & E)]]; rewrite E; cbn [obind].
    + exists h, (Some (Sleep None)), []. split; [reflexivity|]. split; [constructor|exact I].
    + exists h, (Some (Sleep (Some (fst i)))), q. split; [reflexivity|]. split; [constructor; assumption|exact I].
    + do 2 eexists. exists q'. split; [reflexivity|]. split; [cbn [view]; econstructor; eassumption|exact I'].
Qed.

Lemma srun_gen ops : forall done h l0 q, sched_runs done q l0 -> sinv q h ->
  exists h' l q', srun h ops = Ok (h', l) /\ sched_runs (done ++ ops) q' (l0 ++ map view l) /\ sinv q' h'.
Proof.
  induction ops as [|o ops IH]; intros done h l0 q R I.
  - exists h, [], q. cbn. rewrite !app_nil_r. auto.
  - destruct (sstep_ok q h o I) as (h1 & r & q1 & E & Sp & I1). cbn [srun]. rewrite E. cbn [obind].
    destruct (IH (done ++ [o]) h1 (l0 ++ [view r]) q1) as (h2 & l & q2 & E2 & R2 & I2); [|exact I1|].
    { eapply sr_step; eauto. }
    rewrite E2. cbn [obind]. exists h2, (r :: l), q2. split; [reflexivity|]. rewrite <- !app_assoc in R2. cbn [app] in R2.
    cbn [map]. auto.
Qed.
Lemma srun_new ops : exists h l q, srun sched_new ops = Ok (h, l) /\ sched_runs ops q (map view l) /\ sinv q h.
Proof.
  apply (srun_gen ops [] sched_new [] []); [constructor|]. split; [|split; [reflexivity|constructor]].
  split; cbn; [lia|]. intros i; lia.
Qed.
