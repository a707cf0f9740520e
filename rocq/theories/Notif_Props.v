(** Theorems about notifiers and sleeping threads (mt/notifier.h, mt/notifier.cpp, mt/linux/threadSleeper.cpp, mt/linux/thread.cpp) *)
From Verif Require Import Common Notif_Spec Notif_Model Notif_Proof.

(** C421: the result of wait, for every schedule: true only if the notifier was told, false only if it was not told before the end,
    and then only for a timeout that came during the call or, if the call asks for it, for the finish flag *)
Theorem ntf_result l s a b h : run l init = Moved s -> log s = a ++ Ret (RWait b) :: h ->
  (b = true -> maybe_told h) /\ (told h -> b = true) /\
  (b = false -> exists m x d, during (CWait m x) d h /\ ((x = true /\ asked_finish h) \/ (m = true /\ In Expired d))).
Proof. intros R L. exact (o_wait _ (i_log _ (reach _ _ R)) _ _ _ L). Qed.
Print Assumptions ntf_result.
(** the owner sleeps, is woken up by another thread without the notifier, sleeps again, then the timeout comes; the notification
    of thread 1 is on its way *)
Definition poked : list evt := [Own (OCall (CWait true false)); Own Go; Wk 0 (KCall (APoke 3)); Wk 0 KGo; Wk 0 KGo; Wk 0 KGo; Own Go; Own Go; Own Go; Wk 1 (KCall (ANotify 5)); Own Expire; Own Go; Own Go].
Example ntf_result_ex : exists s h, run poked init = Moved s /\ log s = Ret (RWait false) :: h /\ maybe_told h /\ In Expired h.
Proof.
  eexists _, _. split; [vm_compute; reflexivity|]. split; [vm_compute; reflexivity|]. split; [|cbn; auto].
  exists [Expired], [End 0; Start 0 (APoke 3); Call (CWait true false)], 1, 5%Z. split; [reflexivity|]. intros [|x [|y a1]] a2 E; discriminate.
Qed.

(** C422: no notification is lost: once a call of wakeUp of the notifier ended, the waiting thread comes to the result true by its
    own steps; in the same way, a wait that looks at the finish flag ends once finish() ended *)
Theorem ntf_not_lost l s : run l init = Moved s -> alive s = true -> inWait (own s) ->
  (told (log s) -> exists n s', run (repeat (Own Go) n) s = Moved s' /\ log s' = Ret (RWait true) :: log s) /\
  (forall m d, during (CWait m true) d (log s) -> told_finish (log s) -> exists n s' b, run (repeat (Own Go) n) s = Moved s' /\ log s' = Ret (RWait b) :: log s).
Proof.
  intros R A W. pose proof (reach _ _ R) as IV. split.
  - intros T. destruct (live s IV A W T) as (n & s' & c & E & L & ->). exists n, s'. rewrite <- alone_run. auto.
  - intros m d D T. destruct (livef s IV A W (ex_intro _ m (ex_intro _ d D)) T) as (n & s' & c & E & L & _). exists n, s', c. rewrite <- alone_run. auto.
Qed.
Print Assumptions ntf_not_lost.
(** the semaphore is full of an old wake-up, so thread 1 does not post it, while the owner takes the token *)
Definition late : list evt := [Wk 0 (KCall (APoke 3)); Wk 0 KGo; Wk 0 KGo; Wk 0 KGo; Own (OCall (CWait false false)); Own Go; Wk 1 (KCall (ANotify 5)); Wk 1 KGo; Wk 1 KGo; Wk 1 KGo; Wk 1 KGo; Wk 1 KGo; Own Go; Own Go; Wk 1 KGo].
Example ntf_not_lost_ex : exists s, run late init = Moved s /\ alive s = true /\ inWait (own s) /\ told (log s) /\ sem s = 0.
Proof.
  eexists. split; [vm_compute; reflexivity|]. cbn. repeat split; auto. exists [], [], [Call (CWait false false); End 0; Start 0 (APoke 3)], 1, 5%Z. cbn. auto.
Qed.
Example ntf_not_lost_ex2 : exists s, run [Own (OCall (CWait false true)); Own Go; Own Go; Wk 1 (KCall AFinish); Wk 1 KGo; Wk 1 KGo; Wk 1 KGo; Wk 1 KGo] init = Moved s /\ alive s = true /\ inWait (own s) /\ told_finish (log s) /\
  exists d, during (CWait false true) d (log s).
Proof.
  eexists. split; [vm_compute; reflexivity|]. cbn. repeat split; auto; [exists [], [], [Call (CWait false true)], 1; cbn; auto|]. exists [End 1; Start 1 AFinish], []. split; [reflexivity|]. cbn. intros c [E|[E|[]]]; discriminate.
Qed.

(** C423: the notifier may be destroyed as soon as its signal is seen: if it gets one notification for each reset, wakeUp never
    uses it after that, although the call is still running; nor does any other started step *)
Theorem ntf_lifetime l s : run l init = Moved s -> obeys (log s) ->
  (forall t, step (Wk t KGo) s <> Broken) /\ (forall e, (forall c, e <> OCall c) -> step (Own e) s <> Broken).
Proof.
  intros R OB. pose proof (reach_dis _ _ R OB) as [D1 D2 D3 D4]. destruct (alive s) eqn:A.
  - split; [intros t|intros e N]; cbn [step].
    + unfold kstep, use. rewrite A. destruct (pcs s t); discriminate.
    + unfold ostep, use, awake, give. rewrite A. destruct (own s) as [|x tm|x tm| |x|x], e as [c| | |]; try discriminate; try (destruct (N c eq_refl)); destruct (sem s), x as [[|] f|[|]|[|]]; cbn; discriminate.
  - assert (DD : ~ ~ destroyed (log s)) by (intros Q; apply D1 in Q; discriminate).
    assert (SG : sig s = true) by (destruct (sig s); [reflexivity|exfalso; apply DD; intros Q; destruct (D4 Q); discriminate]).
    split; [intros t|intros e N]; cbn [step].
    + assert (NN : ~ inN (pcs s t)) by (destruct D2 as [D2|[D2|D2]]; [destruct D2 as (_ & D2 & _); congruence|apply D2|destruct D2 as (_ & D2 & _); congruence]).
      unfold kstep, use. destruct (pcs s t); try discriminate; destruct (NN I).
    + assert (NU : ~ usesN (own s)) by (intros U; apply DD; intros Q; destruct (D4 Q); tauto).
      unfold ostep, use, awake, give. destruct (own s) as [|x tm|x tm| |x|x], e as [c| | |]; try discriminate; try (destruct (N c eq_refl)); try (exfalso; exact (NU I)); destruct (sem s), x as [[|] f|[|]|[|]]; cbn; discriminate.
Qed.
Print Assumptions ntf_lifetime.
(** the owner sees the signal and destroys the notifier while thread 1 is in the middle of wakeUp *)
Example ntf_lifetime_ex : exists s, run [Wk 1 (KCall (ANotify 5)); Wk 1 KGo; Wk 1 KGo; Wk 1 KGo; Own (OCall CTest); Own (OCall CDestroy)] init = Moved s /\ obeys (log s) /\ alive s = false /\ pcs s 1 = S1 5.
Proof. eexists. split; [vm_compute; reflexivity|]. vm_compute. intuition discriminate. Qed.

(** C424: under the same rules, who sees the signal finds the reason given with the notification *)
Theorem ntf_reason l s : run l init = Moved s -> obeys (log s) -> seen (log s) -> last_reason (log s) = Some (rsn s).
Proof.
  intros R OB SE. pose proof (reach_dis _ _ R OB) as [D1 D2 D3 D4]. specialize (D3 SE). destruct D2 as [(_ & D2 & _)|[(_ & _ & _ & D2)|(_ & D2 & _)]]; [congruence|exact D2|congruence].
Qed.
Print Assumptions ntf_reason.
Example ntf_reason_ex : exists s, run [Wk 1 (KCall (ANotify 5)); Wk 1 KGo; Wk 1 KGo; Wk 1 KGo; Own (OCall CTest)] init = Moved s /\ obeys (log s) /\ seen (log s) /\ rsn s = 5%Z.
Proof. eexists. split; [vm_compute; reflexivity|]. vm_compute. intuition discriminate. Qed.

(** C425: a wake-up between two sleeps is remembered: the next sleep does not wait, it cannot time out, and says it was
    interrupted *)
Theorem sleep_woken l s m : run l init = Moved s -> own s = Sl (XSleep m) -> woken (log s) ->
  step (Own Expire) s = Blocked /\ exists n s' o, run (repeat (Own Go) n) s = Moved s' /\ log s' = Ret (RSleep false o) :: log s.
Proof.
  intros R O W. pose proof (reach _ _ R) as IV. assert (S : 0 < sem s) by (apply (i_woken _ IV); [rewrite O; exact I|apply woken_cls, W]). destruct (sem s) as [|k] eqn:K; [lia|]. split.
  - cbn [step]. unfold ostep. rewrite O, K. destruct (timed (XSleep m)); reflexivity.
  - assert (DR : forall k s, own s = Dr (XSleep m) -> sem s = k -> exists n s' o, run (repeat (Own Go) n) s = Moved s' /\ log s' = Ret (RSleep false o) :: log s).
    { clear. induction k as [|k IH]; intros s O K.
      - exists 1. eexists _, _. cbn. unfold ostep, awake, give. rewrite O, K. split; reflexivity.
      - destruct (IH (setSem s k) O eq_refl) as (n & s' & o & E & L). exists (S n), s', o. cbn. unfold ostep. rewrite O, K. auto. }
    destruct (DR k (goto (setSem s k) (Dr (XSleep m))) eq_refl eq_refl) as (n & s' & o & E & L). exists (Datatypes.S n), s', o. cbn. unfold ostep. rewrite O, K. auto.
Qed.
Print Assumptions sleep_woken.
Example sleep_woken_ex : exists s, run [Own (OCall (CSleep true)); Own Expire; Wk 0 (KCall (APoke 3)); Wk 0 KGo; Wk 0 KGo; Wk 0 KGo; Own (OCall (CSleep true))] init = Moved s /\ own s = Sl (XSleep true) /\ woken (log s).
Proof.
  eexists. split; [vm_compute; reflexivity|]. split; [reflexivity|]. eexists [Call (CSleep true)], [], _, 0, (APoke 3). split; [reflexivity|]. split; [auto|]. cbn. intros e [<-|[]]. auto.
Qed.

(** C426: sleep says that its timeout came only if it did; deepSleep ends with its timeout only, however often the thread is woken
    up *)
Theorem sleep_result l s a h : run l init = Moved s ->
  (forall o, log s = a ++ Ret (RSleep true o) :: h -> exists d, during (CSleep true) d h /\ In Expired d) /\
  (log s = a ++ Ret RDeep :: h -> exists d, during (CDeep true) d h /\ In Expired d).
Proof.
  intros R. pose proof (i_log _ (reach _ _ R)) as L. split.
  - intros o E. destruct (o_sleep _ L _ _ _ _ E) as (m & d & D & H). destruct (H eq_refl) as [-> X]. eauto.
  - intros E. exact (o_deep _ L _ _ E).
Qed.
Print Assumptions sleep_result.
Definition deep : list evt := [Own (OCall (CDeep true)); Wk 0 (KCall (APoke 3)); Wk 0 KGo; Wk 0 KGo; Wk 0 KGo; Own Go; Own Go; Own Expire].
Example sleep_result_ex : exists s h, run deep init = Moved s /\ log s = [] ++ Ret RDeep :: h.
Proof. eexists _, _. split; vm_compute; reflexivity. Qed.

Definition last (l : list evt) : st := match run l init with Moved s => s | _ => init end.
Definition int1 : list evt := [Wk 0 (KCall (APoke 7)); Wk 0 KGo; Wk 0 KGo; Wk 0 KGo; Own (OCall (CSleep true)); Own Go; Own Go].
Definition int2 : list evt := int1 ++ [Own (OCall (CSleep true)); Own Expire].
(** C427: "reason: reference to variable which receives reason of the interruption": an interrupted sleep does not store it; a
    sleep that timed out stores the reason of an old wake-up *)
Theorem sleep_reason_refuted :
  ~ (forall l s a o h, run l init = Moved s -> log s = a ++ Ret (RSleep false o) :: h -> exists r, o = Some r) /\
  ~ (forall l s a o h, run l init = Moved s -> log s = a ++ Ret (RSleep true o) :: h -> o = None).
Proof.
  split; intros H.
  - destruct (H int1 (last int1) [] None (tl (log (last int1)))) as [r E]; [vm_compute; reflexivity|vm_compute; reflexivity|discriminate].
  - assert (E : Some 7%Z = None); [|discriminate]. apply (H int2 (last int2) [] (Some 7%Z) (tl (log (last int2)))); vm_compute; reflexivity.
Qed.
Print Assumptions sleep_reason_refuted.

(** C428: "deepSleep doesn't reset interruption flag": a wake-up that came during deepSleep is forgotten, the next sleep waits *)
Theorem deep_flag_refuted :
  ~ (forall l s d h m, run l init = Moved s -> log s = Ret RDeep :: h -> during (CDeep true) d h -> woken d -> run [Own (OCall (CSleep m)); Own Go] s <> Blocked).
Proof.
  intros H. apply (H deep (last deep) [Expired; End 0; Start 0 (APoke 3)] (tl (log (last deep))) false).
  - vm_compute. reflexivity.
  - vm_compute. reflexivity.
  - exists []. split; [reflexivity|]. cbn. intros c [E|[E|[E|[]]]]; discriminate.
  - exists [Expired], [], [], 0, (APoke 3). split; [reflexivity|]. split; [auto|]. cbn. intros e [<-|[]]. auto.
  - vm_compute. reflexivity.
Qed.
Print Assumptions deep_flag_refuted.

(** C429: isFinishing() of a thread gives the flag of the calling thread *)
Theorem is_finishing_refuted : ~ (forall flags cur t, isFinishing flags cur t = flags t).
Proof. intros H. specialize (H (fun t => t =? 1) 0 1). discriminate. Qed.
Print Assumptions is_finishing_refuted.
