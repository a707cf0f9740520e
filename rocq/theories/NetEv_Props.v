(** Theorems about the listener of network events, C474-C482 *)
From Verif Require Import Common NetEv_Spec NetEv_Model NetEv_Proof.
From Verif Require EpSel_Model.
Open Scope N_scope.

(** C474: an event notifies exactly the observers whose request it meets, with the part they asked for, and those whose
    timeout has passed, each once; no history fails *)
Theorem netev_notify : forall l, exists h s, run l [] init = Ok (h, s) /\
  forall fd flags now, (exists o q, wants h fd o = Some q) -> exists c s', event s fd flags now true = (Ok c, s') /\ NoDup (map fst c) /\ forall o r, In (o, r) c <-> due h fd flags now o r.
Proof.
  intros l. destruct (run_ok l init [] init_ok) as ((h & s) & E & HV & HA). cbn [fst snd] in *. exists h, s. split; [exact E|]. intros fd fl now (o & (m & tm) & H).
  destruct (HA fd) as ((D & M) & A). assert (N : pdat (poll s fd) <> O). { intros Z. apply A in H. rewrite (ls_none _ _ Z) in H. destruct H. }
  destruct (event_ok s fd fl now HV N) as (s' & -> & _). do 2 eexists. split; [reflexivity|]. split; [apply collect_nd, D|]. intros o' r. rewrite collect_calls. symmetry. apply due1_due, A.
Qed.
Print Assumptions netev_notify.
Example netev_notify_ex :
  let l := [OReq 3 1 1 None; OReq 3 2 3 (Some 50%Z); OReq 3 5 2 (Some 10%Z); OReq 4 1 1 None; OReq 3 6 4 None] in
  match run l [] init with Ok (h, s) => wants h 3 2 = Some (3, Some 50%Z) /\ fst (event s 3 1 20%Z true) = Ok [(1%nat, 1); (2%nat, 1); (5%nat, 0)] | _ => False end.
Proof. vm_compute. split; reflexivity. Qed.

(** C475: a socket is charged with exactly the events its observers wait for, and with the nearest of their timeouts *)
Theorem netev_charge : forall l h s fd, run l [] init = Ok (h, s) ->
  (forall k, N.testbit (pmask (poll s fd)) k = true <-> exists o m tm, wants h fd o = Some (m, tm) /\ N.testbit m k = true)
  /\ (forall o m t, wants h fd o = Some (m, Some t) -> exists t0, ptm (poll s fd) = Some t0 /\ (t0 <= t)%Z)
  /\ (forall t0, ptm (poll s fd) = Some t0 -> exists o m, wants h fd o = Some (m, Some t0)).
Proof.
  intros l h s fd E. destruct (run_ok l init [] init_ok) as (x & E2 & HV & HA). rewrite E in E2. injection E2 as <-. cbn [fst snd] in *. destruct (HA fd) as (_ & A). rewrite (v_poll _ HV fd).
  destruct (lsof s fd) as [|e r] eqn:EL; cbn [charge pmask ptm].
  - split; [intros k; rewrite N.bits_0; split; [discriminate|intros (o & m & tm & H & _); apply A in H; destruct H]|]. split; [intros o m t H; apply A in H; destruct H|discriminate].
  - destruct (fold_tm r (ltm e) (msk e)) as (T1 & T2 & T3). split; [|split].
    + intros k. rewrite fold_mask. rewrite orb_true_iff, existsb_exists. split.
      * intros [H|(x & I & H)]; [destruct e as [o t m]; exists o, m, t|destruct x as [o t m]; exists o, m, t]; (split; [apply A|exact H]); [left; reflexivity|right; exact I].
      * intros (o & m & tm & H & B). apply A in H as [->|H]; [left; exact B|right; exists (mkL o tm m); auto].
    + intros o m t H. apply A in H as [->|H]; [exact T1|exact (T2 _ H)].
    + intros t0 H. assert (T4 : Some t0 = ltm e \/ exists x, In x r /\ Some t0 = ltm x) by (destruct T3 as [Q|(x & I & Q)]; [left; congruence|right; exists x; split; [exact I|congruence]]).
      clear T1 T2 T3 H. destruct T4 as [Q|(x & I & Q)]; [destruct e as [o t m]|destruct x as [o t m]]; cbn [ltm] in Q; subst t; exists o, m; apply A; [left; reflexivity|right; exact I].
Qed.
Print Assumptions netev_charge.
Example netev_charge_ex :
  match run [OReq 3 1 1 None; OReq 3 2 4 (Some 50%Z); OReq 3 5 1 (Some 10%Z); OReq 3 5 0 None] [] init with Ok (h, s) => poll s 3%nat = mkP 1 5 (Some 50%Z) | _ => False end.
Proof. vm_compute. reflexivity. Qed.

(** C476: while system calls do not fail, no freed memory is used and none is lost: each record in memory belongs to one
    socket with an open request *)
Theorem netev_memory : forall l, exists h s, run l [] init = Ok (h, s) /\
  (forall p x, getObj s p = Ok x -> exists fd o q, pdat (poll s fd) = p /\ wants h fd o = Some q)
  /\ (forall fd fd' o q, wants h fd o = Some q -> pdat (poll s fd) = pdat (poll s fd') -> fd = fd')
  /\ (forall fd, pdat (poll s fd) <> O -> exists x, getObj s (pdat (poll s fd)) = Ok x).
Proof.
  intros l. destruct (run_ok l init [] init_ok) as ((h & s) & E & HV & HA). cbn [fst snd] in *. exists h, s. split; [exact E|]. split; [|split].
  - intros p x G. destruct (v_ref _ HV p (ex_intro _ x G)) as (fd & P). assert (N : pdat (poll s fd) <> O) by (rewrite P; intros ->; discriminate). destruct (v_obj _ HV fd N) as (y & G2 & NE).
    destruct (HA fd) as (_ & A). unfold agree, lsof in A. rewrite G2 in A. destruct y as [|[o t m] y]; [contradiction|]. exists fd, o, (m, t). split; [exact P|]. apply A. left. reflexivity.
  - intros fd fd' o (m & t) H. destruct (HA fd) as (_ & A). apply A in H. apply (v_inj _ HV). intros Z. rewrite (ls_none _ _ Z) in H. destruct H.
  - intros fd N. destruct (v_obj _ HV fd N) as (x & G & _). eauto.
Qed.
Print Assumptions netev_memory.
Example netev_memory_ex :
  match run [OReq 3 1 1 None; OReq 4 2 4 None; OEvent 3 1 5%Z; OReq 3 1 2 None] [] init with Ok (h, s) => objs s = [None; Some [mkL 2 None 4]; Some [mkL 1 None 2]] | _ => False end.
Proof. vm_compute. reflexivity. Qed.

(** C477: each notification belongs to a request that is open at that time, so a request is notified at most once on each
    socket, and an observer that has been removed is not notified *)
Theorem netev_once : forall l h s, run l [] init = Ok (h, s) -> notes_open h.
Proof. intros l h s E. apply (run_notes l init [] (h, s) init_ok I E). Qed.
Print Assumptions netev_once.
Example netev_once_ex :
  match run [OReq 3 1 1 None; OReq 3 2 3 None; OReq 3 2 0 None; OEvent 3 1 5%Z; OEvent 3 1 6%Z; OReq 3 1 2 None; OEvent 3 2 7%Z] [] init with
  | Ok (h, s) => h = [ENote 3 1 2; EReq 3 1 2 None; ENote 3 1 1; EReq 3 2 0 None; EReq 3 2 3 None; EReq 3 1 1 None] | _ => False end.
Proof. vm_compute. reflexivity. Qed.

(** C478 is false: when the system reports a hang-up or an error of a socket, an observer that waits for input is not
    notified; the socket is charged again and the same event comes at once *)
Theorem netev_hangup_refuted : ~ (forall l h s fd o q now, run l [] init = Ok (h, s) -> wants h fd o = Some q ->
  forall events : Z, In events [8; 16; 24]%Z -> exists c, fst (event s fd (Z.to_N (EpSel_Model.flagsOf events)) now true) = Ok c /\ c <> []).
Proof.
  intros H. specialize (H [OReq 3 1 1 None] _ _ 3%nat 1%nat (1, None) 5%Z eq_refl eq_refl 16%Z (or_intror (or_introl eq_refl))). destruct H as (c & E & N). vm_compute in E. injection E as <-. apply N. reflexivity.
Qed.
Print Assumptions netev_hangup_refuted.

(** C479 is false: a request that fails (closed descriptor) frees its record and leaves its address with the socket; the next
    request for that socket uses it *)
Theorem netev_failed_refuted : ~ (forall l h s fd o m tm s', run l [] init = Ok (h, s) -> doRequestWithSocket s fd o m tm false = (Throw, s') ->
  fst (doRequestWithSocket s' fd o m tm true) <> Undef).
Proof. intros H. apply (H [] [] init 3%nat 1%nat 1 None _ eq_refl eq_refl). vm_compute. reflexivity. Qed.
Print Assumptions netev_failed_refuted.

(** C480 is false: when charging the socket for the remaining observers fails, the observers whose event has come are not
    notified, now or later *)
Theorem netev_lost_refuted : ~ (forall l h s fd flags now o r, run l [] init = Ok (h, s) -> due h fd flags now o r ->
  (exists c, fst (event s fd flags now false) = Ok c /\ In (o, r) c)
  \/ (exists c, fst (event (snd (event s fd flags now false)) fd flags now true) = Ok c /\ In (o, r) c)).
Proof.
  intros H. specialize (H [OReq 3 1 1 None; OReq 3 2 2 None] _ _ 3%nat 1 5%Z 1%nat 1 eq_refl).
  destruct H as [(c & E & I)|(c & E & I)].
  - exists 1, None. split; [reflexivity|]. left. split; [discriminate|reflexivity].
  - vm_compute in E. discriminate.
  - vm_compute in E. injection E as <-. destruct I.
Qed.
Print Assumptions netev_lost_refuted.

(** C481 is false: when removing the last observer fails, the record stays in memory with no socket that knows it *)
Theorem netev_leak_refuted : ~ (forall l h s fd o s', run l [] init = Ok (h, s) -> doRequestWithSocket s fd o 0 None false = (Throw, s') ->
  forall p x, getObj s' p = Ok x -> exists g, pdat (poll s' g) = p).
Proof.
  intros H. destruct (H [OReq 3 1 1 None] _ _ 3%nat 1%nat _ eq_refl eq_refl 1%nat [] eq_refl) as (g & E). cbn in E. destruct g as [|[|[|[|g]]]]; cbn in E; discriminate.
Qed.
Print Assumptions netev_leak_refuted.

(** C482 is false: one request for a resource with two sockets (a connection to a name with two addresses) is notified twice *)
Theorem netev_sockets_refuted : ~ (forall fds o m tm evs h s, NoDup fds -> Forall (fun x => match x with OEvent _ _ _ => True | _ => False end) evs ->
  run (map (fun fd => OReq fd o m tm) fds ++ evs) [] init = Ok (h, s) -> (notes h o <= 1)%nat).
Proof.
  intros H. specialize (H [3; 4]%nat 1%nat 1 None [OEvent 3 1 5%Z; OEvent 4 1 6%Z] _ _ ltac:(repeat constructor; cbn; intuition lia) ltac:(repeat constructor) eq_refl). vm_compute in H. lia.
Qed.
Print Assumptions netev_sockets_refuted.
