(** Theorems about the one-shot set of sockets, C464-C472 *)
From Verif Require Import Common EpSel_Spec EpSel_Model EpSel_Proof.
Open Scope Z_scope.

(** C464: in every history, with any replies of the system at any times, what is delivered is a socket that is charged, with
    the data of its last charge; so each charge is delivered at most once *)
Theorem epsel_oneshot : forall l, Forall (fun o => match o with OSet _ m _ _ => m <> 0 | _ => True end) l -> delivers_charged (fst (run l [] init)).
Proof. intros l H. destruct init_ok as (A & B & _). apply (run_ok l init [] H A B I). Qed.
Print Assumptions epsel_oneshot.
Example epsel_oneshot_ex :
  let l := [OSet 3 1 None 30; OSet 5 2 (Some 100) 50; OWait None [(10, REvent 3 5)]; OWait None [(20, REvent 3 1); (30, REvent 5 4)]; OSet 3 1 (Some 200) 31; OWait None [(250, RIntr)]] in
  Forall (fun o => match o with OSet _ m _ _ => m <> 0 | _ => True end) l
  /\ fst (run l [] init) = [EDeliver 3 31 0; ESet 3 31 (Some 200); EDeliver 5 50 2; EDeliver 3 30 3; ESet 5 50 (Some 100); ESet 3 30 None].
Proof. split; [repeat constructor; discriminate|vm_compute; reflexivity]. Qed.

(** C465: when each delivered socket is at once charged again or removed, no timeout is lost: when the timeouts of all charged
    sockets have passed, wait reports the timeout of one of them without asking the system *)
Theorem epsel_timeouts : forall l, Forall (fun o => match o with OSet _ m _ _ => m <> 0 | _ => True end) l ->
  let h := fst (run l [] init) in let s := snd (run l [] init) in settled h -> forall tm now r rest,
  (exists fd d t, charged h fd = Some (d, Some t)) -> (forall fd d t, charged h fd = Some (d, Some t) -> t < now) ->
  exists fd d t, charged h fd = Some (d, Some t) /\ fst (wait ((now, r) :: rest) s tm) = Ok (WEvent fd 0 d).
Proof.
  intros l H. cbv zeta. destruct init_ok as (A & B & C). destruct (run_ok l init [] H A B I) as (HJ & HC & _ & HX & _). set (h := fst (run l [] init)) in *. set (s := snd (run l [] init)) in *.
  intros ST tm now r rest (fd & d & t & E) LE. destruct (HX C ST) as (D1 & _).
  assert (IN : In fd (heap s)). { rewrite HC in E. destruct (Z.eqb_spec (wfor (sock s fd)) 0) as [Q|Q]; [discriminate|]. apply D1; congruence. }
  cbn [wait]. rewrite expire_J by assumption. destruct (heap s) as [|f l'] eqn:EH; [destruct IN|]. destruct HJ as (_ & _ & HW). destruct (HW f) as (W & T); [rewrite EH; left; reflexivity|].
  destruct (tmo (sock s f)) as [t'|] eqn:ET; [|contradiction]. assert (CF : charged h f = Some (udata (sock s f), Some t')). { rewrite HC, ET. destruct (Z.eqb_spec (wfor (sock s f)) 0); [contradiction|reflexivity]. }
  pose proof (LE _ _ _ CF) as Q. unfold expired. destruct (Z.ltb_spec t' now) as [_|Q2]; [|lia]. cbn [fst]. exists f, (udata (sock s f)), t'. split; [exact CF|reflexivity].
Qed.
Print Assumptions epsel_timeouts.
Example epsel_timeouts_ex :
  let l := [OSet 3 1 (Some 30) 30; OSet 4 1 (Some 20) 40; OSet 5 2 (Some 100) 50; OWait None [(25, RIntr)]; OSet 4 1 (Some 60) 41] in
  settled (fst (run l [] init)) /\ charged (fst (run l [] init)) 4 = Some (41, Some 60) /\ charged (fst (run l [] init)) 3 = Some (30, Some 30)
  /\ fst (wait [(101, RIntr)] (snd (run l [] init)) None) = Ok (WEvent 3 0 30).
Proof. vm_compute. repeat split. Qed.

(** C466 is false: removing a socket from the middle of the queue of timeouts breaks its order, and wait goes on waiting
    although the timeout of a charged socket has passed *)
Theorem epsel_order_refuted : ~ (forall l, Forall (fun o => match o with OSet _ m _ _ => m <> 0 | _ => True end) l ->
  let h := fst (run l [] init) in let s := snd (run l [] init) in settled h -> forall now fd d t, charged h fd = Some (d, Some t) -> t < now ->
  exists g e, fst (wait [(now, RIntr)] s None) = Ok (WEvent g 0 e)).
Proof.
  intros H. set (l := [OSet 0 1 (Some 1) 0; OSet 1 1 (Some 10) 0; OSet 2 1 (Some 2) 0; OSet 3 1 (Some 11) 0; OSet 4 1 (Some 12) 0; OSet 5 1 (Some 13) 0; OSet 6 1 (Some 4) 60;
    OUnset 3; OWait None [(2, RIntr)]; OUnset 0; OWait None [(3, RIntr)]; OUnset 2]).
  specialize (H l ltac:(repeat constructor; discriminate)). cbv zeta in H. specialize (H ltac:(vm_compute; repeat split) 9 6%nat 60 4 ltac:(vm_compute; reflexivity) ltac:(lia)).
  destruct H as (g & e & H). vm_compute in H. discriminate.
Qed.
Print Assumptions epsel_order_refuted.

(** C467 is false: when another socket is charged before a delivered socket is charged again, charging the delivered socket
    takes away the timeout of the other one; wait never reports it *)
Theorem epsel_stale_refuted : ~ (forall l, Forall (fun o => match o with OSet _ m _ _ => m <> 0 | _ => True end) l ->
  let h := fst (run l [] init) in let s := snd (run l [] init) in (exists fd d t, charged h fd = Some (d, Some t)) ->
  exists now g e, fst (wait [(now, RIntr)] s None) = Ok (WEvent g 0 e)).
Proof.
  intros H. set (l := [OSet 0 1 (Some 10) 1; OSet 1 1 (Some 20) 2; OWait None [(15, RIntr)]; OSet 2 1 (Some 30) 3; OSet 0 1 (Some 40) 4; OUnset 0; OUnset 1]).
  specialize (H l ltac:(repeat constructor; discriminate)). cbv zeta in H.
  assert (E : exists fd d t, charged (fst (run l [] init)) fd = Some (d, Some t)) by (exists 2%nat, 3, 30; vm_compute; reflexivity).
  destruct (H E) as (now & g & e & Q). assert (HE : heap (snd (run l [] init)) = []) by (vm_compute; reflexivity).
  assert (G : forall s, heap s = [] -> fst (wait [(now, RIntr)] s None) = Ok WBlocks) by (intros s HS; cbn [wait]; unfold expire; rewrite HS; reflexivity).
  rewrite (G _ HE) in Q. discriminate Q.
Qed.
Print Assumptions epsel_stale_refuted.

(** C468 is false: wait with a timeout, when no charged socket has one, reads an entry of the empty queue when the system
    returns before the timeout has strictly passed, which its whole milliseconds allow *)
Theorem epsel_empty_refuted : ~ (forall l, Forall (fun o => match o with OSet _ m _ _ => m <> 0 | _ => True end) l ->
  forall tm now et, now + (tm - now) / 1000 * 1000 <= et -> fst (wait [(now, RNone et)] (snd (run l [] init)) (Some tm)) <> Undef).
Proof. intros H. apply (H [OSet 3 1 None 30] ltac:(repeat constructor; discriminate) 2500 1000 2300); [vm_compute; discriminate|vm_compute; reflexivity]. Qed.
Print Assumptions epsel_empty_refuted.

(** C469: cancelAll calls back each charged socket exactly once, with its data, and no other; nothing stays charged *)
Theorem epsel_cancel : forall l, Forall (fun o => match o with OSet _ m _ _ => m <> 0 | _ => True end) l ->
  let h := fst (run l [] init) in let s := snd (run l [] init) in
  (forall fd d, In (fd, d) (fst (cancelAll s)) <-> exists tm, charged h fd = Some (d, tm)) /\ NoDup (map fst (fst (cancelAll s)))
  /\ forall tm rounds fd fl d, fst (wait rounds (snd (cancelAll s)) tm) <> Ok (WEvent fd fl d).
Proof.
  intros l H. cbv zeta. destruct init_ok as (A & B & _). destruct (run_ok l init [] H A B I) as (HJ & HC & HD & _). destruct (cancel_ok _ _ HJ HC) as (C1 & C2 & C3 & C4 & _).
  split; [exact C1|]. split; [exact C2|]. intros tm rounds fd fl d E. destruct (wait_ok rounds _ tm _ C3 C4 HD) as (_ & _ & W & _). rewrite E in W. cbn [wev delivers_charged charged] in W.
  destruct W as ((t & Q) & _). discriminate.
Qed.
Print Assumptions epsel_cancel.
Example epsel_cancel_ex :
  let r := run [OSet 3 1 None 30; OSet 5 2 (Some 100) 50; OSet 4 1 (Some 7) 40; OWait None [(5, REvent 3 1)]] [] init in
  fst (cancelAll (snd r)) = [(4%nat, 40); (5%nat, 50)] /\ fst (wait [(200, REvent 5 1); (201, RIntr)] (snd (cancelAll (snd r))) None) = Ok WBlocks.
Proof. vm_compute. split; reflexivity. Qed.

(** C470 is false: after cancelAll a socket still gives the data of its cancelled charge *)
Theorem epsel_cancel_data_refuted : ~ (forall l, Forall (fun o => match o with OSet _ m _ _ => m <> 0 | _ => True end) l ->
  forall fd, getUserData (snd (cancelAll (snd (run l [] init)))) fd = 0).
Proof. intros H. specialize (H [OSet 3 1 None 30] ltac:(repeat constructor; discriminate) 3%nat). vm_compute in H. discriminate. Qed.
Print Assumptions epsel_cancel_data_refuted.
(** C473: a charged socket gives the data of its last charge, a socket that has been removed gives none *)
Theorem epsel_user_data : forall l fd, Forall (fun o => match o with OSet _ m _ _ => m <> 0 | _ => True end) l ->
  let h := fst (run l [] init) in let s := snd (run l [] init) in
  (forall d tm, charged h fd = Some (d, tm) -> getUserData s fd = d) /\ (fst (unset s fd true) = Ok tt -> getUserData (snd (unset s fd true)) fd = 0).
Proof.
  intros l fd H. cbv zeta. destruct init_ok as (A & B & _). destruct (run_ok l init [] H A B I) as (HJ & HC & _). split.
  - intros d tm E. rewrite HC in E. unfold getUserData. destruct (Z.eqb_spec (wfor (sock (snd (run l [] init)) fd)) 0); [discriminate|congruence].
  - unfold unset. intros E. destruct (set_ok _ fd 0 None 0 true HJ ltac:(auto)) as [Q|(s' & Q & _ & CO & _)]; [rewrite Q in E; discriminate|]. rewrite Q. cbn [snd].
    specialize (CO fd). rewrite Nat.eqb_refl in CO. unfold core in CO. unfold getUserData. congruence.
Qed.
Print Assumptions epsel_user_data.
Example epsel_user_data_ex : let s := snd (run [OSet 3 1 None 30; OSet 5 2 (Some 100) 50; OSet 3 1 (Some 7) 31] [] init) in
  getUserData s 3 = 31 /\ getUserData s 5 = 50 /\ fst (unset s 5 true) = Ok tt /\ getUserData (snd (unset s 5 true)) 3 = 31.
Proof. vm_compute. repeat split. Qed.

(** C471 is false: a charge that fails (the descriptor is closed) stays behind: its timeout is delivered later *)
Theorem epsel_failed_refuted : ~ (forall fd m tm d now, fst (set_ init fd m tm d false) = Throw ->
  fst (wait [(now, RIntr)] (snd (set_ init fd m tm d false)) None) = Ok WBlocks).
Proof. intros H. specialize (H 3%nat 1 (Some 10) 30 20 ltac:(vm_compute; reflexivity)). vm_compute in H. discriminate. Qed.
Print Assumptions epsel_failed_refuted.

(** C472 is false: a socket whose timeout is one hour away is reported as timed out after two milliseconds, when wait itself
    has a timeout of 2.5 milliseconds and the system returns a little earlier *)
Theorem epsel_early_refuted : ~ (forall l, Forall (fun o => match o with OSet _ m _ _ => m <> 0 | _ => True end) l ->
  let h := fst (run l [] init) in let s := snd (run l [] init) in settled h ->
  forall tm now et fd d t, now + (tm - now) / 1000 * 1000 <= et -> fst (wait [(now, RNone et)] s (Some tm)) = Ok (WEvent fd 0 d) ->
  charged h fd = Some (d, Some t) -> t <= et + 1000).
Proof.
  intros H. specialize (H [OSet 3 1 (Some 3600000000) 30] ltac:(repeat constructor; discriminate)). cbv zeta in H.
  specialize (H ltac:(vm_compute; repeat split) 2500 0 2200 3%nat 30 3600000000). cbv in H. apply H; [discriminate|reflexivity|reflexivity|reflexivity].
Qed.
Print Assumptions epsel_early_refuted.
