(** Properties of the set of watched descriptors (LinuxFdSelect) *)
From Verif Require Import Common FdSelect_Spec FdSelect_Model FdSelect_Proof.
From Coq Require Import ZifyBool.
Open Scope Z_scope.

(** *** C445: registration.  [l] is any history of set, unset, dropAll, waiting and getNext on a new object (no wake-ups) *)
Theorem fdselect_data : forall l, exists s, run l init = Some s /\ forall fd, getData s fd = registered (hist l []) fd
  /\ fst (unset s fd) = registered (hist l []) fd.
Proof.
  intros l. destruct (run_init l) as (s & E & _ & _ & D). exists s. split; [assumption|]. intros fd. split; [apply D|]. rewrite <- D. unfold unset, getData.
  destruct (find (fdIndex s) fd); reflexivity.
Qed.
Print Assumptions fdselect_data.
Definition set1 (fd m d : Z) := OSet (mkI fd m d None).
Example data_ex : let l := [set1 5 1 50; set1 6 1 60; set1 7 1 70; OUnset 5; set1 6 2 61; ONext [mkA (fun f => if f =? 7 then 1 else 0) 0]] in
  match run l init with
  | Some s => (getData s 5, getData s 6, getData s 7, map pf (fdList s))
  | None => (None, None, None, [])
  end = (None, Some 61, Some 70, [7; 6]).
Proof. reflexivity. Qed.

(** the events that are watched and the timeout are those of the last set *)
Theorem fdselect_set : forall l s i, run l init = Some s ->
  view (set_ s i) (ifd i) = Some (mkP (ifd i) (watch_mask (imask i)) 0, mkX (idata i) (itm i)).
Proof.
  intros l s i R. destruct (run_init l) as (s0 & E0 & W & _). rewrite R in E0. injection E0 as <-. rewrite set_view, Z.eqb_refl by assumption. rewrite (proj2 (masks (imask i))). reflexivity.
Qed.
Print Assumptions fdselect_set.
(** *** C446: what getNext returns: a registered descriptor with its data, its events are those of the last wait of this call
    or (nothing waited) those that are pending, and it is signaled: an event, a timeout, an error, or nothing is watched *)
Theorem fdselect_next : forall l s polls x s' rest, run l init = Some s -> getNext polls s = Some (Got x s' rest) ->
  registered (hist l []) (ifd x) = Some (idata x)
  /\ exists used p e, polls = used ++ rest /\ view (fold_left pollAll used s) (ifd x) = Some (p, e)
     /\ imask x = report_mask (revents p) /\ itm x = xtm e /\ (revents p <> 0 \/ events p = 0)
     /\ (forall u a, used = u ++ [a] -> revents p = rep a (ifd x)).
Proof.
  intros l s polls x s' rest R E. destruct (run_init l) as (s0 & E0 & W & Q & D). rewrite R in E0. injection E0 as <-.
  destruct (getNext_spec polls s W Q) as (r & E1 & G). rewrite E in E1. injection E1 as <-.
  destruct G as (_ & _ & used & -> & p & e & V & EX & S1 & _). cbv zeta in V. split.
  - rewrite <- D, getData_vdata. unfold vdata. rewrite <- (polls_data used s) by assumption. rewrite V. rewrite EX. reflexivity.
  - exists used, p, e. split; [reflexivity|]. split; [assumption|]. rewrite EX. cbn [info imask itm ifd]. split; [apply masks|]. split; [reflexivity|].
    split; [unfold signaled in S1; lia|]. intros u a ->. rewrite fold_left_app in V. cbn [fold_left] in V. rewrite poll_view in V by (apply polls_wf; assumption).
    destruct (view (fold_left pollAll u s) (ifd x)) as [[p1 x1]|]; [|discriminate]. injection V as <- <-. cbn [poll1 revents pf]. reflexivity.
Qed.
Print Assumptions fdselect_next.
Example next_ex : match run [set1 5 1 50; set1 6 1 60] init with
  | Some s => match getNext [mkA (fun _ => 0) 0; mkA (fun f => if f =? 6 then 4 else 0) 0; mkA (fun _ => 1) 0] s with
              | Some (Got x _ rest) => Some (ifd x, imask x, idata x, length rest)
              | _ => None end
  | None => None end = Some (6, 2, 60, 1%nat).
Proof. reflexivity. Qed.

(** *** C447: after a wait, calls of getNext that do not wait give each signaled descriptor exactly once and nothing else *)
Theorem fdselect_all : forall l s a n, run l init = Some s -> (length (fdList s) <= n)%nat ->
  let got := drain n (pollAll s a) in
  NoDup (map ifd got)
  /\ (forall fd, In fd (map ifd got) <-> exists p e, view s fd = Some (p, e) /\ (rep a fd <> 0 \/ expired (now a) (xtm e) = true \/ events p = 0))
  /\ (forall x, In x got -> imask x = report_mask (rep a (ifd x)) /\ getData s (ifd x) = Some (idata x)).
Proof.
  intros l s a n R H. destruct (run_init l) as (s0 & E0 & W & Q & D). rewrite R in E0. injection E0 as <-. cbv zeta.
  pose proof (poll_wf s a W) as W1. assert (Q1 : quiet (pollAll s a)) by exact Q. assert (C1 : curPos (pollAll s a) = 0) by reflexivity.
  rewrite (drain_sel n (pollAll s a) W1 Q1) by (rewrite poll_len by assumption; lia). rewrite C1. change (Z.to_nat 0) with O.
  assert (PF : forall fd p e, view s fd = Some (p, e) -> pf p = fd). { intros fd p e V. unfold view in V. destruct (find (fdIndex s) fd) as [i|] eqn:F; [|discriminate]. injection V as <- <-. apply (w_find s W _ _ F). }
  split; [apply sel_nodup, W1|]. split.
  - intros fd. split.
    + intros I. apply in_map_iff in I as (x & <- & I). apply sel_in in I as (p & e & V & EX & S1); [|assumption]. rewrite poll_view in V by assumption.
      destruct (view s (ifd x)) as [[p0 e0]|] eqn:V0; [|discriminate]. injection V as <- <-. exists p0, e0. split; [reflexivity|].
      pose proof (PF _ _ _ V0) as PP. unfold signaled, poll1 in S1. cbn [revents events] in S1. rewrite PP in S1.
      destruct (expired (now a) (xtm e0)) eqn:X; [auto|]. destruct (Z.eqb_spec (rep a (ifd x)) 0) as [Z0|Z0]; [|auto]. rewrite Z0 in S1. cbn in S1. right; right. lia.
    + intros (p & e & V & C). assert (V1 : view (pollAll s a) fd = Some (poll1 a p e, e)) by (rewrite poll_view, V by assumption; reflexivity).
      assert (S1 : signaled (poll1 a p e) = true). { pose proof (PF _ _ _ V) as PP. unfold signaled, poll1. cbn [revents events]. rewrite PP. destruct C as [C|[C|C]]; [destruct (Z.eqb_spec (rep a fd) 0); [contradiction|reflexivity]| |]; [rewrite C; cbn; apply orb_true_r|rewrite C; destruct (expired (now a) (xtm e) || bit (rep a fd) 8); apply orb_true_r]. }
      destruct (in_sel (pollAll s a) O fd _ _ W1 V1 S1) as (I & EI); [intros; lia|]. rewrite <- EI. apply in_map, I.
  - intros x I. apply sel_in in I as (p & e & V & EX & S1); [|assumption]. rewrite poll_view in V by assumption.
    destruct (view s (ifd x)) as [[p0 e0]|] eqn:V0; [|discriminate]. injection V as <- <-. pose proof (PF _ _ _ V0) as PP.
    rewrite getData_vdata, V0. rewrite EX at 1 3. cbn [info imask idata poll1 revents]. rewrite PP. split; [apply masks|reflexivity].
Qed.
Print Assumptions fdselect_all.
(** an event that is pending stays until it is returned, whatever is done with other descriptors *)
Theorem fdselect_pending : forall l s fd p e n, run l init = Some s -> view s fd = Some (p, e) -> revents p <> 0 ->
  (forall i, ifd i <> fd -> view (set_ s i) fd = Some (p, e)) /\ (forall g, g <> fd -> view (snd (unset s g)) fd = Some (p, e))
  /\ ((length (fdList s) <= n)%nat -> In (mkI fd (report_mask (revents p)) (xdata e) (xtm e)) (drain n s)).
Proof.
  intros l s fd p e n R V N. destruct (run_init l) as (s0 & E0 & W & Q & D). rewrite R in E0. injection E0 as <-. split; [|split].
  - intros i H. rewrite set_view by assumption. destruct (Z.eqb_spec fd (ifd i)); [congruence|assumption].
  - intros g H. rewrite unset_view by assumption. destruct (Z.eqb_spec fd g); [congruence|assumption].
  - intros L. pose proof (w_cur s W). rewrite drain_sel by (auto; lia).
    destruct (in_sel s (Z.to_nat (curPos s)) fd p e W V) as (I & EI).
    + unfold signaled. lia.
    + intros i Hi E. assert (curPos s <= Z.of_nat i) by (apply (w_rev s W); [assumption|rewrite E; assumption]). lia.
    + unfold info in I. cbn [info ifd] in EI. rewrite EI, (proj1 (masks (revents p))) in I. exact I.
Qed.
Print Assumptions fdselect_pending.
Definition poll_ex := mkA (fun f => if f =? 5 then 1 else if f =? 8 then 8 else 0) 100.
Definition ex_ops := [set1 5 1 50; set1 6 3 60; OSet (mkI 7 1 70 (Some 90)); set1 8 1 80; set1 9 0 90].
Example all_ex : match run ex_ops init with
  | Some s => map (fun x => (ifd x, imask x, idata x)) (drain 9 (pollAll s poll_ex))
  | None => [] end = [(5, 1, 50); (7, 0, 70); (8, 0, 80); (9, 0, 90)].
Proof. reflexivity. Qed.
Example pending_ex : match run (ex_ops ++ [OPoll (mkA (fun f => if f =? 9 then 1 else 0) 0); OUnset 5; OUnset 6]) init with
  | Some s => (match view s 9 with Some (p, _) => revents p | None => 0 end, map ifd (drain 9 s))
  | None => (0, []) end = (1, [9]).
Proof. reflexivity. Qed.

(** *** C448: dropAll; then getNext and unset give every descriptor once with its data, nothing waits, and the set is empty *)
Theorem fdselect_drop : forall l s, run l init = Some s ->
  let r := shutdown (length (fdList s)) (dropAll s) in
  fdList (snd r) = [] /\ NoDup (map ifd (fst r))
  /\ forall fd d, registered (hist l []) fd = Some d <-> exists x, In x (fst r) /\ ifd x = fd /\ idata x = d.
Proof.
  intros l s R. destruct (run_init l) as (s0 & E0 & W & Q & D). rewrite R in E0. injection E0 as <-. cbv zeta.
  assert (L : length (fdList (dropAll s)) = length (fdList s)) by (unfold dropAll; cbn [fdList withL]; apply map_length).
  destruct (shut_all (length (fdList s)) (dropAll s)) as (A & B & C); auto.
  - apply drop_wf, W.
  - unfold dropAll. cbn [fdList withL]. intros p Hp. apply in_map_iff in Hp as (q & <- & _). reflexivity.
  - split; [assumption|]. split; [assumption|]. intros fd d. rewrite <- C, <- D, !getData_vdata, drop_view by assumption. destruct (view s fd) as [[p x]|]; reflexivity.
Qed.
Print Assumptions fdselect_drop.
Example drop_ex : match run ex_ops init with
  | Some s => let r := shutdown 5 (dropAll s) in (map ifd (fst r), map idata (fst r), length (fdList (snd r)))
  | None => ([], [], 9%nat) end = ([5; 9; 8; 7; 6], [50; 90; 80; 70; 60], 0%nat).
Proof. reflexivity. Qed.

(** *** C449 (refuted): a descriptor with an empty mask is returned at once; here the call waits although one is registered *)
Theorem fdselect_zero_refuted : exists s s', run [set1 5 0 50] init = Some s /\ getData s 5 = Some 50 /\ getNext [] s = Some (Waits s').
Proof. eexists _, _. split; [reflexivity|]. split; reflexivity. Qed.
Print Assumptions fdselect_zero_refuted.

(** *** C450 (refuted): a wake-up interrupts waiting; on an object that has not waited yet, and on one where all events are read,
    getNext writes behind the end of the list *)
Theorem fdselect_wake_refuted :
  (forall i o r polls, getNext polls (wakeUp (enableWakeUp init true i o) r) = None)
  /\ exists s x s1, run [set1 5 1 50] (enableWakeUp init true 3 4) = Some s
     /\ getNext [mkA (fun f => if f =? 5 then 1 else 0) 0] s = Some (Got x s1 []) /\ getNext [] (wakeUp s1 7) = None.
Proof.
  split; [intros i o r polls; vm_compute; reflexivity|]. eexists _, _, _. split; [vm_compute; reflexivity|]. split; (vm_compute; reflexivity).
Qed.
Print Assumptions fdselect_wake_refuted.

(** *** C451 (refuted): all wake-up requests are delivered; two requests give one notice with the second reason *)
Theorem fdselect_reason_refuted : exists s x s1 s2, run [OPoll (mkA (fun _ => 0) 0)] (enableWakeUp init true 3 4) = Some s
  /\ getNext [] (wakeUp (wakeUp s 7) 8) = Some (Got x s1 []) /\ ifd x = 3 /\ reason s1 = 8 /\ getNext [] s1 = Some (Waits s2).
Proof. eexists _, _, _, _. split; [vm_compute; reflexivity|]. split; [vm_compute; reflexivity|]. repeat split; vm_compute; reflexivity. Qed.
Print Assumptions fdselect_reason_refuted.

(** *** C452 (refuted): a wake-up keeps the events that are pending; here the event of descriptor 5 is gone *)
Theorem fdselect_wake_event_refuted : exists s p e x s1 s2 p1, run [OUnset 3; set1 5 1 50; set1 3 1 0; OPoll (mkA (fun f => if f =? 5 then 1 else 0) 0)] (enableWakeUp init true 3 4) = Some s
  /\ view s 5 = Some (p, e) /\ revents p = 1
  /\ getNext [] (wakeUp s 7) = Some (Got x s1 []) /\ ifd x = 3 /\ view s1 5 = Some (p1, e) /\ revents p1 = 0 /\ getNext [] s1 = Some (Waits s2).
Proof. eexists _, _, _, _, _, _, _. split; [vm_compute; reflexivity|]. split; [vm_compute; reflexivity|]. split; [vm_compute; reflexivity|]. split; [vm_compute; reflexivity|]. repeat split; vm_compute; reflexivity. Qed.
Print Assumptions fdselect_wake_event_refuted.

(** *** C453 (refuted): repeated requests to disable wake-ups are ignored; the descriptors are closed again *)
Theorem fdselect_close_refuted : forall i o, closed (destroy (enableWakeUp (enableWakeUp init true i o) false 0 0)) = [i; o; i; o].
Proof.
  intros i o.
  assert (K : forall s, wake s = Some (i, o) -> let s' := enableWakeUp s false 0 0 in closed s' = i :: o :: closed s /\ wake s' = Some (i, o)).
  { intros s E. unfold enableWakeUp. rewrite E. cbn [closed wake]. unfold unset. destruct (find (fdIndex s) i) as [p|]; cbn [snd]; [|auto].
    unfold removeFd. cbv zeta. destruct (Nat.eqb p _), (_ <? _); cbn [closed wake withCur withT]; auto. }
  assert (E1 : wake (enableWakeUp init true i o) = Some (i, o)) by reflexivity. destruct (K _ E1) as (A & B). destruct (K _ B) as (C & _). unfold destroy. rewrite C, A. reflexivity.
Qed.
Print Assumptions fdselect_close_refuted.

(** *** C454: the time of a wait, for times below 2^31 milliseconds *)
Theorem fdselect_time : forall rems tm, (forall c, In (Some c) rems -> 0 <= c < 2 ^ 31) -> (forall c, tm = Some c -> 0 <= c < 2 ^ 31) ->
  waits_right rems tm (fst (pollTime rems tm))
  /\ (snd (pollTime rems tm) = true <-> exists q, tm = Some q /\ forall c, In (Some c) rems -> q < c).
Proof.
  intros rems tm H1 H2. unfold pollTime. destruct (fold_min rems naturalNull) as (A & B & D).
  set (m := fold_left _ rems naturalNull) in *. assert (NN : naturalNull = 18446744073709551615) by reflexivity.
  assert (TI : forall v, 0 <= v < 2 ^ 31 -> toInt v = v). { intros v Hv. unfold toInt. rewrite Z.mod_small by lia. destruct (Z.ltb_spec v (2 ^ 31)); [reflexivity|lia]. }
  assert (M : (m = naturalNull /\ forall c, ~ In (Some c) rems) \/ (0 <= m < 2 ^ 31 /\ In (Some m) rems)).
  { destruct D as [D|D]; [|right; split; [apply H1, D|exact D]]. left. split; [exact D|]. intros c I. pose proof (H1 c I). pose proof (B c I). lia. }
  destruct tm as [q|].
  - pose proof (H2 q eq_refl) as Q2. destruct (Z.ltb_spec q m) as [L|L]; cbn [fst snd].
    + destruct (Z.eqb_spec q naturalNull); [lia|]. rewrite TI by assumption. split.
      * right. split; [lia|]. split; [intros c I; pose proof (B c I); lia|]. split; [intros c E; injection E as <-; lia|auto].
      * split; [intros _; exists q; split; [reflexivity|]; intros c I; pose proof (B c I); lia|reflexivity].
    + destruct M as [(M & _)|(M & I)]; [lia|]. destruct (Z.eqb_spec m naturalNull); [lia|]. rewrite TI by assumption. split.
      * right. split; [lia|]. split; [exact B|]. split; [intros c E; injection E as <-; lia|auto].
      * split; [discriminate|]. intros (q' & E & K). injection E as <-. specialize (K m I). lia.
  - cbn [fst snd]. split; [|split; [discriminate|intros (q & E & _); discriminate]].
    destruct M as [(M & N)|(M & I)]; destruct (Z.eqb_spec m naturalNull); try lia; [left; auto|]. rewrite TI by assumption. right. split; [lia|]. split; [exact B|]. split; [intros c E; discriminate|auto].
Qed.
Print Assumptions fdselect_time.
Example time_ex : pollTime [None; Some 500; Some 30; Some 700] (Some 100) = (30, false) /\ pollTime [None] None = (-1, false) /\ pollTime [Some 500] (Some 20) = (20, true).
Proof. repeat split. Qed.

(** *** C455 (refuted): without the bound; a timeout of 2^31 ms (25 days) gives a wait without end, one of 2^32 ms gives no wait *)
Theorem fdselect_time_refuted : fst (pollTime [Some (2 ^ 31)] None) < 0 /\ ~ waits_right [Some (2 ^ 31)] None (fst (pollTime [Some (2 ^ 31)] None))
  /\ fst (pollTime [Some (2 ^ 32)] None) = 0 /\ ~ waits_right [Some (2 ^ 32)] None 0.
Proof.
  split; [reflexivity|]. split; [|split; [reflexivity|]].
  - intros [(_ & _ & N)|(P & _)]; [apply (N (2 ^ 31)); left; reflexivity|revert P; vm_compute; intros P; apply P; reflexivity].
  - intros [(P & _)|(_ & _ & _ & [[E|[]]|E])]; [lia| |discriminate]. revert E. vm_compute. discriminate.
Qed.
Print Assumptions fdselect_time_refuted.
