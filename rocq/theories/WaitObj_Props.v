(** Theorems about the waiting object for network resources *)
From Verif Require Import Common FdSelect_Spec FdSelect_Model FdSelect_Proof WaitObj_Spec WaitObj_Model WaitObj_Proof.
Open Scope Z_scope.

Definition one (n : Z) : list Z := [n + 10].
Definition ans (l : list (Z * Z)) (t : Z) : answer := mkA (fun f => fold_right (fun p d => if fst p =? f then snd p else d) 0 l) t.

(** C506: resources with one socket each, no wake-up: getNext gives an event of a registered resource, with the mask of what poll reported last for
    it, or 0 when its time is over, and the resource is not registered any more; it waits only when poll has reported nothing for the
    registered resources since; it never fails *)
Theorem wait_events : forall i o sock l polls,
  (forall q r, q <> 0 -> r <> 0 -> sock q = sock r -> q = r) -> (forall r, r <> 0 -> sock r <> i) ->
  Forall (fun o => match o with OAdd r _ _ | ORem r => r <> 0 | ONext p => Forall (fun a => rep a i = 0) p end) (l ++ [ONext polls]) ->
  exists h s used rest x s', runW (fun r => [sock r]) l [] (start i o) = Ok (h, s) /\ polls = used ++ rest
  /\ runW (fun r => [sock r]) (l ++ [ONext polls]) [] (start i o) = Ok (x :: rev (map poll_ev used) ++ h, s')
  /\ right sock (rev (map poll_ev used) ++ h) x /\ (x = HWait -> rest = []).
Proof.
  intros i o sock l polls H1 H2 F. apply Forall_app in F as (F1 & F2). inversion F2 as [|? ? F3 _]; subst.
  destruct (run_W i sock H1 H2 l (start i o) [] (start_J i sock H1 H2 o) F1) as ((h & s) & E & I). cbn [fst snd] in I.
  destruct (next_W i sock H1 H2 polls s h I F3) as (used & rest & x & s' & EP & ES & R & N & _).
  exists h, s, used, rest, x, s'. split; [exact E|]. split; [exact EP|]. split; [|auto]. rewrite runW_app. unfold socks in *. rewrite E. cbn [fst snd runW]. rewrite ES. reflexivity.
Qed.
Print Assumptions wait_events.
Example wait_events_ex : match runW one [OAdd 1 1 None; OAdd 2 3 (Some 50); OAdd 3 1 None; ORem 3; ONext [ans [] 7; ans [(12, 4); (13, 1)] 8]; OAdd 2 2 (Some 50); ONext [ans [] 60]; ONext [ans [(11, 16)] 70]; ONext []] [] (start 3 4) with
  | Ok (h, _) => map (fun x => match x with HGot r m => Some (Some (r, m)) | HWait => Some None | _ => None end) h = [Some None; Some (Some (1, 1)); None; Some (Some (2, 0)); None; None; Some (Some (2, 2)); None; None; None; None; None; None]
  | _ => False end.
Proof. vm_compute. reflexivity. Qed.

(** C507 (refuted): peek() does not take the event; before the first getNext it gives memory that is not initialised, after it each peek takes another event *)
Theorem wait_peek_refuted : (forall i o polls, fst (fst (peekW polls (start i o))) = AUndef)
  /\ exists s1 s2 s3, nextW [ans [(11, 1); (12, 1); (13, 1)] 0] (add one (add one (add one (start 3 4) 1 1 None) 2 1 None) 3 1 None) = (AGot 1 1, s1, [])
     /\ peekW [] s1 = (AGot 2 1, s2, []) /\ nextW [] s2 = (AGot 3 1, s3, []).
Proof. split; [reflexivity|]. eexists _, _, _. split; [vm_compute; reflexivity|]. split; vm_compute; reflexivity. Qed.
Print Assumptions wait_peek_refuted.

(** C508 (refuted): the event of a wake-up carries the reason; it is always 1 *)
Theorem wait_reason_refuted : forall i o r f polls, 
  (exists s1 rest, nextW polls (wakeW (mkWt (pollAll (fs (start i o)) (mkA f 0)) true None) r) = (AGot 0 1, s1, rest)).
Proof.
  intros i o r f polls. unfold nextW, peekW, wakeW. cbn [fs loadNext ret fuelOf]. set (n := fuelOf _ _). assert (N : n = S (pred n)) by (unfold n, fuelOf; cbn; lia). rewrite N.
  cbn. rewrite Z.eqb_refl. cbn. eexists _, _. unfold isWake. cbn. rewrite Z.eqb_refl. reflexivity.
Qed.
Print Assumptions wait_reason_refuted.

(** C509 (refuted): hasItems() tells whether there are resources; it is always true *)
Theorem wait_hasitems_refuted : forall i o sock l h s,
  (forall q r, q <> 0 -> r <> 0 -> sock q = sock r -> q = r) -> (forall r, r <> 0 -> sock r <> i) ->
  Forall (fun o => match o with OAdd r _ _ | ORem r => r <> 0 | ONext p => Forall (fun a => rep a i = 0) p end) l ->
  runW (fun r => [sock r]) l [] (start i o) = Ok (h, s) -> hasItems s = true.
Proof.
  intros i o sock l h s H1 H2 F E. destruct (run_W i sock H1 H2 l (start i o) [] (start_J i sock H1 H2 o) F) as (x & E2 & I). unfold socks in E2. rewrite E in E2. injection E2 as <-. cbn [fst snd] in I.
  destruct I as [W _ _ (e & V & _) _ _]. unfold hasItems. unfold view in V. destruct (find (fdIndex (fs s)) i) as [q|] eqn:G; [|discriminate V]. pose proof (w_find _ W _ _ G) as [L _]. destruct (fdList (fs s)); [cbn in L; lia|reflexivity].
Qed.
Print Assumptions wait_hasitems_refuted.
Example wait_hasitems_ex : hasItems (start 3 4) = true /\ exists s h, runW one [OAdd 1 1 None; ONext [ans [(11, 1)] 0]] [] (start 3 4) = Ok (h, s) /\ hasItems s = true /\ entry (fun r => r + 10) h 1 = None.
Proof. split; [reflexivity|]. eexists _, _. split; [vm_compute; reflexivity|]. split; reflexivity. Qed.

(** C510 (refuted): an event takes the resource out of the set; the other sockets of a resource with several sockets stay there *)
Theorem wait_sockets_refuted : exists s h, runW (fun _ => [11; 12]) [OAdd 1 1 None; ONext [ans [(11, 1)] 0]; ONext [ans [(12, 1)] 0]] [] (start 3 4) = Ok (h, s)
  /\ filter (fun x => match x with HPoll _ _ => false | _ => true end) h = [HGot 1 1; HGot 1 1; HAdd 1 1 None].
Proof. eexists _, _. split; [vm_compute; reflexivity|reflexivity]. Qed.
Print Assumptions wait_sockets_refuted.

(** C511 (refuted): sleep() returns false only when there is an event to take; it does after a resource has had its event, and getNext waits *)
Theorem wait_sleep_refuted : exists s1 s2 s3, nextW [ans [(11, 1)] 0] (add one (start 3 4) 1 1 None) = (AGot 1 1, s1, [])
  /\ sleep s1 (ans [] 5) true = (true, s2) /\ fst (sleep s2 (ans [] 9) true) = false /\ nextW [] (snd (sleep s2 (ans [] 9) true)) = (AWaits, s3, []).
Proof. eexists _, _, _. split; [vm_compute; reflexivity|]. split; [vm_compute; reflexivity|]. split; vm_compute; reflexivity. Qed.
Print Assumptions wait_sleep_refuted.

(** C512 (refuted): getNext waits in poll() when nothing happens to the registered resources; after the end of a connection was reported, poll() reports
    it again at once for the resource that is not registered any more, as often as it is called *)
Theorem wait_spin_refuted : exists h s, runW one [OAdd 1 1 None; ONext [ans [(11, 17)] 0]] [] (start 10 9) = Ok (h, s) /\ (forall r, entry (fun r => r + 10) h r = None)
  /\ forall n, exists s', runW one [ONext (repeat (ans [(11, 16)] 0) n)] h s = Ok (HWait :: rev (map poll_ev (repeat (ans [(11, 16)] 0) n)) ++ h, s').
Proof.
  set (l := [OAdd 1 1 None; ONext [ans [(11, 17)] 0]]).
  assert (H1 : forall q r, q <> 0 -> r <> 0 -> q + 10 = r + 10 -> q = r) by (intros; lia).
  assert (H2 : forall r, r <> 0 -> r + 10 <> 10) by (intros; lia).
  assert (E : exists h s, runW one l [] (start 10 9) = Ok (h, s) /\ (forall r, entry (fun r => r + 10) h r = None)).
  { eexists _, _. split; [vm_compute; reflexivity|]. intros r. cbn. destruct r as [|[]|]; reflexivity. }
  destruct E as (h & s & E & N). exists h, s. split; [exact E|]. split; [exact N|]. intros n. set (a := ans [(11, 16)] 0).
  assert (F : Forall (fun o => match o with OAdd r _ _ | ORem r => r <> 0 | ONext p => Forall (fun a => rep a 10 = 0) p end) (l ++ [ONext (repeat a n)])).
  { repeat constructor; [discriminate|]. apply Forall_forall. intros b B. apply repeat_spec in B. subst. reflexivity. }
  destruct (wait_events 10 9 (fun r => r + 10) l (repeat a n) H1 H2 F) as (h2 & s2 & used & rest & x & s' & E2 & EP & E3 & R & W).
  change (fun r : Z => [r + 10]) with one in *. rewrite E in E2. injection E2 as <- <-. rewrite runW_app, E in E3. cbn [fst snd] in E3. exists s'.
  assert (NN : forall u r, entry (fun r => r + 10) (rev (map poll_ev u) ++ h) r = None).
  { intros u r. induction u as [|b u IH] using rev_ind; [apply N|]. rewrite map_app, rev_app_distr. cbn. now rewrite IH. }
  destruct x as [| | |r m|]; try contradiction.
  - destruct R as (_ & w & v & t & Q & _). rewrite NN in Q. discriminate Q.
  - rewrite (W eq_refl), app_nil_r in EP. rewrite EP in E3 |- *. exact E3.
Qed.
Print Assumptions wait_spin_refuted.
