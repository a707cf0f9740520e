(** Properties of the resource pool (C284 to C290). *)
From Coq Require Import ZArith Lia.
From Verif Require Import Common ResPool_Spec ResPool_Model ResPool_Proof.
Import ListNotations.
Local Open Scope Z_scope.

(** C284: whatever the clients do and in whatever order, nothing is deleted twice or used after
    its delete, and a resource has at most one owner and exists as long as it is owned *)
Theorem pool_exclusive : forall n limit l, exists s, run l (init n limit) = Ok s /\
  (forall c c' r, nth_error (pcs s) c = Some (Has r) -> nth_error (pcs s) c' = Some (Has r) -> c = c') /\
  (forall c r, nth_error (pcs s) c = Some (Has r) -> In r (live s) /\ ~ In r (pool s)).
Proof.
  intros n limit l. destruct (run_ok limit l (init n limit) (init_inv n limit)) as (s & E & V & _). exists s. split; [exact E|]. split.
  - intros c c' r H H'. destruct (Nat.eq_dec c c') as [Q|Q]; [exact Q|]. exfalso.
    pose proof (zsum_two (isown r) (pcs s) c _ c' _ (isown_pos r) H H' Q) as Z. cbn [isown] in Z. rewrite Nat.eqb_refl in Z.
    pose proof (i_own _ _ V r). pose proof (i_one _ _ V r). pose proof (cnt_pos r (pool s)). lia.
  - intros c r H. split; [apply (held_alive limit s c (Has r) r V H); cbn [isown]; rewrite Nat.eqb_refl; reflexivity|].
    intros I. apply cnt_in in I. pose proof (zsum_le (isown r) (pcs s) c _ (isown_pos r) H) as Z. cbn [isown] in Z. rewrite Nat.eqb_refl in Z.
    pose proof (i_own _ _ V r). pose proof (i_one _ _ V r). lia.
Qed.
Print Assumptions pool_exclusive.
(* client 0 takes the only resource, client 1 waits and is given it *)
Example exclusive_ex : (let! s := run [(0, false); (0, false); (0, false); (0, false); (1, false); (1, false)]%nat (init 2 1) in Ok (pcs s)) = Ok [Has 0; Wait] /\
  (let! s := run [(0, false); (0, false); (0, false); (0, false); (1, false); (1, false); (0, false); (0, false); (1, false)]%nat (init 2 1) in Ok (pcs s, live s)) = Ok ([Out; Has 0], [0%nat]).
Proof. split; reflexivity. Qed.

(** C285: when no call is in progress, the living resources are those in the pool and those
    that are owned, and their number and curLimit make the limit *)
Theorem pool_account : forall n limit l s, run l (init n limit) = Ok s ->
  Forall (fun p => match p with Out | Wait | Has _ => True | _ => False end) (pcs s) ->
  NoDup (live s) /\ (forall r, In r (live s) <-> In r (pool s) \/ In (Has r) (pcs s)) /\ Z.of_nat (length (live s)) + cur s = limit.
Proof.
  intros n limit l s E F. destruct (run_ok limit l (init n limit) (init_inv n limit)) as (s' & E' & V & _). rewrite E in E'. injection E' as <-.
  split; [|split].
  - apply (NoDup_count_occ Nat.eq_dec). intros r. pose proof (i_one _ _ V r) as H. unfold cnt in H. lia.
  - intros r. rewrite <- cnt_in, <- (i_own _ _ V r). rewrite <- (cnt_in r (pool s)).
    assert (P : 0 < zsum (isown r) (pcs s) <-> In (Has r) (pcs s)).
    { clear - F. induction F as [|p l P F IH]; cbn [zsum In]; [lia|]. destruct p; try contradiction; cbn [isown]; try (rewrite Z.add_0_l, IH; split; [auto|intros [?|?]; [discriminate|auto]]).
      destruct (Nat.eqb_spec r0 r) as [->|Q]; [|rewrite Z.add_0_l, IH; split; [auto|intros [Q'|?]; [congruence|auto]]].
      split; [auto|]. intros _. assert (0 <= zsum (isown r) l) by (clear; induction l as [|y t IH]; cbn [zsum]; [lia|]; pose proof (isown_pos r y); lia). lia. }
    rewrite <- P. pose proof (cnt_pos r (pool s)).
    assert (0 <= zsum (isown r) (pcs s)) by (clear; induction (pcs s) as [|y t IH]; cbn [zsum]; [lia|]; pose proof (isown_pos r y); lia). lia.
  - pose proof (i_sum _ _ V) as S. assert (Z : zsum owe (pcs s) = 0).
    { clear - F. induction F as [|p l P F IH]; cbn [zsum]; [reflexivity|]. destruct p; try contradiction; cbn [owe]; lia. }
    lia.
Qed.
Print Assumptions pool_account.

(** C286: nobody waits while there is a resource in the pool *)
Theorem pool_no_idle : forall n limit l s c, run l (init n limit) = Ok s -> nth_error (pcs s) c = Some Wait -> pool s = [].
Proof.
  intros n limit l s c E H. destruct (run_ok limit l (init n limit) (init_inv n limit)) as (s' & E' & V & _). rewrite E in E'. injection E' as <-.
  apply (i_idle _ _ V). apply (i_wait _ _ V) in H. intros Q. rewrite Q in H. destruct H.
Qed.
Print Assumptions pool_no_idle.

(** C287: if resources are created one at a time, there are never more than the limit *)
Theorem pool_limit_serial : forall n limit l s, 0 <= limit -> serial l (init n limit) -> run l (init n limit) = Ok s -> Z.of_nat (length (live s)) <= limit.
Proof.
  intros n limit l s L S E. destruct (run_ok limit l (init n limit) (init_inv n limit)) as (s' & E' & V & _). rewrite E in E'. injection E' as <-.
  assert (K : zsum creating (pcs s) <= cur s).
  { apply (serial_run limit l (init n limit) s (init_inv n limit)); [|exact S|exact E]. cbn [init pcs cur]. rewrite zsum_repeat. cbn [creating]. lia. }
  pose proof (i_sum _ _ V). pose proof (owe_creating (pcs s)). lia.
Qed.
Print Assumptions pool_limit_serial.
Example serial_ex : let l := [(0, false); (0, false); (0, false); (0, false); (1, false); (1, false); (0, false); (0, false); (1, true); (1, false); (1, false); (1, false)]%nat in
  serial l (init 2 1) /\ (let! s := run l (init 2 1) in Ok (pcs s, live s)) = Ok ([Out; Create], []).
Proof. split; [cbn; repeat split; discriminate|reflexivity]. Qed.

(** C288: there are never more resources than the limit.  In fact any number of clients that
    come at the same time make one each. *)
Theorem pool_limit_refuted : forall limit k, 0 < limit -> exists l s, run l (init k limit) = Ok s /\
  length (live s) = k /\ forall c, (c < k)%nat -> nth_error (pcs s) c = Some (Has c).
Proof.
  intros limit k L. exists (twice (seq 0 k) ++ twice (seq 0 k)). eexists. split.
  - rewrite run_app. unfold init. pose proof (rush1 k 0 limit L) as R. cbn [repeat app Nat.add] in R. rewrite R. cbn [obind].
    pose proof (rush2 k 0 limit [] eq_refl eq_refl) as R2. cbn [seq rev app Nat.add] in R2. change (Z.of_nat 0) with 0 in R2. rewrite Z.sub_0_r in R2. exact R2.
  - cbn [live pcs]. rewrite rev_length, seq_length. split; [reflexivity|]. intros c C. rewrite nth_error_map.
    assert (Q : nth_error (seq 0 k) c = Some c). { rewrite (nth_error_nth' (seq 0 k) 0%nat) by (rewrite seq_length; exact C). rewrite seq_nth by exact C. reflexivity. }
    rewrite Q. reflexivity.
Qed.
Print Assumptions pool_limit_refuted.

(** C289: a client waits only while the limit is reached.  In fact, if two releases see together
    that there are too many resources, both delete theirs, and who waits is not woken. *)
Theorem pool_waiting_refuted : exists l s, run l (init 3 1) = Ok s /\ pcs s = [Out; Out; Wait] /\ live s = [] /\ pool s = [] /\ cur s = 1.
Proof.
  exists [(0, false); (0, false); (1, false); (1, false); (0, false); (1, false); (0, false); (1, false);
          (2, false); (2, false); (0, false); (1, false); (0, false); (1, false); (0, false); (1, false)]%nat.
  exists (mkSt [] 1 [2%nat] [] 2 [Out; Out; Wait]). split; [vm_compute; reflexivity|]. repeat split.
Qed.
Print Assumptions pool_waiting_refuted.

(** C290: setLimit sets the limit.  In fact the limit stays; a lower one takes the free
    capacity, whatever the number is, and a higher one counts again with every call. *)
Theorem pool_set_limit_refuted : forall limit used new, 0 <= used <= limit -> new <> limit ->
  setLimit limit (limit - used) new <> set_limit used new /\ fst (setLimit limit (limit - used) new) = limit /\
  (new < limit -> snd (setLimit limit (limit - used) new) = limit - 2 * used) /\
  (limit < new -> let (l1, c1) := setLimit limit (limit - used) new in snd (setLimit l1 c1 new) = new - used + (new - limit)).
Proof.
  intros limit used new U N. unfold setLimit, set_limit. destruct (Z.ltb_spec limit new) as [A|A].
  - cbn [fst snd]. destruct (Z.ltb_spec limit new); [|lia]. cbn [snd]. split; [congruence|]. split; [reflexivity|]. split; intros; lia.
  - destruct (Z.ltb_spec new limit) as [B|B]; [|lia]. cbn [fst snd]. split; [congruence|]. split; [reflexivity|]. split; intros; lia.
Qed.
Print Assumptions pool_set_limit_refuted.
Example set_limit_ex : setLimit 10 7 5 = (10, 4) /\ set_limit 3 5 = (5, 2).
Proof. split; reflexivity. Qed.
