(** The synchronisation point as a queue of slots. *)
From Verif Require Import Common SyncPt_Spec SyncPt_Model SyncPt_Proof.

(** C104: for every history in which a slot is registered at most once, and
    taken back or reset only after it was registered, a synchronisation point
    gives the answers of the specification: the notified slots are the longest
    waiting ones (the newest ones in stack order), notifyAll notifies exactly
    those that wait, remove tells whether the slot was waiting. *)
Theorem syncPt_refines_queue : forall ord ops s l,
  onceOnly [] ops -> sspecRun ord ops sspec0 = Some (s, l) -> srun ord ops [] None = Ok l.
Proof. intros. eapply run_ok; eauto using srel_init. Qed.
Print Assumptions syncPt_refines_queue.

Example syncPt_case :
  let ops := [ONew; ONew; ONew; OAdd 0; OAdd 1; OAdd 2; ORemove 1; OOne; OTest 0; OTest 2; OAll; OTest 2; OOne] in
  onceOnly [] ops /\
  exists s, sspecRun Oldest ops sspec0 =
    Some (s, [true; true; true; true; true; true; true; true; true; false; true; true; false]).
Proof. split; [cbn; intuition lia|]. eexists. vm_compute. reflexivity. Qed.

(** C105: a slot that was notified and then reset is refused when it is
    registered again, whatever the slot was before: reset does not undo the
    registration. *)
Theorem syncPt_reset_refuted : forall ord ops s l p,
  onceOnly [] ops -> sspecRun ord ops sspec0 = Some (s, l) -> In p (notified s) ->
  srun ord (ops ++ [OReset p; OAdd p]) [] None = Ok (l ++ [true; false]) /\
  exists s', sspecRun ord (ops ++ [OReset p; OAdd p]) sspec0 = Some (s', l ++ [true; true]).
Proof.
  intros ord ops s l p Ho Hs Hp.
  assert (G : forall ops m cq added s0 l, srel m cq added s0 -> onceOnly added ops ->
    sspecRun ord ops s0 = Some (s, l) ->
    srun ord (ops ++ [OReset p; OAdd p]) m cq = Ok (l ++ [true; false]) /\
    exists s', sspecRun ord (ops ++ [OReset p; OAdd p]) s0 = Some (s', l ++ [true; true])).
  { clear ops l Ho Hs. induction ops as [|o ops IH]; intros m cq added s0 l R Ho H; cbn [sspecRun srun app] in *.
    - injection H as -> <-.
      pose proof R as [_ _ _ Rf Rw Rt Rb _].
      assert (Hm : p < made s) by auto.
      assert (Ht : (p <? made s) = true) by (apply Nat.ltb_lt; auto).
      assert (E : isIn p (notified s) = true) by (apply isIn_spec; auto).
      split.
      + destruct (flags_get _ _ _ _ (Rf p Hm)) as (x & G1 & G2 & G3 & G4 & G5).
        cbn. unfold resetSlot. rewrite G1. cbn. rewrite G4, E. cbn.
        unfold add, get. rewrite nth_error_upd_eq; [|apply nth_error_Some; congruence]. cbn. rewrite G5. cbn.
        assert (E2 : isIn p added = true) by (apply isIn_spec; auto).
        rewrite G3, E2, orb_true_r. auto.
      + cbn [sspecStep]. rewrite Ht. cbn [negb sspecStep made notified waiting]. rewrite Ht, E. cbn [negb].
        assert (E3 : isIn p (waiting s) = false).
        { apply isIn_false. intros K. apply Rw in K. tauto. }
        rewrite E3, isIn_without, Nat.eqb_refl, andb_false_r. cbn. eauto.
    - apply onceOnly_step in Ho as [Ho1 Ho2].
      destruct (sspecStep ord o s0) as [[s1 a]|] eqn:E; [|discriminate].
      destruct (sspecRun ord ops s1) as [[s2 l2]|] eqn:E2; [|discriminate]. injection H as -> <-.
      destruct (step_ok _ _ _ _ _ _ _ _ R Ho1 E) as (m' & cq' & A & B).
      destruct (IH m' cq' _ _ _ B Ho2 E2) as [C (s' & D)].
      rewrite A. cbn [obind]. rewrite C. rewrite D. cbn. eauto. }
  eapply G; eauto using srel_init.
Qed.
Print Assumptions syncPt_reset_refuted.

Example syncPt_reset_case :
  exists s l, sspecRun Oldest [ONew; OAdd 0; OOne] sspec0 = Some (s, l) /\ In 0 (notified s).
Proof. eexists _, _. split; [vm_compute; reflexivity|cbn; auto]. Qed.

(** C106: remove answers "removed" for a slot that was never registered. *)
Theorem syncPt_remove_refuted : forall ord,
  srun ord [ONew; ORemove 0] [] None = Ok [true; true] /\
  sspecRun ord [ONew; ORemove 0] sspec0 = Some (mkSS 1 [] [], [true; false]).
Proof. destruct ord; split; reflexivity. Qed.
Print Assumptions syncPt_remove_refuted.
