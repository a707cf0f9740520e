(** Futures and promises. *)
From Coq Require Import Permutation.
From Verif Require Import Common Promise_Model Promise_Proof.

Lemma cnt_one : forall o l, NoDup l -> In o l -> cnt o l = 1.
Proof. intros o l H K. unfold cnt. apply NoDup_count_occ'; auto. Qed.

(** C39: in every history (resolutions, registrations, withdrawals, cancels and
    dropped promises, in any order and from inside of observers too): nothing
    goes wrong, and if no observer was registered twice,
    - no observer is called twice, and none that was not registered is called;
    - without cancels, what is delivered is the argument of the first resolve;
    - when all calls have returned and the future was resolved, every observer
      was called, except for those withdrawn by unregisterObserver;
    - a withdrawn observer is never called. *)
Theorem promise_delivers_once : forall A (sched : list (pstep A)), Forall noWait sched ->
  exists s, prun sched pinit = Ok s /\
   (NoDup (registered s) ->
     NoDup (map fst (delivered s)) /\ incl (map fst (delivered s)) (registered s) /\
     (cancels s = [] -> forall o a, In (o, a) (delivered s) -> hd_error (offered s) = Some a) /\
     (jobs s = [] -> offered s <> [] -> forall o, In o (registered s) ->
        In o (map fst (delivered s)) \/ In o (withdrawn s)) /\
     (forall o, In o (withdrawn s) -> ~ In o (map fst (delivered s)))).
Proof.
  intros A sched Hw. destruct (prun_ok sched pinit pinv_init Hw) as (s & E & [C J]). exists s. split; auto.
  destruct C as [H1 H2 H3 H4 H5 H6 H7]. intros Hn.
  assert (Le : forall o, cnt o (registered s) <= 1) by (intros o; unfold cnt; apply NoDup_count_occ; auto).
  split; [|split; [|split; [|split]]].
  - apply (NoDup_count_occ Nat.eq_dec). intros o. specialize (Le o). rewrite H5 in Le. unfold cnt in *. lia.
  - intros o Ho. apply (count_occ_In Nat.eq_dec). apply (count_occ_In Nat.eq_dec) in Ho.
    specialize (H5 o). unfold cnt in *. lia.
  - intros Hc o a Ha. destruct (H6 o a Ha) as [K|K]; [congruence|]. rewrite Hc in K. destruct K.
  - intros Hj Ho o Hr. rewrite Hj in H1, H5. cbn in H1.
    assert (Hq : pobs s = []).
    { apply H3; [rewrite H4; destruct (offered s); cbn; congruence|]. destruct (presolving s); [discriminate|auto]. }
    apply (cnt_one o) in Hr; auto. rewrite H5, Hq in Hr. unfold cnt in Hr. cbn in Hr.
    destruct (in_dec Nat.eq_dec o (withdrawn s)); auto. left.
    apply (count_occ_not_In Nat.eq_dec) in n. apply (count_occ_In Nat.eq_dec). lia.
  - intros o Hw' Hd. apply (count_occ_In Nat.eq_dec) in Hw', Hd. specialize (Le o). rewrite H5 in Le. unfold cnt in *. lia.
Qed.
Print Assumptions promise_delivers_once.

(** one observer before, one during and one after the resolution; a second
    resolution comes in between *)
Example promise_race : exists s,
  prun [PDo (PRegister 1); PDo (PResolve true); PGo 0; PDo (PRegister 2); PDo (PResolve false); PGo 0; PGo 0; PGo 0; PGo 0;
        PGo 0; PDo (PRegister 3); PGo 0; PGo 0] pinit = Ok s /\
  NoDup (registered s) /\ jobs s = [] /\ offered s = [true; false] /\ delivered s = [(3, true); (2, true); (1, true)].
Proof.
  eexists. split; [vm_compute; reflexivity|]. cbn. repeat split; auto.
  repeat constructor; cbn; intuition discriminate.
Qed.

(** C111: withdrawing an observer that is registered once takes out exactly this
    observer and keeps the order of the others; the answer says whether it was
    there. *)
Theorem promise_unregister : forall l o, NoDup l -> exists l' b, unregList l o = Ok (l', b) /\
  l' = filter (fun x => negb (x =? o)) l /\ (b = true <-> In o l).
Proof.
  intros l o Hn. destruct (unregList_ok o l) as (l' & b & E & K). exists l', b. split; auto.
  destruct K as [[-> ->]|(-> & u1 & u2 & -> & Ho & ->)].
  - split; auto. rewrite existsb_exists. split.
    + intros (x & Hx & Ex). apply Nat.eqb_eq in Ex. subst. auto.
    + intros Ho. exists o. split; auto. apply Nat.eqb_refl.
  - split; [|split; auto; intros _; apply in_or_app; right; left; auto].
    apply NoDup_remove_2 in Hn. change (u1 ++ u2 = drop o (u1 ++ o :: u2)).
    assert (D : forall l, ~ In o l -> drop o l = l).
    { clear. induction l as [|y l IH]; intros H; auto. rewrite drop_cons. destruct (Nat.eqb_spec y o).
      - subst. destruct H. left. auto.
      - f_equal. apply IH. intros K. apply H. right. auto. }
    rewrite drop_app, drop_cons, Nat.eqb_refl, !D; auto. intros K. apply Hn. apply in_or_app. auto.
Qed.
Print Assumptions promise_unregister.

Example promise_unregister_ex : unregList [4; 2; 7; 1; 9] 7 = Ok ([4; 2; 1; 9], true) /\
  unregList [4; 2; 7; 1; 9] 1 = Ok ([4; 2; 7; 9], true) /\ unregList [4; 2; 7; 1; 9] 3 = Ok ([4; 2; 7; 1; 9], false).
Proof. repeat split; vm_compute; reflexivity. Qed.

(** C110: "once the last reference is removed, the promise is resolved with
    CanceledException" fails: after the last promise has been dropped (and all
    calls have returned) the future is not resolved; an observer registered
    then is not called, whatever else happens except for a new resolve, cancel
    or drop of a promise. *)
Definition passive {A} (o : nat) (c : pstep A) : Prop :=
  match c with
  | PDo (PResolve _) | PDo (PCancel _) | PDo (PDropRef _) | PDo (PWaitEnd _ _) => False
  | PDo (PRegister r) => r <> o
  | _ => True
  end.

Theorem promise_drop_refuted : forall A (e : A) o (later : list (pstep A)), Forall (passive o) later ->
  exists s s', prun [PDo PNewRef; PDo (PDropRef e); PGo 0] pinit = Ok s /\ prefs s = 0 /\ jobs s = [] /\
    pvalue s = None /\
    prun (PDo (PRegister o) :: later) s = Ok s' /\ ~ In o (map fst (delivered s')).
Proof.
  intros A e o later Hl. eexists.
  assert (G : forall later (s : promise A), Forall (passive o) later -> (pvalue s = None /\ delivered s = [] /\ jobs s = []) ->
     exists s', prun later s = Ok s' /\ (pvalue s' = None /\ delivered s' = [] /\ jobs s' = [])).
  { clear. induction later as [|c l IH]; intros s Hl (Hv & Hd & Hj); [cbn; eauto|].
    apply Forall_cons_iff in Hl as [Hc Hl]. cbn [prun].
    assert (X : exists s1, pexec s c = Ok s1 /\ (pvalue s1 = None /\ delivered s1 = [] /\ jobs s1 = [])).
    { destruct c as [c|i]; cbn [pexec].
      - destruct c as [a|r|r|x| |x|r b]; cbn [opStep] in *; cbn in Hc; try contradiction.
        + unfold registerObserver, isResolved. cbn. rewrite Hv, andb_false_r. cbn. rewrite Hj. eauto.
        + unfold unregisterObserver. destruct (unregList_ok r (pobs s)) as (l' & b & -> & _). cbn. rewrite Hj. eauto.
        + cbn. rewrite Hj. eauto.
      - rewrite Hj. destruct i; cbn; eauto. }
    destruct X as (s1 & -> & K). cbn. auto. }
  set (s0 := setObs (noteRegistered (mkPr None false [] 0 [] [] [] [] [] [e] []) o) [o] : promise A).
  destruct (G later s0 Hl) as (s' & E & K1 & K2 & K3); [auto|].
  exists s'. split; [reflexivity|]. split; auto. split; auto. split; auto.
  split; [cbn; exact E|]. rewrite K2. auto.
Qed.
Print Assumptions promise_drop_refuted.

(** C112: the record with which wait() waits lies on the stack of the waiter;
    the resolving thread uses it (to wake up the waiter) after it has made the
    result visible, when wait() may have returned already. *)
Theorem promise_wait_refuted : forall A (a : A) o,
  exists s, prun [PDo (PRegister o); PDo (PResolve a); PGo 0; PDo (PWaitEnd o false); PGo 1] pinit = Ok s /\
    gone s = [o] /\ pexec s (PGo 0) = Undef.
Proof.
  intros A a o.
  set (s3 := mkPr (Some a) true [] 0 [JIn o] [(o, a)] [o] [] [a] [] [] : promise A).
  set (s4 := mkPr (Some a) true [] 0 [JIn o; JWait o] [(o, a)] [o] [] [a] [] [] : promise A).
  set (s5 := mkPr (Some a) true [] 0 [JIn o] [(o, a)] [o] [] [a] [] [o] : promise A).
  assert (E3 : prun [PDo (PRegister o); PDo (PResolve a); PGo 0] pinit = Ok s3) by reflexivity.
  assert (E4 : pexec s3 (PDo (PWaitEnd o false)) = Ok s4).
  { unfold pexec, opStep, s3. cbn [delivered existsb fst]. rewrite Nat.eqb_refl. reflexivity. }
  assert (E5 : pexec s4 (PGo 1) = Ok s5).
  { unfold pexec, s4. cbn [jobs nth_error firstn skipn jobStep delivered existsb fst]. rewrite Nat.eqb_refl. reflexivity. }
  exists s5. split; [|split; [reflexivity|]].
  - cbn [prun] in *. destruct (pexec pinit (PDo (PRegister o))) as [x| | |]; cbn [obind] in *; try discriminate.
    destruct (pexec x (PDo (PResolve a))) as [y| | |]; cbn [obind] in *; try discriminate.
    destruct (pexec y (PGo 0)) as [z| | |]; cbn [obind] in *; try discriminate.
    injection E3 as ->. rewrite E4. cbn [obind]. rewrite E5. reflexivity.
  - unfold pexec, s5. cbn [jobs nth_error firstn skipn jobStep]. unfold leave, isGone. cbn [gone existsb].
    rewrite Nat.eqb_refl. reflexivity.
Qed.
Print Assumptions promise_wait_refuted.
