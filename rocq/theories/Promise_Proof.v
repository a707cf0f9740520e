(** Invariant of the future. *)
From Coq Require Import Permutation.
From Verif Require Import Common Promise_Model.

(** ** unregisterObserver *)
Definition cnt (o : nat) (l : list nat) : nat := count_occ Nat.eq_dec l o.

Local Arguments cnt : simpl never.

Lemma cnt_app : forall o a b, cnt o (a ++ b) = cnt o a + cnt o b.
Proof. intros. apply count_occ_app. Qed.

Lemma rotateBack_ok : forall a b, rotateBack (length a) (a ++ b) = Ok (b ++ a).
Proof.
  induction a as [|x a IH]; intros b; cbn; [rewrite app_nil_r; auto|].
  rewrite <- app_assoc. rewrite IH, <- app_assoc. auto.
Qed.

Definition drop (o : nat) (l : list nat) : list nat := filter (fun x => negb (x =? o)) l.

Lemma drop_app : forall o a b, drop o (a ++ b) = drop o a ++ drop o b.
Proof. intros. apply filter_app. Qed.

Lemma drop_cons : forall o x l, drop o (x :: l) = if x =? o then drop o l else x :: drop o l.
Proof. intros. unfold drop. cbn. destruct (x =? o); auto. Qed.

(** either every copy is taken out, or the last one *)
Lemma unregLoop_ok : forall o u suf n found, n = length u + length suf ->
  found = existsb (Nat.eqb o) suf ->
  (In o suf -> n / 2 <= length suf) ->
  exists l b, unregLoop (length u) (length suf) n (drop o suf ++ u) o found = Ok (l, b) /\
    ((l = drop o (u ++ suf) /\ b = existsb (Nat.eqb o) (u ++ suf)) \/
     (b = true /\ exists u1 u2, u ++ suf = u1 ++ o :: u2 /\ ~ In o u2 /\ l = u1 ++ u2)).
Proof.
  intros o. induction u as [|x u IH] using rev_ind; intros suf n found Hn Hf Hs.
  - cbn. eexists _, _. split; [reflexivity|]. left. rewrite app_nil_r. auto.
  - rewrite app_length in *. cbn [length] in *. rewrite Nat.add_1_r. cbn [unregLoop].
    assert (E : drop o suf ++ u ++ [x] = (drop o suf ++ u) ++ [x]) by (rewrite app_assoc; auto).
    rewrite E. destruct ((drop o suf ++ u) ++ [x]) as [|y l0] eqn:El; [destruct (drop o suf ++ u); discriminate|].
    rewrite <- El. rewrite last_last, removelast_last.
    rewrite <- app_assoc. cbn [app].
    destruct (Nat.eqb_spec x o) as [->|Hx].
    + destruct (Nat.ltb_spec (length suf) (n / 2)) as [Hl|Hl].
      * assert (Ho : ~ In o suf) by (intros K; apply Hs in K; lia).
        assert (Ed : drop o suf = suf).
        { unfold drop. clear -Ho. induction suf as [|y l IH]; cbn; auto. destruct (Nat.eqb_spec y o); [subst; destruct Ho; left; auto|].
          cbn. f_equal. apply IH. intros K. apply Ho. right. auto. }
        rewrite Ed. rewrite rotateBack_ok. cbn. eexists _, _. split; [reflexivity|]. right. split; auto.
        exists u, suf. auto.
      * destruct (IH (o :: suf) n true) as (l & b & H & K); cbn [length]; try lia.
        -- cbn. rewrite Nat.eqb_refl. auto.
        -- rewrite drop_cons, Nat.eqb_refl in H. cbn [length] in H. rewrite H, <- app_assoc in *. eauto.
    + destruct (IH (x :: suf) n found) as (l & b & H & K); cbn [length]; try lia.
      * cbn. destruct (Nat.eqb_spec o x); [congruence|]. auto.
      * intros [K|K]; [congruence|]. apply Hs in K. lia.
      * rewrite drop_cons in H. destruct (Nat.eqb_spec x o); [congruence|]. cbn [length app] in H. rewrite H. eauto.
Qed.

Lemma unregList_ok : forall o l, exists l' b, unregList l o = Ok (l', b) /\
    ((l' = drop o l /\ b = existsb (Nat.eqb o) l) \/
     (b = true /\ exists u1 u2, l = u1 ++ o :: u2 /\ ~ In o u2 /\ l' = u1 ++ u2)).
Proof.
  intros o l. unfold unregList. destruct (unregLoop_ok o l [] (length l) false) as (l' & b & H & K); auto.
  { cbn. intros []. }
  exists l', b. rewrite app_nil_r in K. auto.
Qed.

Lemma drop_cnt : forall o l r, cnt r (drop o l) = if r =? o then 0 else cnt r l.
Proof.
  intros o l r. unfold cnt, drop. induction l as [|x l IH]; cbn; [destruct (r =? o); auto|].
  destruct (Nat.eqb_spec x o); cbn; destruct (Nat.eq_dec x r), (Nat.eqb_spec r o); subst; try congruence; auto.
Qed.

Lemma drop_len : forall o l, length (drop o l) + cnt o l = length l.
Proof.
  intros o l. unfold cnt, drop. induction l as [|x l IH]; cbn; auto.
  destruct (Nat.eqb_spec x o), (Nat.eq_dec x o); cbn; try congruence; lia.
Qed.

Lemma cnt_repeat : forall o n r, cnt r (repeat o n) = if r =? o then n else 0.
Proof.
  intros o n r. unfold cnt. induction n as [|n IH]; cbn; [destruct (r =? o); auto|].
  destruct (Nat.eq_dec o r), (Nat.eqb_spec r o); subst; try congruence; auto.
Qed.

Lemma unregList_cnt : forall o l l' b, unregList l o = Ok (l', b) ->
  forall r, cnt r l = cnt r l' + cnt r (repeat o (length l - length l')).
Proof.
  intros o l l' b H r. destruct (unregList_ok o l) as (l1 & b1 & H1 & K). rewrite H in H1. injection H1 as <- <-.
  rewrite cnt_repeat. destruct K as [[-> _]|(_ & u1 & u2 & -> & _ & ->)].
  - rewrite drop_cnt. pose proof (drop_len o l). destruct (Nat.eqb_spec r o); subst; lia.
  - rewrite !cnt_app, !app_length. unfold cnt. cbn. destruct (Nat.eq_dec o r), (Nat.eqb_spec r o); subst; try congruence; lia.
Qed.

(** ** The invariant *)
Section Inv.
Context {A : Type}.
Implicit Types (s : promise A) (j : job A).

Definition flight j : list nat :=
  match j with
  | JCall o | JDirect o => [o]
  | JCancel l _ | JInC _ l _ => l
  | _ => []
  end.
Definition looping j : nat := match j with JCall _ | JIn _ | JLoop => 1 | _ => 0 end.

Definition flights (l : list (job A)) := flat_map flight l.
Definition loops (l : list (job A)) := list_sum (map looping l).

Definition jobOk (v : option A) (cs : list A) j : Prop :=
  match j with
  | JCall _ | JDirect _ => v <> None
  | JCancel _ e | JInC _ _ e => In e cs
  | JWait _ => False
  | _ => True
  end.

(** [fs]: observers in flight, [n]: number of resolution loops, outside of the state *)
Record core (s : promise A) (fs : list nat) (n : nat) : Prop := {
  p_loop : n = if presolving s then 1 else 0;
  p_val : presolving s = true -> pvalue s <> None;
  p_done : pvalue s <> None -> presolving s = false -> pobs s = [];
  p_first : pvalue s = hd_error (offered s);
  p_count : forall o, cnt o (registered s) =
     cnt o (map fst (delivered s)) + cnt o (pobs s) + cnt o fs + cnt o (withdrawn s);
  p_what : forall o a, In (o, a) (delivered s) -> pvalue s = Some a \/ In a (cancels s);
  p_gone : gone s = []
}.

Definition pinv (s : promise A) : Prop :=
  core s (flights (jobs s)) (loops (jobs s)) /\ Forall (jobOk (pvalue s) (cancels s)) (jobs s).

Lemma flights_app : forall a b, flights (a ++ b) = flights a ++ flights b.
Proof. intros. apply flat_map_app. Qed.
Lemma loops_app : forall a b, loops (a ++ b) = loops a + loops b.
Proof. intros. unfold loops. rewrite map_app, list_sum_app. auto. Qed.

(** [fs] only matters up to order *)
Lemma core_perm : forall s fs fs' n, (forall o, cnt o fs = cnt o fs') -> core s fs n -> core s fs' n.
Proof. intros s fs fs' n H [H1 H2 H3 H4 H5 H6 H7]. constructor; auto. intros o. rewrite <- H. auto. Qed.

Definition keeps (s s' : promise A) : Prop :=
  (pvalue s <> None -> pvalue s' = pvalue s) /\ (forall e, In e (cancels s) -> In e (cancels s')) /\ jobs s' = jobs s.

Lemma jobOk_keeps : forall s s' j, keeps s s' -> jobOk (pvalue s) (cancels s) j -> jobOk (pvalue s') (cancels s') j.
Proof. intros s s' j (K1 & K2 & _). destruct j; cbn; auto; intros H; rewrite K1; auto. Qed.

Lemma loopRound_ok : forall s fs n s' l, core s fs (S n) -> loopRound s = (s', l) ->
  core s' (flights l ++ fs) (loops l + n) /\ Forall (jobOk (pvalue s') (cancels s')) l /\ keeps s s'.
Proof.
  intros s fs n s' l [H1 H2 H3 H4 H5 H6 H7] E. unfold loopRound in E.
  destruct (presolving s) eqn:Er; [|discriminate]. injection H1 as ->.
  destruct (pobs s) as [|o q] eqn:Eo; injection E as <- <-; cbn.
  - split; [|split; [auto|repeat split; auto]]. constructor; cbn; rewrite ?Eo; auto.
  - split; [|split; [constructor; cbn; auto|repeat split; auto]]. constructor; cbn; auto.
    + rewrite Er. auto.
    + congruence.
    + intros r. rewrite H5. unfold cnt. cbn. destruct (Nat.eq_dec o r); lia.
Qed.

Lemma enter_ok : forall s fs n o a, core s (o :: fs) n -> (pvalue s = Some a \/ In a (cancels s)) ->
  exists s', enter s o a = Ok s' /\ core s' fs n /\ keeps s s'.
Proof.
  intros s fs n o a [H1 H2 H3 H4 H5 H6 H7] Ha. unfold enter, isGone. rewrite H7. cbn.
  eexists. split; [reflexivity|]. split; [|repeat split; auto]. constructor; cbn; auto.
  - intros r. rewrite H5. unfold cnt. cbn. destruct (Nat.eq_dec o r); lia.
  - intros r b [K|K]; [injection K as -> ->; auto|eauto].
Qed.

Lemma jobStep_ok : forall s j fs n, core s (flight j ++ fs) (looping j + n) -> jobOk (pvalue s) (cancels s) j ->
  exists s' l, jobStep s j = Ok (s', l) /\ core s' (flights l ++ fs) (loops l + n) /\
    Forall (jobOk (pvalue s') (cancels s')) l /\ keeps s s'.
Proof.
  intros s j fs n H Hj. pose proof (p_gone _ _ _ H) as Hg.
  assert (L : forall o, leave s o = Ok tt) by (intros o; unfold leave, isGone; rewrite Hg; auto).
  assert (R : keeps s s) by (repeat split; auto).
  destruct j as [o|o| |o|o|l e|o l e|o]; cbn [flight looping jobOk] in *; cbn [jobStep]; rewrite ?L; cbn [obind].
  - destruct (pvalue s) as [a|] eqn:Ev; [|congruence].
    destruct (enter_ok s fs (1 + n) o a H (or_introl Ev)) as (s' & -> & C & K). cbn [obind].
    eexists _, _. split; [reflexivity|]. split; [exact C|]. split; [constructor; cbn; auto|auto].
  - eexists _, _. split; [reflexivity|]. split; [exact H|]. split; [constructor; cbn; auto|auto].
  - destruct (loopRound s) as [s' l] eqn:E. destruct (loopRound_ok _ _ _ _ _ H E) as (C & J & K). eauto 10.
  - destruct (pvalue s) as [a|] eqn:Ev; [|congruence].
    destruct (enter_ok s fs n o a H (or_introl Ev)) as (s' & -> & C & K). cbn [obind].
    eexists _, _. split; [reflexivity|]. split; [exact C|]. split; [constructor; cbn; auto|auto].
  - eexists _, _. split; [reflexivity|]. split; [exact H|]. split; [constructor; cbn; auto|auto].
  - destruct l as [|o l].
    + eexists _, _. split; [reflexivity|]. split; [exact H|]. split; [constructor; cbn; auto|auto].
    + destruct (enter_ok s (l ++ fs) n o e H (or_intror Hj)) as (s' & -> & C & K). cbn [obind].
      eexists _, _. split; [reflexivity|]. split; [|split; [constructor; cbn; auto; apply K; auto|auto]].
      cbn. rewrite app_nil_r. auto.
  - eexists _, _. split; [reflexivity|]. split; [|split; [constructor; cbn; auto|auto]]. cbn. rewrite app_nil_r. auto.
  - destruct Hj.
Qed.

Lemma unregister_ok : forall s fs n o, core s fs n ->
  exists s' b, unregisterObserver s o = Ok (s', b) /\ core s' fs n /\ keeps s s'.
Proof.
  intros s fs n o [H1 H2 H3 H4 H5 H6 H7]. unfold unregisterObserver.
  destruct (unregList_ok o (pobs s)) as (l & b & E & K). rewrite E. cbn [obind].
  eexists _, _. split; [reflexivity|]. split; [|repeat split; auto]. constructor; cbn; auto.
  - intros Hv Hr. rewrite (H3 Hv Hr) in K. destruct K as [[-> _]|(_ & u1 & u2 & K & _)]; auto. destruct u1; discriminate.
  - intros r. rewrite H5, cnt_app, (unregList_cnt _ _ _ _ E r). lia.
Qed.

Lemma cancel_ok : forall s fs n e s' l, core s fs n -> cancel s e = (s', l) ->
  core s' (flights l ++ fs) (loops l + n) /\ Forall (jobOk (pvalue s') (cancels s')) l /\ keeps s s'.
Proof.
  intros s fs n e s' l [H1 H2 H3 H4 H5 H6 H7] E. injection E as <- <-. split; [|split].
  - constructor; cbn; auto.
    + intros r. rewrite H5, app_nil_r, cnt_app. change (cnt r []) with 0. lia.
    + intros o a Ho. destruct (H6 o a Ho); auto.
  - constructor; cbn; auto.
  - repeat split; cbn; auto.
Qed.

Definition noWait (c : pstep A) : Prop := match c with PDo (PWaitEnd _ _) => False | _ => True end.

Lemma opStep_ok : forall s c fs n, core s fs n -> noWait (PDo c) ->
  exists s' l, opStep s c = Ok (s', l) /\ core s' (flights l ++ fs) (loops l + n) /\
    Forall (jobOk (pvalue s') (cancels s')) l /\ keeps s s'.
Proof.
  intros s c fs n H Hw. assert (R : keeps s s) by (repeat split; auto).
  destruct c as [a|o|o|e| |e|o b]; cbn [opStep].
  - destruct (resolveInternal s a) as [s' l] eqn:E. exists s', l. split; auto.
    unfold resolveInternal, isResolved in E. cbn [noteOffered pvalue] in E.
    destruct H as [H1 H2 H3 H4 H5 H6 H7]. destruct (pvalue s) as [v|] eqn:Ev.
    + injection E as <- <-. cbn. split; [|repeat split; auto]. constructor; cbn; auto; try congruence.
      * rewrite Ev. auto.
      * rewrite Ev, H4. destruct (offered s); cbn in *; [discriminate|auto].
      * rewrite Ev. auto.
    + assert (Er : presolving s = false) by (destruct (presolving s); auto; destruct (H2 eq_refl); auto).
      rewrite Er in H1. subst n.
      assert (C : core (setValue (setResolving (noteOffered s a) true) (Some a)) fs 1).
      { constructor; cbn; auto; try discriminate.
        - destruct (offered s); cbn in *; [auto|discriminate].
        - intros o b K. destruct (H6 o b K); [discriminate|auto]. }
      destruct (loopRound_ok _ _ _ _ _ C E) as (C1 & C2 & C3). split; auto. split; auto.
      destruct C3 as (K1 & K2 & K3). repeat split; auto. congruence.
  - destruct (registerObserver s o) as [s' l] eqn:E. exists s', l. split; auto.
    unfold registerObserver, isResolved in E. cbn in E. destruct H as [H1 H2 H3 H4 H5 H6 H7].
    destruct (negb (presolving s) && match pvalue s with Some _ => true | None => false end) eqn:Eb; injection E as <- <-; cbn.
    + apply andb_prop in Eb as [Eb1 Eb2]. split; [|split; [constructor; cbn; auto; destruct (pvalue s); discriminate|repeat split; auto]].
      constructor; cbn; auto. intros r. specialize (H5 r). unfold cnt in *. cbn. destruct (Nat.eq_dec o r); lia.
    + split; [|repeat split; auto]. constructor; cbn; auto.
      * intros Hv Hr. rewrite Hr in Eb. destruct (pvalue s); [discriminate|congruence].
      * intros r. specialize (H5 r). rewrite cnt_app. unfold cnt in *. cbn. destruct (Nat.eq_dec o r); lia.
  - destruct (unregister_ok _ _ _ o H) as (s' & b & E & C & K). rewrite E. cbn. eexists _, _. split; [reflexivity|]. auto.
  - destruct (cancel s e) as [s' l] eqn:E. exists s', l. split; auto. eapply cancel_ok; eauto.
  - eexists _, _. split; [reflexivity|]. split; [|repeat split; auto]. destruct H. constructor; auto.
  - destruct (prefs s) as [|k]; [eexists _, _; split; [reflexivity|]; cbn; auto|].
    assert (H' : core (setRefs s k) fs n) by (destruct H; constructor; auto).
    destruct (k =? 0).
    + destruct (cancel (setRefs s k) e) as [s' l] eqn:E. exists s', l. split; auto.
      destruct (cancel_ok _ _ _ _ _ _ H' E) as (C1 & C2 & C3). auto.
    + eexists _, _. split; [reflexivity|]. cbn. split; auto.
  - destruct Hw.
Qed.

Lemma core_jobs : forall s fs n l, core s fs n -> core (setJobs s l) fs n.
Proof. intros s fs n l []. constructor; auto. Qed.

Lemma pexec_ok : forall s c, pinv s -> noWait c -> exists s', pexec s c = Ok s' /\ pinv s'.
Proof.
  intros s [c|i] [Hc Hj] Hw; cbn [pexec].
  - destruct (opStep_ok s c _ _ Hc Hw) as (s' & l & E & C & J & K). rewrite E. cbn [obind].
    eexists. split; [reflexivity|]. split.
    + apply core_jobs. cbn [jobs setJobs]. pose proof K as (_ & _ & ->).
      apply (core_perm _ (flights l ++ flights (jobs s))).
      * intros o. rewrite flights_app, !cnt_app. lia.
      * rewrite loops_app, Nat.add_comm. auto.
    + cbn. pose proof K as (_ & _ & ->). apply Forall_app. split; auto.
      eapply Forall_impl; [|exact Hj]. intros j. apply jobOk_keeps; auto.
  - destruct (nth_error (jobs s) i) as [j|] eqn:Ei; [|eexists; split; [reflexivity|split; auto]].
    apply nth_error_split in Ei as (a & b & Ei & <-). rewrite Ei in Hc, Hj.
    assert (F1 : firstn (length a) (jobs s) = a).
    { rewrite Ei, firstn_app, Nat.sub_diag, firstn_all, firstn_O, app_nil_r. auto. }
    assert (F2 : skipn (S (length a)) (jobs s) = b).
    { rewrite Ei. change (S (length a)) with (1 + length a). rewrite Nat.add_comm.
      replace (length a + 1) with (length (a ++ [j])) by (rewrite app_length; auto).
      replace (a ++ j :: b) with ((a ++ [j]) ++ b) by (rewrite <- app_assoc; auto).
      rewrite skipn_app, skipn_all, Nat.sub_diag. auto. }
    rewrite F1, F2. apply Forall_app in Hj as [Hj1 Hj2]. apply Forall_cons_iff in Hj2 as [Hj3 Hj4].
    destruct (jobStep_ok s j (flights (a ++ b)) (loops (a ++ b))) as (s' & l & E & C & J & K); auto.
    + rewrite flights_app, loops_app in *. cbn in Hc.
      replace (looping j + (loops a + loops b)) with (loops a + (looping j + list_sum (map looping b))) by (unfold loops; lia).
      eapply core_perm; [|exact Hc]. intros o. rewrite !cnt_app. unfold flights. lia.
    + rewrite E. cbn [obind]. eexists. split; [reflexivity|]. split.
      * apply core_jobs. cbn [jobs setJobs]. rewrite !flights_app, !loops_app in *.
        replace (loops a + (loops l + loops b)) with (loops l + (loops a + loops b)) by lia.
        eapply core_perm; [|exact C]. intros o. rewrite !cnt_app. lia.
      * cbn. apply Forall_app. split; [|apply Forall_app; split; auto].
        -- eapply Forall_impl; [|exact Hj1]. intros j'. apply jobOk_keeps; auto.
        -- eapply Forall_impl; [|exact Hj4]. intros j'. apply jobOk_keeps; auto.
Qed.

Lemma pinv_init : pinv pinit.
Proof. split; [|constructor]. constructor; cbn; auto; try discriminate. Qed.

Lemma prun_ok : forall sched s, pinv s -> Forall noWait sched -> exists s', prun sched s = Ok s' /\ pinv s'.
Proof.
  induction sched as [|c l IH]; cbn; intros s I Hw; eauto. inversion Hw as [|? ? HA HB]; subst.
  destruct (pexec_ok s c I HA) as (s1 & -> & I1). cbn. auto.
Qed.

End Inv.
