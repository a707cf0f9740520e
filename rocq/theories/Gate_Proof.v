(** Invariant of the gate. *)
From Verif Require Import Common SyncPt_Spec SyncPt_Model SyncPt_Proof Gate_Model.

Definition gslot (c : gpc) : option nat :=
  match c with
  | GIdle | GOpening => None
  | GRead1 p | GSelf p | GAdd p | GRead2 p | GRemove p | GSelf2 p | GSleep p | GGiveUp p => Some p
  end.

Definition queued (m : mem) (q : list nat) (p : nat) : Prop :=
  exists g, flags m p = Some (true, g, true) /\ (g = false -> In p q).

Definition slotInv (m : mem) (q : list nat) (op : bool) (opening : Prop) (c : gpc) : Prop :=
  match c with
  | GIdle | GOpening => True
  | GRead1 p | GSelf p | GAdd p => nth_error m p = Some freshSlot
  | GRead2 p | GRemove p | GGiveUp p => queued m q p
  | GSelf2 p => exists g, flags m p = Some (true, g, true) /\ ~ In p q
  | GSleep p => exists c g, flags m p = Some (c, g, true) /\
                  (g = false -> c = true /\ In p q /\ (op = true -> opening))
  end.

Definition opening (s : gate) : Prop := exists u, gpcs s u = GOpening.

Record ginv (s : gate) (q : list nat) : Prop := {
  g_chain : chain (gmem s) (gcq s) q;
  g_nodup : NoDup q;
  g_slot : forall t, slotInv (gmem s) q (isOpen s) (opening s) (gpcs s t);
  g_one : forall t u p, gslot (gpcs s t) = Some p -> gslot (gpcs s u) = Some p -> t = u
}.

Lemma slotInv_imp : forall m q op (P P' : Prop) c, (P -> P') -> slotInv m q op P c -> slotInv m q op P' c.
Proof.
  intros m q op P P' c H. destruct c; cbn; auto. intros (c & g & F & G). exists c, g. split; auto.
  intros K. destruct (G K) as (G1 & G2 & G3). auto.
Qed.

Lemma slot_lt : forall m q op P c p, slotInv m q op P c -> gslot c = Some p -> p < length m.
Proof.
  intros m q op P c p I H.
  destruct c; try discriminate; injection H as <-; cbn in I;
    try (apply nth_error_Some; congruence);
    [| |destruct I as (g & I & _)|destruct I as (c & g & I & _)|];
    try (destruct I as (g & I & _)); eapply flags_lt; eauto.
Qed.

(** an operation on the slot of one thread leaves the others alone *)
Lemma slotInv_keep : forall m m' q q' op P c,
  (forall p, gslot c = Some p -> flags m' p = flags m p /\
      (forall x, nth_error m p = Some x -> ~ In p q -> nth_error m' p = Some x) /\ (In p q <-> In p q')) ->
  chain m None q \/ True ->
  (forall p, nth_error m p = Some freshSlot -> ~ In p q) ->
  slotInv m q op P c -> slotInv m' q' op P c.
Proof.
  intros m m' q q' op P c H _ Hf I.
  destruct c; cbn in *; auto; destruct (H p eq_refl) as (H1 & H2 & H3); auto.
  - destruct I as (g & I1 & I2). exists g. rewrite H1. split; auto. intros K. apply H3; auto.
  - destruct I as (g & I1 & I2). exists g. rewrite H1. split; auto. intros K. apply H3; auto.
  - destruct I as (g & I1 & I2). exists g. rewrite H1. split; auto. rewrite <- H3. auto.
  - destruct I as (c & g & I1 & I2). exists c, g. rewrite H1. split; auto. rewrite <- H3. auto.
  - destruct I as (g & I1 & I2). exists g. rewrite H1. split; auto. intros K. apply H3; auto.
Qed.

Lemma kept_eq : forall m m' q p x, nextKept m m' q -> (flags m' p = flags m p) ->
  nth_error m p = Some x -> ~ In p q -> nth_error m' p = Some x.
Proof.
  intros m m' q p x K F Hx Hn. unfold flags in F. rewrite Hx in F. cbn in F.
  destruct (nth_error m' p) as [y|] eqn:E; [|discriminate]. cbn in F.
  destruct (K p y E Hn) as (z & Ez & En). rewrite Hx in Ez. injection Ez as <-.
  destruct x, y; cbn in *. congruence.
Qed.

Lemma fresh_notin : forall m cq q p, chain m cq q -> nth_error m p = Some freshSlot -> ~ In p q.
Proof.
  intros m cq q p Hc Hp K. apply (seg_flags _ _ _ _ _ Hc) in K. unfold flags in K. rewrite Hp in K. discriminate.
Qed.

Lemma kill_kept : forall m p m' q, kill m p = Ok m' -> nextKept m m' q.
Proof.
  unfold kill. intros m p m' q H. apply obind_ok in H as (x & Hx & H). injection H as <-.
  eapply nextKept_upd; eauto using get_inv.
Qed.

(** thread [t] changes from place [c0] to [c1] and the slots from [m] to [m'] *)
Lemma move_inv : forall s q t m' cq' q' c1 res,
  ginv s q -> gpcs s t <> GOpening -> (c1 <> GOpening) ->
  chain m' cq' q' -> NoDup q' ->
  (nextKept (gmem s) m' q \/
   (forall r x, gslot (gpcs s t) <> Some r -> nth_error (gmem s) r = Some x -> nth_error m' r = Some x)) ->
  (forall r, gslot (gpcs s t) <> Some r -> flags m' r = flags (gmem s) r) ->
  (forall r, gslot (gpcs s t) <> Some r -> (In r q <-> In r q')) ->
  slotInv m' q' (isOpen s) (opening s) c1 -> (gslot c1 = gslot (gpcs s t) \/ gslot c1 = None) ->
  ginv (mkG (isOpen s) m' cq' (fun u => if u =? t then c1 else gpcs s u) res) q'.
Proof.
  intros s q t m' cq' q' c1 res [Ic Id Is Io] Ht Hc1 Hc Hn Hk Hf Hq Hi Hs.
  assert (Op : opening s <-> opening (mkG (isOpen s) m' cq' (fun u => if u =? t then c1 else gpcs s u) res)).
  { unfold opening; cbn. split; intros (u & Hu); exists u; destruct (Nat.eqb_spec u t); subst; auto; congruence. }
  constructor; cbn; auto.
  - intros u. apply (slotInv_imp _ _ _ (opening s)); [tauto|].
    destruct (Nat.eqb_spec u t); auto.
    apply (slotInv_keep (gmem s) m' q q'); auto.
    + intros p Hp. assert (Hd : gslot (gpcs s t) <> Some p) by (intros K; apply n; eapply Io; eauto).
      split; auto. split; auto. intros x Hx Hnq. destruct Hk as [Hk|Hk]; [eapply kept_eq; eauto|auto].
    + intros p. apply (fresh_notin _ _ _ _ Ic).
  - intros u v p. destruct (Nat.eqb_spec u t), (Nat.eqb_spec v t); subst; auto; intros K1 K2.
    + apply (Io t v p); auto. destruct Hs; congruence.
    + apply (Io u t p); auto. destruct Hs; congruence.
    + eauto.
Qed.

Lemma finish_inv : forall s q t p b c g, ginv s q -> gslot (gpcs s t) = Some p ->
  flags (gmem s) p = Some (c, g, true) -> ~ In p q ->
  exists s', finish s t p b = Ok s' /\ ginv s' q.
Proof.
  intros s q t p b c g I Hp Hf Hn. destruct (kill_ok _ _ _ _ Hf) as (m' & K1 & K2 & K3).
  unfold finish. rewrite K1. cbn. eexists. split; [reflexivity|]. unfold setPc; cbn.
  pose proof (kill_kept _ _ _ q K1). destruct I as [Ic Id Is Io].
  eapply move_inv; eauto; cbn; auto; try discriminate.
  - constructor; auto.
  - intros K. rewrite K in Hp. discriminate.
  - apply K3; auto.
  - intros r Hr. rewrite K2. destruct (Nat.eqb_spec r p); [congruence|auto].
  - tauto.
Qed.

Lemma exec_ginv : forall tc s q, ginv s q -> exists s' q', gexec tc s = Ok s' /\ ginv s' q'.
Proof.
  intros [t c] s q I. pose proof I as [Ic Id Is Io]. pose proof (Is t) as It. unfold gexec.
  destruct (gpcs s t) as [| |p|p|p|p|p|p|p|p] eqn:Et; cbn [slotInv] in It.
  - destruct c.
    + (* open *)
      eexists _, q. split; [reflexivity|]. constructor; cbn; auto.
      * intros u. destruct (Nat.eqb_spec u t); cbn; auto. specialize (Is u). destruct (gpcs s u); cbn in *; auto.
        destruct Is as (c & g & F & G). exists c, g. split; auto. intros K. destruct (G K) as (G1 & G2 & _).
        split; auto. split; auto. intros _. exists t. cbn. rewrite Nat.eqb_refl. auto.
      * intros u v p. destruct (u =? t), (v =? t); cbn; try discriminate. eauto.
    + (* close *)
      eexists _, q. split; [reflexivity|]. constructor; cbn; auto.
      intros u. specialize (Is u). destruct (gpcs s u); cbn in *; auto.
      destruct Is as (c & g & F & G). exists c, g. split; auto. intros K. destruct (G K) as (G1 & G2 & _).
      split; auto. split; auto. discriminate.
    + (* wait *)
      set (p := length (gmem s)).
      assert (Hl : forall u r, gslot (gpcs s u) = Some r -> r <> p).
      { intros u r Hr. pose proof (slot_lt _ _ _ _ _ _ (Is u) Hr). unfold p. lia. }
      eexists _, q. split; [reflexivity|]. constructor; cbn; auto.
      * apply seg_new; auto.
      * intros u. apply (slotInv_imp _ _ _ (opening s)).
        { intros (v & Hv). exists v. cbn. destruct (Nat.eqb_spec v t); [congruence|auto]. }
        destruct (Nat.eqb_spec u t).
        -- cbn. unfold p. rewrite nth_error_app2, Nat.sub_diag; auto.
        -- apply (slotInv_keep (gmem s) _ q q); auto; [|intros r; apply (fresh_notin _ _ _ _ Ic)].
           intros r Hr. pose proof (Hl u r Hr). split; [apply flags_new; auto|]. split; [|tauto].
           intros x Hx _. rewrite nth_error_app1; auto. apply nth_error_Some. congruence.
      * intros u v r. destruct (Nat.eqb_spec u t), (Nat.eqb_spec v t); subst; cbn; intros K1 K2; auto.
        -- injection K1 as <-. apply Hl in K2. unfold p in K2. congruence.
        -- injection K2 as <-. apply Hl in K1. unfold p in K1. congruence.
        -- eauto.
    + eauto.
  - (* opening *)
    destruct (notifyAll_ok _ _ _ Ic Id) as (m' & A1 & A2). rewrite A1. cbn [obind].
    assert (K : nextKept (gmem s) m' q).
    { unfold notifyAll in A1. apply obind_ok in A1 as (m1 & A1 & A3). injection A3 as <- _.
      apply (notifyChain_kept _ _ _ _ q) in A1. tauto. }
    eexists _, []. split; [reflexivity|]. constructor; cbn; auto.
    + constructor.
    + intros u. destruct (Nat.eqb_spec u t); cbn; auto. pose proof (Is u) as J.
      destruct (gpcs s u) as [| |p|p|p|p|p|p|p|p]; cbn in *; auto;
        try (assert (isIn p q = false) by (apply isIn_false; eapply fresh_notin; eauto);
             eapply kept_eq; eauto; [rewrite A2, H; auto|apply isIn_false; auto]).
      * destruct J as (g & F & G). destruct (isIn p q) eqn:E.
        -- exists true. rewrite A2, E. split; auto. discriminate.
        -- exists g. rewrite A2, E. split; auto. intros Hg. apply G in Hg. apply isIn_false in E. contradiction.
      * destruct J as (g & F & G). destruct (isIn p q) eqn:E.
        -- exists true. rewrite A2, E. split; auto. discriminate.
        -- exists g. rewrite A2, E. split; auto. intros Hg. apply G in Hg. apply isIn_false in E. contradiction.
      * destruct J as (g & F & G). apply isIn_false in G. exists g. rewrite A2, G. auto.
      * destruct J as (c1 & g & F & G). destruct (isIn p q) eqn:E.
        -- exists true, true. rewrite A2, E. split; auto. discriminate.
        -- exists c1, g. rewrite A2, E. split; auto. intros Hg. apply G in Hg. apply isIn_false in E. tauto.
      * destruct J as (g & F & G). destruct (isIn p q) eqn:E.
        -- exists true. rewrite A2, E. split; auto. discriminate.
        -- exists g. rewrite A2, E. split; auto. intros Hg. apply G in Hg. apply isIn_false in E. contradiction.
    + intros u v p. destruct (u =? t), (v =? t); cbn; try discriminate. eauto.
  - (* first test *)
    eexists _, q. split; [reflexivity|].
    apply (move_inv s q t); auto using nextKept_refl; rewrite ?Et; try tauto; try (destruct (isOpen s); discriminate).
    + destruct (isOpen s); cbn; auto.
    + destruct (isOpen s); cbn; auto.
  - (* self *)
    assert (F : flags (gmem s) p = Some (false, false, true)) by (unfold flags; rewrite It; auto).
    pose proof (fresh_notin _ _ _ _ Ic It) as Np.
    destruct (notify_ok _ _ _ _ F) as (m' & N1 & N2 & N3). rewrite N1. cbn [obind].
    eexists _, q. split; [reflexivity|].
    apply (move_inv s q t); auto; rewrite ?Et; cbn; try tauto; try discriminate.
    + apply N3; auto.
    + left. eapply notify_kept; eauto.
    + intros r Hr. rewrite N2. destruct (Nat.eqb_spec r p); [congruence|auto].
    + exists false, true. rewrite N2, Nat.eqb_refl. split; auto. discriminate.
  - (* add *)
    assert (F : flags (gmem s) p = Some (false, false, true)) by (unfold flags; rewrite It; auto).
    pose proof (fresh_notin _ _ _ _ Ic It) as Np.
    destruct (add_lk_ok (gmem s) (gcq s) q p _ F Ic Np) as (m' & A1 & A2 & A3).
    assert (X : get (gmem s) p = Ok freshSlot) by (apply get_ok; auto).
    unfold add. rewrite X. cbn [obind freshSlot pnext psignaled charged orb]. rewrite A1. cbn [obind].
    eexists _, (p :: q). split; [reflexivity|].
    apply (move_inv s q t); auto; rewrite ?Et; cbn; try tauto; try discriminate.
    + constructor; auto.
    + right. unfold add_lk in A1. rewrite X in A1. cbn in A1. injection A1 as <-.
      intros r y Hr Hy. rewrite nth_error_upd_ne; congruence.
    + intros r Hr. rewrite A3. destruct (Nat.eqb_spec r p); [congruence|auto].
    + intros r Hr. split; [tauto|]. intros [K|K]; [congruence|auto].
    + exists false. rewrite A3, Nat.eqb_refl. split; [reflexivity|]. intros _. left. reflexivity.
  - (* second test *)
    eexists _, q. split; [reflexivity|].
    apply (move_inv s q t); auto using nextKept_refl; rewrite ?Et; try tauto; try (destruct (isOpen s); discriminate).
    + destruct (isOpen s) eqn:Eo; cbn; auto. destruct It as (g & F & G). exists true, g. split; auto.
      intros K. repeat split; auto. discriminate.
    + destruct (isOpen s); cbn; auto.
  - (* remove *)
    destruct It as (g & F & G).
    destruct (remove_ok _ _ _ _ _ F Ic Id) as (m' & cq' & R1 & R2 & R3). rewrite R1. cbn [obind].
    destruct (remove_kept _ _ _ _ _ _ _ Ic R1) as [K _].
    eexists _, (without p q). split; [reflexivity|].
    apply (move_inv s q t); auto; rewrite ?Et; cbn; try tauto; try discriminate.
    + apply without_NoDup; auto.
    + intros r Hr. rewrite in_without. split; [|tauto]. intros Hi. split; congruence.
    + exists g. rewrite R3. split; auto. rewrite in_without. tauto.
  - (* self again *)
    destruct It as (g & F & Np).
    destruct (notify_ok _ _ _ _ F) as (m' & N1 & N2 & N3). rewrite N1. cbn [obind].
    eexists _, q. split; [reflexivity|].
    apply (move_inv s q t); auto; rewrite ?Et; cbn; try tauto; try discriminate.
    + apply N3; auto.
    + left. eapply notify_kept; eauto.
    + intros r Hr. rewrite N2. destruct (Nat.eqb_spec r p); [congruence|auto].
    + exists true, true. rewrite N2, Nat.eqb_refl. split; auto. discriminate.
  - (* sleep *)
    destruct It as (c1 & g & F & G). pose proof F as F'. apply flags_get in F' as (x & X1 & X2 & X3 & X4 & X5).
    rewrite X1. cbn [obind]. rewrite X4. destruct g.
    + destruct (finish_inv s q t p true c1 true I) as (s' & E & I'); auto; [rewrite Et; auto| |eauto].
      intros K. apply (seg_flags _ _ _ _ _ Ic) in K. congruence.
    + destruct c; eauto. eexists _, q. split; [reflexivity|].
      apply (move_inv s q t); auto using nextKept_refl; rewrite ?Et; cbn; try tauto; try discriminate.
      destruct (G eq_refl) as (-> & G2 & _). exists false. auto.
  - (* give up *)
    destruct It as (g & F & G).
    destruct (remove_ok _ _ _ _ _ F Ic Id) as (m' & cq' & R1 & R2 & R3). rewrite R1. cbn [obind].
    destruct (remove_kept _ _ _ _ _ _ _ Ic R1) as [K _].
    assert (I' : ginv (mkG (isOpen s) m' cq' (fun u => if u =? t then GSelf2 p else gpcs s u) (results s)) (without p q)).
    { apply (move_inv s q t); auto; rewrite ?Et; cbn; try tauto; try discriminate.
      + apply without_NoDup; auto.
      + intros r Hr. rewrite in_without. split; [|tauto]. intros Hi. split; congruence.
      + exists g. rewrite R3. split; auto. rewrite in_without. tauto. }
    destruct (finish_inv _ _ t p (negb (isIn p q)) true g I') as (s' & E & I2).
    + cbn. rewrite Nat.eqb_refl. auto.
    + cbn. rewrite R3. auto.
    + rewrite in_without. tauto.
    + unfold finish in *. cbn in *. destruct (kill m' p) as [m2| | |]; try discriminate. cbn in *.
      injection E as <-. eexists _, (without p q). split; [reflexivity|].
      destruct I2 as [J1 J2 J3 J4]. cbn in *. constructor; cbn; auto.
      * intros u. specialize (J3 u). destruct (u =? t) eqn:E; cbn in *; auto.
        eapply slotInv_imp; [|eauto]. intros (v & Hv). exists v. cbn in *. destruct (v =? t); auto.
      * intros u v r. specialize (J4 u v r). destruct (u =? t), (v =? t); auto.
Qed.

Lemma ginv_init : forall b, ginv (ginit b) [].
Proof. intros b. constructor; cbn; auto. constructor. discriminate. Qed.

Lemma run_ginv : forall sched s q, ginv s q -> exists s' q', grun sched s = Ok s' /\ ginv s' q'.
Proof.
  induction sched as [|tc l IH]; cbn; intros s q I; eauto.
  destruct (exec_ginv tc s q I) as (s1 & q1 & -> & I1). cbn. eauto.
Qed.
