(** Invariant of the semaphore. *)
From Verif Require Import Common SyncPt_Spec SyncPt_Model SyncPt_Proof Semaphore_Model.

(** *** counting the woken slots *)

Definition woken (m : mem) : nat := length (filter (fun x => plive x && psignaled x) m).

Fixpoint cnt (f : nat -> bool) (n : nat) : nat :=
  match n with O => 0 | S n' => cnt f n' + (if f n' then 1 else 0) end.

Lemma cnt_ext : forall f g n, (forall r, r < n -> f r = g r) -> cnt f n = cnt g n.
Proof. induction n; cbn; intros H; auto. rewrite IHn, H; auto. Qed.

Lemma cnt_point : forall f g p n, p < n -> (forall r, r <> p -> f r = g r) ->
  cnt f n + (if g p then 1 else 0) = cnt g n + (if f p then 1 else 0).
Proof.
  induction n; intros Hp H; [lia|]. cbn. destruct (Nat.eq_dec p n).
  - subst p. rewrite (cnt_ext f g n); [lia|]. intros r Hr. apply H. lia.
  - rewrite (H n); [|auto]. specialize (IHn ltac:(lia) H). lia.
Qed.

Definition wk (m : mem) (r : nat) : bool := match flags m r with Some (_, true, true) => true | _ => false end.

Lemma woken_cnt : forall m, woken m = cnt (wk m) (length m).
Proof.
  induction m as [|x m IH] using rev_ind; auto.
  unfold woken in *. rewrite filter_app, !app_length. cbn [length]. rewrite Nat.add_1_r. cbn [cnt].
  rewrite (cnt_ext (wk (m ++ [x])) (wk m)), <- IH.
  - f_equal. unfold wk. rewrite flags_new_eq. cbn. destruct (plive x), (psignaled x); auto.
  - intros r Hr. unfold wk. rewrite flags_new; auto. lia.
Qed.

Lemma flags_none : forall m r, flags m r = None <-> length m <= r.
Proof.
  intros. unfold flags. rewrite <- nth_error_None. destruct (nth_error m r); cbn; split; congruence.
Qed.
Lemma len_flags : forall m m', (forall r, flags m' r = None <-> flags m r = None) -> length m' = length m.
Proof.
  intros m m' H. pose proof (H (length m)) as H1. pose proof (H (length m')) as H2.
  rewrite !flags_none in H1. rewrite !flags_none in H2. lia.
Qed.

Lemma woken_same : forall m m', (forall r, flags m' r = flags m r) -> woken m' = woken m.
Proof.
  intros m m' H. rewrite !woken_cnt. rewrite (len_flags m m'); [|intros; rewrite H; tauto].
  apply cnt_ext. intros. unfold wk. rewrite H. auto.
Qed.
Lemma woken_point : forall m m' p c g l c' g' l', flags m p = Some (c, g, l) ->
  (forall r, flags m' r = if r =? p then Some (c', g', l') else flags m r) ->
  woken m' + (if g && l then 1 else 0) = woken m + (if g' && l' then 1 else 0).
Proof.
  intros m m' p c g l c' g' l' H H'. rewrite !woken_cnt.
  rewrite (len_flags m m').
  2:{ intros r. rewrite H'. destruct (Nat.eqb_spec r p); [subst; rewrite H; split; discriminate|tauto]. }
  pose proof (cnt_point (wk m') (wk m) p (length m) (flags_lt _ _ _ H)) as K.
  assert (E : forall r, r <> p -> wk m' r = wk m r).
  { intros r Hr. unfold wk. rewrite H'. destruct (Nat.eqb_spec r p); [contradiction|auto]. }
  specialize (K E).
  assert (W1 : wk m p = g && l) by (unfold wk; rewrite H; destruct g, l; auto).
  assert (W2 : wk m' p = g' && l') by (unfold wk; rewrite H', Nat.eqb_refl; destruct g', l'; auto).
  rewrite W1, W2 in K. exact K.
Qed.
Lemma woken_new : forall m x, psignaled x = false -> woken (m ++ [x]) = woken m.
Proof. intros m x H. unfold woken. rewrite filter_app. cbn. rewrite H, andb_false_r. rewrite app_nil_r. auto. Qed.

Local Arguments woken : simpl never.

(** *** the invariant *)

Definition slotOf (c : spc) : option nat :=
  match c with SIdle => None | SWait p _ | SBack p => Some p end.

Record sinv (n : nat) (s : sem) (q : list nat) : Prop := {
  i_chain : chain (smem s) (scq s) q;
  i_nodup : NoDup q;
  i_zero : q <> [] -> counter s = 0;
  i_sum : counter s + entered s + woken (smem s) + dropped s = n + released s;
  i_slot : forall t, match spcs s t with
     | SIdle => True
     | SWait p b => b = false /\ exists c g, flags (smem s) p = Some (c, g, true) /\ (g = false -> c = true /\ In p q) /\ (c = true -> g = true \/ In p q)
     | SBack p => flags (smem s) p = Some (true, true, true)
     end;
  i_one : forall t u p, slotOf (spcs s t) = Some p -> slotOf (spcs s u) = Some p -> t = u
}.

Lemma slot_lt : forall n s q t p, sinv n s q -> slotOf (spcs s t) = Some p -> p < length (smem s).
Proof.
  intros n s q t p I H. pose proof (i_slot _ _ _ I t) as K. destruct (spcs s t); try discriminate; injection H as <-.
  - destruct K as (_ & c & g & K & _). eapply flags_lt; eauto.
  - eapply flags_lt; eauto.
Qed.

(** pieces that change nothing else *)
Lemma semUnlock_inv : forall n s q, sinv n s q ->
  exists s' q', semUnlock s = Ok s' /\ spcs s' = spcs s /\ entered s' = entered s /\ dropped s' = dropped s /\ released s' = released s /\
    chain (smem s') (scq s') q' /\ NoDup q' /\ (q' <> [] -> counter s' = 0) /\
    counter s' + entered s' + woken (smem s') + dropped s' = n + S (released s') /\
    (forall p c g, flags (smem s) p = Some (c, g, true) -> (g = false -> c = true /\ In p q) -> (c = true -> g = true \/ In p q) ->
       exists g', flags (smem s') p = Some (c, g', true) /\ (g' = false -> c = true /\ In p q') /\ (c = true -> g' = true \/ In p q') /\ (g = true -> g' = true)).
Proof.
  intros n s q I. destruct I as [Ic In_ Iz Is It Io]. unfold semUnlock.
  destruct q as [|a q] using rev_ind.
  - cbn in Ic. rewrite Ic. cbn. eexists _, []. split; [reflexivity|]. cbn. repeat (split; [reflexivity|]).
    split; [constructor|]. split; [congruence|]. split; [lia|].
    intros p c g H1 H2 H3. exists g. auto.
  - clear IHq. destruct (popOld_ok (smem s) (scq s) q a Ic In_) as (m1 & cq1 & P1 & P2 & P3).
    rewrite P1. cbn [obind].
    assert (Fa : flags m1 a = Some (true, false, true)).
    { rewrite P3. eapply seg_flags; eauto. apply in_or_app. cbn; auto. }
    destruct (notify_ok m1 a _ _ Fa) as (m2 & N1 & N2 & N3). rewrite N1. cbn [obind].
    assert (Na : ~ In a q) by (apply NoDup_remove_2 in In_; rewrite app_nil_r in In_; auto).
    assert (Nq : NoDup q) by (apply NoDup_remove_1 in In_; rewrite app_nil_r in In_; auto).
    assert (Hz : counter s = 0) by (apply Iz; destruct q; discriminate).
    eexists _, q. split; [reflexivity|]. cbn. repeat (split; [reflexivity|]).
    split; [apply N3; auto|]. split; auto. split; [auto|]. split.
    + pose proof (woken_point m1 m2 a _ _ _ _ _ _ Fa N2) as W. cbn in W. rewrite (woken_same _ _ P3) in W. lia.
    + intros p c g H1 H2 H3. rewrite N2. destruct (Nat.eqb_spec p a).
      * subst a. exists true. rewrite P3, H1 in Fa. injection Fa as -> ->. repeat split; auto; try discriminate.
      * exists g. rewrite P3, H1.
        assert (D : In p (q ++ [a]) -> In p q) by (intros K; apply in_app_iff in K as [K|[K|[]]]; [auto|congruence]).
        split; auto. split; [intros K; destruct (H2 K); auto|]. split; auto.
        intros K; destruct (H3 K); auto.
Qed.

Lemma endSlot_ok : forall s p c g, flags (smem s) p = Some (c, g, true) ->
  exists m', endSlot s p = Ok (setMem s m' (scq s)) /\
    (forall r, flags m' r = if r =? p then Some (c, g, false) else flags (smem s) r) /\
    (forall top q bot, ~ In p q -> seg (smem s) top q bot -> seg m' top q bot) /\
    woken m' + (if g then 1 else 0) = woken (smem s).
Proof.
  intros s p c g H. destruct (kill_ok _ _ _ _ H) as (m' & K1 & K2 & K3). unfold endSlot. rewrite K1. cbn.
  exists m'. repeat split; auto. pose proof (woken_point _ _ _ _ _ _ _ _ _ H K2) as W.
  destruct g; cbn in *; lia.
Qed.

Definition timeless (tc : nat * semcmd) : Prop := snd tc <> KLockTimed.

(** a thread ends its call: slot [p] dies *)
Lemma end_inv : forall n s q t p c g e,
  chain (smem s) (scq s) q -> NoDup q -> (q <> [] -> counter s = 0) ->
  flags (smem s) p = Some (c, g, true) -> ~ In p q -> slotOf (spcs s t) = Some p ->
  (forall u, u <> t -> match spcs s u with
     | SIdle => True
     | SWait p b => b = false /\ exists c g, flags (smem s) p = Some (c, g, true) /\ (g = false -> c = true /\ In p q) /\ (c = true -> g = true \/ In p q)
     | SBack p => flags (smem s) p = Some (true, true, true)
     end) ->
  (forall t u p, slotOf (spcs s t) = Some p -> slotOf (spcs s u) = Some p -> t = u) ->
  (forall s', counter (e s') = counter s' /\ smem (e s') = smem s' /\ scq (e s') = scq s' /\ spcs (e s') = spcs s' /\ released (e s') = released s' /\
     entered (e s') + dropped (e s') = entered s' + dropped s' + (if g then 1 else 0)) ->
  counter s + entered s + woken (smem s) + dropped s = n + released s ->
  exists s1, endSlot s p = Ok s1 /\ sinv n (setPc (e s1) t SIdle) q.
Proof.
  intros n s q t p c g e Hc Hn Hz Hf Hp Ht Hs Ho He Hsum.
  destruct (endSlot_ok s p c g Hf) as (m' & E1 & E2 & E3 & E4).
  exists (setMem s m' (scq s)). split; auto.
  destruct (He (setMem s m' (scq s))) as (F1 & F2 & F3 & F4 & F5 & F6). cbn in F1, F2, F3, F4, F5, F6.
  constructor; cbn; rewrite ?F1, ?F2, ?F3, ?F4, ?F5; auto.
  - apply E3; auto.
  - destruct g; cbn iota in *; lia.
  - intros u. destruct (Nat.eqb_spec u t); auto. specialize (Hs u n0).
    assert (Hd : forall r, slotOf (spcs s u) = Some r -> r <> p).
    { intros r Hr ->. apply n0. eapply Ho; eauto. }
    destruct (spcs s u) as [|r b|r]; auto; specialize (Hd r eq_refl).
    + destruct Hs as (-> & c1 & g1 & G1 & G2 & G3). split; auto. exists c1, g1. rewrite E2.
      destruct (Nat.eqb_spec r p); [contradiction|]. auto.
    + rewrite E2. destruct (Nat.eqb_spec r p); [contradiction|]. auto.
  - intros u v r. destruct (Nat.eqb_spec u t), (Nat.eqb_spec v t); cbn; try discriminate. eauto.
Qed.

Lemma exec_inv : forall n tc s q, timeless tc -> sinv n s q ->
  exists s' q', semexec tc s = Ok s' /\ sinv n s' q'.
Proof.
  intros n [t c] s q Hc I. unfold semexec. destruct (spcs s t) as [|p b|p] eqn:Et.
  - destruct c.
    + (* lock *)
      set (p := length (smem s)).
      assert (Hl : forall u r, slotOf (spcs s u) = Some r -> r <> p).
      { intros u r Hr. pose proof (slot_lt _ _ _ _ _ I Hr). unfold p. lia. }
      destruct I as [Ic In_ Iz Is It Io].
      assert (Fp : flags (smem s ++ [freshSlot]) p = Some (false, false, true)) by apply flags_new_eq.
      assert (Nq : ~ In p q).
      { intros K. apply (seg_flags _ _ _ _ _ Ic) in K. apply flags_lt in K. unfold p in K. lia. }
      unfold lockAsync. cbn [setMem counter smem scq]. destruct (counter s) as [|k] eqn:Ek.
      * destruct (add_lk_ok (smem s ++ [freshSlot]) (scq s) q p false Fp (seg_new _ _ _ _ _ Ic) Nq) as (m1 & A1 & A2 & A3).
        rewrite A1. cbn [obind]. eexists _, (p :: q). split; [reflexivity|]. constructor; cbn; auto.
        -- constructor; auto.
        -- pose proof (woken_point _ _ _ _ _ _ _ _ _ Fp A3) as W. cbn in W. rewrite woken_new in W; auto. lia.
        -- intros u. destruct (Nat.eqb_spec u t).
           ++ split; auto. exists true, false. rewrite A3, Nat.eqb_refl. auto.
           ++ pose proof (It u) as K. pose proof (Hl u) as Hu. destruct (spcs s u) as [|r b|r]; auto; specialize (Hu r eq_refl).
              ** destruct K as (-> & c1 & g1 & G1 & G2 & G3). split; auto. exists c1, g1. rewrite A3.
                 destruct (Nat.eqb_spec r p); [contradiction|]. rewrite flags_new; auto. split; auto. split; intros K; [destruct (G2 K)|destruct (G3 K)]; auto.
              ** rewrite A3. destruct (Nat.eqb_spec r p); [contradiction|]. rewrite flags_new; auto.
        -- intros u v r. destruct (Nat.eqb_spec u t), (Nat.eqb_spec v t); cbn; intros K1 K2; subst; auto; try congruence.
           ++ injection K1 as <-. apply Hl in K2. congruence.
           ++ injection K2 as <-. apply Hl in K1. congruence.
           ++ eauto.
      * destruct (notify_ok _ _ _ _ Fp) as (m1 & A1 & A2 & A3). rewrite A1. cbn [obind].
        assert (q = []) by (destruct q; auto; discriminate Iz; discriminate). subst q.
        eexists _, []. split; [reflexivity|]. constructor; cbn; auto.
        -- congruence.
        -- pose proof (woken_point _ _ _ _ _ _ _ _ _ Fp A2) as W. cbn in W. rewrite woken_new in W; auto. lia.
        -- intros u. destruct (Nat.eqb_spec u t).
           ++ split; auto. exists false, true. rewrite A2, Nat.eqb_refl. split; auto. split; discriminate.
           ++ pose proof (It u) as K. pose proof (Hl u) as Hu. destruct (spcs s u) as [|r b|r]; auto; specialize (Hu r eq_refl).
              ** destruct K as (-> & c1 & g1 & G1 & G2 & G3). split; auto. exists c1, g1. rewrite A2.
                 destruct (Nat.eqb_spec r p); [contradiction|]. rewrite flags_new; auto.
              ** rewrite A2. destruct (Nat.eqb_spec r p); [contradiction|]. rewrite flags_new; auto.
        -- intros u v r. destruct (Nat.eqb_spec u t), (Nat.eqb_spec v t); cbn; intros K1 K2; subst; auto; try congruence.
           ++ injection K1 as <-. apply Hl in K2. congruence.
           ++ injection K2 as <-. apply Hl in K1. congruence.
           ++ eauto.
    + destruct Hc; auto.
    + (* tryLock *)
      unfold semTry. destruct I as [Ic In_ Iz Is It Io]. destruct (counter s) as [|k] eqn:Ek.
      * eexists _, q. split; [reflexivity|]. constructor; auto. lia.
      * eexists _, q. split; [reflexivity|]. constructor; cbn; auto.
        -- intros K. apply Iz in K. discriminate.
        -- lia.
    + (* unlock *)
      destruct (semUnlock_inv n s q I) as (s1 & q1 & U1 & U2 & U3 & U4 & U5 & U6 & U7 & U8 & U9 & U10).
      rewrite U1. cbn [obind]. destruct I as [Ic In_ Iz Is It Io].
      eexists _, q1. split; [reflexivity|]. constructor; cbn; auto; try lia.
      * intros u. rewrite U2. pose proof (It u) as K. destruct (spcs s u) as [|r b|r]; auto.
        -- destruct K as (-> & c1 & g1 & G1 & G2 & G3). split; auto.
           destruct (U10 _ _ _ G1 G2 G3) as (g' & H1 & H2 & H3 & _). eauto.
        -- destruct (U10 _ _ _ K) as (g' & H1 & H2 & H3 & H4); auto; try discriminate. rewrite H4 in H1; auto.
      * rewrite U2. auto.
    + eexists _, q. split; [reflexivity|]. auto.
    + eexists _, q. split; [reflexivity|]. auto.
  - (* waiting *)
    pose proof I as [Ic In_ Iz Is It Io]. pose proof (It t) as K. rewrite Et in K.
    destruct K as (-> & c1 & g1 & G1 & G2 & G3). pose proof G1 as G1'.
    apply flags_get in G1' as (x & X1 & X2 & X3 & X4 & X5).
    assert (Other : forall u, u <> t -> match spcs s u with
     | SIdle => True
     | SWait p b => b = false /\ exists c g, flags (smem s) p = Some (c, g, true) /\ (g = false -> c = true /\ In p q) /\ (c = true -> g = true \/ In p q)
     | SBack p => flags (smem s) p = Some (true, true, true)
     end) by (intros; apply It).
    assert (Norm : exists s' q', (if psignaled x then let! s := endSlot s p in Ok (setPc (incEntered s) t SIdle) else Ok s) = Ok s' /\ sinv n s' q').
    { rewrite X4. destruct g1; [|eauto].
      assert (Np : ~ In p q) by (intros K; apply (seg_flags _ _ _ _ _ Ic) in K; rewrite G1 in K; discriminate).
      destruct (end_inv n s q t p c1 true incEntered) as (s1 & E1 & E2); auto.
      - rewrite Et. auto.
      - intros s'. cbn. repeat split; auto. lia.
      - rewrite E1. cbn. eauto. }
    rewrite X1. cbn [obind].
    destruct c; try (exact Norm).
    (* cancel *)
    clear Norm. destruct c1.
    + destruct (remove_ok (smem s) (scq s) q p g1 G1 Ic In_) as (m' & cq' & R1 & R2 & R3). rewrite R1. cbn [obind].
      destruct (isIn p q) eqn:Ei.
      * apply isIn_spec in Ei.
        assert (g1 = false) by (apply (seg_flags _ _ _ _ _ Ic) in Ei; rewrite G1 in Ei; congruence). destruct g1; [discriminate|]. rewrite X4.
        destruct (end_inv n (setMem s m' cq') (without p q) t p true false (fun s => s)) as (s1 & E1 & E2); cbn; auto.
        -- apply without_NoDup; auto.
        -- intros K. apply Iz. destruct q; [contradiction|discriminate].
        -- rewrite R3; auto.
        -- rewrite in_without. tauto.
        -- rewrite Et. auto.
        -- intros u Hu. specialize (Other u Hu). assert (Hd : forall r, slotOf (spcs s u) = Some r -> r <> p).
           { intros r Hr ->. apply Hu. eapply Io; eauto. rewrite Et. auto. }
           destruct (spcs s u) as [|r b|r]; auto; specialize (Hd r eq_refl); rewrite R3; auto.
           destruct Other as (-> & c2 & g2 & F1 & F2 & F3). split; auto. exists c2, g2. split; auto.
           split; intros K; [destruct (F2 K)|destruct (F3 K)]; auto; [split; auto; apply in_without; auto|right; apply in_without; auto].
        -- intros s'. repeat split; auto.
        -- rewrite (woken_same _ _ R3). auto.
        -- rewrite E1. cbn. eauto.
      * apply isIn_false in Ei. rewrite without_none in R2; auto.
        eexists _, q. split; [reflexivity|]. constructor; cbn; auto.
        -- rewrite (woken_same _ _ R3). auto.
        -- intros u. rewrite ?R3. destruct (Nat.eqb_spec u t).
           ++ rewrite R3, G1. destruct g1; auto. destruct (G3 eq_refl); [discriminate|contradiction].
           ++ specialize (Other u n0). destruct (spcs s u) as [|r b|r]; auto; rewrite ?R3; auto.
        -- intros u v r. destruct (Nat.eqb_spec u t), (Nat.eqb_spec v t); cbn; intros K1 K2; subst; auto.
           ++ apply (Io t v r); auto. rewrite Et. auto.
           ++ apply (Io u t r); auto. rewrite Et. auto.
           ++ eauto.
    + (* it never waited: remove says yes *)
      destruct g1; [|destruct (G2 eq_refl); discriminate].
      unfold remove. rewrite X1. cbn [obind]. rewrite X3. cbn [obind]. rewrite X4.
      assert (Np : ~ In p q) by (intros K; apply (seg_flags _ _ _ _ _ Ic) in K; rewrite G1 in K; discriminate).
      destruct (end_inv n (setMem s (smem s) (scq s)) q t p false true incDropped) as (s1 & E1 & E2); auto.
      * cbn. rewrite Et. auto.
      * intros s'. cbn. repeat split; auto. lia.
      * rewrite E1. cbn. eauto.
  - (* back *)
    pose proof I as [Ic In_ Iz Is It Io]. pose proof (It t) as G1. rewrite Et in G1. pose proof G1 as G1'.
    apply flags_get in G1' as (x & X1 & X2 & X3 & X4 & X5). rewrite X1. cbn [obind]. rewrite X4.
    destruct (semUnlock_inv n s q I) as (s1 & q1 & U1 & U2 & U3 & U4 & U5 & U6 & U7 & U8 & U9 & U10).
    rewrite U1. cbn [obind].
    destruct (U10 _ _ _ G1) as (g' & H1 & H2 & H3 & H4); auto; try discriminate. rewrite H4 in H1; auto.
    assert (Np : ~ In p q1) by (intros K; apply (seg_flags _ _ _ _ _ U6) in K; rewrite H1 in K; discriminate).
    destruct (end_inv n (incReleased s1) q1 t p true true incDropped) as (s2 & E1 & E2); cbn; auto.
    + rewrite U2, Et. auto.
    + intros u Hu. rewrite U2. pose proof (It u) as K. destruct (spcs s u) as [|r b|r]; auto.
      * destruct K as (-> & c2 & g2 & F1 & F2 & F3). split; auto.
        destruct (U10 _ _ _ F1 F2 F3) as (g3 & J1 & J2 & J3 & _). eauto.
      * destruct (U10 _ _ _ K) as (g3 & J1 & J2 & J3 & J4); auto; try discriminate. rewrite J4 in J1; auto.
    + rewrite U2. auto.
    + intros s'. cbn. repeat split; auto. lia.
    + destruct (endSlot_ok s1 p _ _ H1) as (m' & Q1 & _).
      rewrite Q1. cbn. unfold endSlot in E1. cbn in E1. unfold endSlot in Q1. cbn in Q1.
      destruct (kill (smem s1) p); cbn in *; try discriminate. injection E1 as <-. injection Q1 as <-.
      exists (setPc (incDropped (setMem (incReleased s1) a (scq s1))) t SIdle), q1. split; auto.
Qed.

Lemma run_inv : forall n sched s q, Forall timeless sched -> sinv n s q ->
  exists s' q', semrun sched s = Ok s' /\ sinv n s' q'.
Proof.
  induction sched as [|tc sched IH]; cbn [semrun]; intros s q Hc Hq; [eauto|].
  inversion Hc; subst. destruct (exec_inv n tc s q) as (s1 & q1 & E & Hq1); auto.
  rewrite E. cbn [obind]. eauto.
Qed.

Lemma init_inv : forall n, sinv n (seminit n) [].
Proof.
  intros n. constructor; cbn; auto; try constructor; try congruence.
  unfold woken. cbn. lia.
Qed.
