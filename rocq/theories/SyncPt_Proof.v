(** The chain of slots of a synchronisation point. *)
From Verif Require Import Common SyncPt_Spec SyncPt_Model.

(** the slots [q] are linked from [top] to [bot]; all exist, are charged and not
    notified *)
Fixpoint seg (m : mem) (top : option nat) (q : list nat) (bot : option nat) : Prop :=
  match q with
  | [] => top = bot
  | p :: q' => top = Some p /\
      exists x, nth_error m p = Some x /\ plive x = true /\ charged x = true /\ psignaled x = false /\
                seg m (pnext x) q' bot
  end.

Definition chain m top q := seg m top q None.

(** charged, notified, existing *)
Definition flags (m : mem) (p : nat) : option (bool * bool * bool) :=
  option_map (fun x => (charged x, psignaled x, plive x)) (nth_error m p).

Lemma seg_app : forall m a b top bot,
  seg m top (a ++ b) bot <-> exists mid, seg m top a mid /\ seg m mid b bot.
Proof.
  induction a as [|p a IH]; intros b top bot; cbn.
  - split; [intros H; exists top; auto|]. intros (mid & -> & H). auto.
  - split.
    + intros (-> & x & H1 & H2 & H3 & H4 & H5). apply IH in H5 as (mid & H5 & H6).
      exists mid. split; auto. split; auto. exists x. auto.
    + intros (mid & (-> & x & H1 & H2 & H3 & H4 & H5) & H6). split; auto. exists x. repeat (split; [assumption|]).
      apply IH. eauto.
Qed.

Lemma seg_upd : forall m p y q top bot, ~ In p q -> seg m top q bot -> seg (upd m p y) top q bot.
Proof.
  induction q as [|r q IH]; cbn; intros top bot Hn H; auto.
  destruct H as (-> & x & H1 & H2 & H3 & H4 & H5). split; auto. exists x.
  rewrite nth_error_upd_ne; auto 10.
Qed.

Lemma seg_in : forall m q top bot p, seg m top q bot -> In p q ->
  exists x, nth_error m p = Some x /\ plive x = true /\ charged x = true /\ psignaled x = false.
Proof.
  induction q as [|r q IH]; cbn; intros top bot p H Hin; [contradiction|].
  destruct H as (-> & x & H1 & H2 & H3 & H4 & H5). destruct Hin as [->|Hin]; eauto.
Qed.

Lemma seg_flags : forall m q top bot p, seg m top q bot -> In p q -> flags m p = Some (true, false, true).
Proof.
  intros m q top bot p H Hp. destruct (seg_in m q top bot p H Hp) as (x & E & E1 & E2 & E3).
  unfold flags. rewrite E. cbn. rewrite E1, E2, E3. auto.
Qed.

Lemma chain_len : forall m top q, chain m top q -> NoDup q -> length q <= length m.
Proof.
  intros m top q H Hn. assert (incl q (seq 0 (length m))).
  { intros p Hp. destruct (seg_in _ _ _ _ p H Hp) as (x & E & _). apply in_seq.
    assert (p < length m) by (apply nth_error_Some; congruence). lia. }
  apply NoDup_incl_length in H0; auto. rewrite seq_length in H0. auto.
Qed.

Lemma get_ok : forall m p x, nth_error m p = Some x -> plive x = true -> get m p = Ok x.
Proof. unfold get. intros m p x -> ->. auto. Qed.

Lemma flags_get : forall m p c g, flags m p = Some (c, g, true) ->
  exists x, get m p = Ok x /\ nth_error m p = Some x /\ charged x = c /\ psignaled x = g /\ plive x = true.
Proof.
  unfold flags. intros m p c g H. destruct (nth_error m p) as [x|] eqn:E; [|discriminate].
  cbn in H. injection H as H1 H2 H3. exists x. split; [apply get_ok; auto|auto].
Qed.

Lemma flags_upd : forall m p x y r, nth_error m p = Some x ->
  flags (upd m p y) r = if r =? p then Some (charged y, psignaled y, plive y) else flags m r.
Proof.
  intros m p x y r H. unfold flags. destruct (Nat.eqb_spec r p).
  - subst r. rewrite nth_error_upd_eq; auto. apply nth_error_Some. congruence.
  - rewrite nth_error_upd_ne; auto.
Qed.

Lemma flags_same : forall m p x y r, nth_error m p = Some x ->
  charged y = charged x -> psignaled y = psignaled x -> plive y = plive x ->
  flags (upd m p y) r = flags m r.
Proof.
  intros m p x y r H E1 E2 E3. rewrite (flags_upd m p x); auto. destruct (Nat.eqb_spec r p); auto.
  subst r. unfold flags. rewrite H. cbn. congruence.
Qed.

Lemma flags_new : forall m x r, r <> length m -> flags (m ++ [x]) r = flags m r.
Proof.
  intros m x r H. unfold flags. destruct (Nat.lt_ge_cases r (length m)).
  - rewrite nth_error_app1; auto.
  - rewrite nth_error_app2; auto. replace (nth_error m r) with (@None pslot) by (symmetry; apply nth_error_None; auto).
    destruct (r - length m) eqn:E; [lia|]. destruct n; auto.
Qed.

Lemma flags_new_eq : forall m x, flags (m ++ [x]) (length m) = Some (charged x, psignaled x, plive x).
Proof. intros. unfold flags. rewrite nth_error_app2, Nat.sub_diag; auto. Qed.

Lemma flags_lt : forall m p f, flags m p = Some f -> p < length m.
Proof. unfold flags. intros m p f H. apply nth_error_Some. destruct (nth_error m p); [discriminate|discriminate H]. Qed.

Lemma seg_new : forall m x q top bot, seg m top q bot -> seg (m ++ [x]) top q bot.
Proof.
  induction q as [|r q IH]; cbn; intros top bot H; auto.
  destruct H as (-> & y & H1 & H2 & H3 & H4 & H5). split; auto. exists y.
  rewrite nth_error_app1; auto 10. apply nth_error_Some. congruence.
Qed.

(** *** the operations *)

Lemma notify_ok : forall m p c g, flags m p = Some (c, g, true) ->
  exists m', notify m p = Ok m' /\
    (forall r, flags m' r = if r =? p then Some (c, true, true) else flags m r) /\
    (forall top q bot, ~ In p q -> seg m top q bot -> seg m' top q bot).
Proof.
  intros m p c g H. apply flags_get in H as (x & E & Ex & <- & <- & El).
  unfold notify. rewrite E. cbn. eexists. split; [reflexivity|]. split; [|intros; apply seg_upd; auto].
  intros r. rewrite (flags_upd m p x); auto. cbn. rewrite El. auto.
Qed.

Lemma kill_ok : forall m p c g, flags m p = Some (c, g, true) ->
  exists m', kill m p = Ok m' /\
    (forall r, flags m' r = if r =? p then Some (c, g, false) else flags m r) /\
    (forall top q bot, ~ In p q -> seg m top q bot -> seg m' top q bot).
Proof.
  intros m p c g H. apply flags_get in H as (x & E & Ex & <- & <- & El).
  unfold kill. rewrite E. cbn. eexists. split; [reflexivity|]. split; [|intros; apply seg_upd; auto].
  intros r. rewrite (flags_upd m p x); auto.
Qed.

Lemma add_lk_ok : forall m cq q p c, flags m p = Some (c, false, true) -> chain m cq q -> ~ In p q ->
  exists m', add_lk m cq p = Ok (m', Some p) /\ chain m' (Some p) (p :: q) /\
    (forall r, flags m' r = if r =? p then Some (true, false, true) else flags m r).
Proof.
  intros m cq q p c H Hc Hn. apply flags_get in H as (x & E & Ex & <- & Es & El).
  unfold add_lk. rewrite E. cbn. eexists. split; [reflexivity|]. rewrite Es, El. split.
  - split; auto. eexists. split; [apply nth_error_upd_eq; apply nth_error_Some; congruence|].
    cbn. repeat (split; [reflexivity|]). apply seg_upd; auto.
  - intros r. rewrite (flags_upd m p x); auto.
Qed.

Lemma findBefore_ok : forall fuel m q top p l1 l2, chain m (Some top) q -> NoDup q ->
  q = l1 ++ p :: l2 -> l1 <> [] -> length q <= fuel ->
  findBefore fuel m top p = Ok (last l1 0).
Proof.
  induction fuel as [|f IH]; intros m q top p l1 l2 Hc Hn Hq Hl Hf.
  - subst q. rewrite app_length in Hf. cbn in Hf. lia.
  - destruct l1 as [|a l1]; [contradiction|]. subst q. cbn in Hc.
    destruct Hc as (Ha & x & E1 & E2 & E3 & E4 & Hc). injection Ha as ->.
    cbn [findBefore]. rewrite (get_ok m a x); auto. cbn [obind].
    destruct l1 as [|b l1].
    + cbn in Hc. destruct Hc as (-> & _). rewrite Nat.eqb_refl. auto.
    + pose proof Hc as Hc'. cbn in Hc. destruct Hc as (Hnx & _). rewrite Hnx in *.
      inversion Hn; subst. inversion H2; subst.
      destruct (Nat.eqb_spec b p) as [->|_].
      { destruct H3. apply in_or_app. cbn. auto. }
      rewrite (IH m ((b :: l1) ++ p :: l2) b p (b :: l1) l2); auto; try discriminate.
      cbn in Hf |- *. lia.
Qed.

Lemma findBefore_none : forall fuel m q top p, chain m (Some top) q -> ~ In p q -> length q <= S fuel ->
  exists b x, findBefore fuel m top p = Ok b /\ get m b = Ok x /\ pnext x = None.
Proof.
  induction fuel as [|f IH]; intros m q top p Hc Hn Hl; (destruct q as [|a q]; [discriminate Hc|]);
    destruct Hc as (Ha & x & E1 & E2 & E3 & E4 & Hc); injection Ha as ->; cbn [findBefore];
    rewrite (get_ok m a x); auto; cbn [obind].
  - destruct q; [|cbn in Hl; lia]. cbn in Hc. rewrite Hc. exists a, x. auto using get_ok.
  - destruct q as [|b q].
    + cbn in Hc. rewrite Hc. exists a, x. auto using get_ok.
    + pose proof Hc as Hc'. destruct Hc as [Hb _]. rewrite Hb in Hc' |- *.
      destruct (Nat.eqb_spec b p) as [->|_]; [destruct Hn; cbn; auto|].
      apply (IH m (b :: q)); auto; [cbn in *; tauto|cbn in *; lia].
Qed.

Lemma isIn_spec : forall p l, isIn p l = true <-> In p l.
Proof.
  intros. unfold isIn. rewrite existsb_exists. split.
  - intros (x & H & E). apply Nat.eqb_eq in E. congruence.
  - intros H. exists p. rewrite Nat.eqb_refl. auto.
Qed.
Lemma isIn_false : forall p l, isIn p l = false <-> ~ In p l.
Proof. intros. rewrite <- isIn_spec. destruct (isIn p l); split; congruence. Qed.
Lemma in_without : forall p r l, In r (without p l) <-> In r l /\ r <> p.
Proof. intros. unfold without. rewrite filter_In. destruct (Nat.eqb_spec r p); cbn; intuition; discriminate. Qed.
Lemma without_none : forall p l, ~ In p l -> without p l = l.
Proof.
  induction l as [|a l IH]; cbn; intros H; auto. destruct (Nat.eqb_spec a p); cbn; [subst; tauto|]. f_equal. tauto.
Qed.
Lemma without_app : forall p a b, without p (a ++ b) = without p a ++ without p b.
Proof. intros. apply filter_app. Qed.
Lemma without_cut : forall p a b, NoDup (a ++ p :: b) -> without p (a ++ p :: b) = a ++ b.
Proof.
  intros p a b H. apply NoDup_remove in H as [_ H]. rewrite in_app_iff in H.
  rewrite without_app. cbn. rewrite Nat.eqb_refl. cbn. fold (without p b).
  rewrite (without_none p a), (without_none p b); tauto.
Qed.
Lemma without_NoDup : forall p l, NoDup l -> NoDup (without p l).
Proof. intros. apply NoDup_filter. auto. Qed.

Lemma remove_ok : forall m cq q p g, flags m p = Some (true, g, true) -> chain m cq q -> NoDup q ->
  exists m' cq', remove m cq p = Ok (m', cq', isIn p q) /\ chain m' cq' (without p q) /\
    (forall r, flags m' r = flags m r).
Proof.
  intros m cq q p g H Hc Hn. apply flags_get in H as (s & E & Es & Ec & Eg & El).
  unfold remove. rewrite E. cbn [obind]. rewrite Ec.
  destruct q as [|a q].
  - cbn in Hc. subst cq. exists m, None. cbn. auto.
  - pose proof Hc as (-> & x & E1 & E2 & E3 & E4 & Hc').
    destruct (Nat.eqb_spec a p) as [->|Hap].
    + rewrite Es in E1. injection E1 as <-. exists m, (pnext s). unfold isIn. cbn. rewrite Nat.eqb_refl. cbn. fold (without p q).
      rewrite without_none; [auto|]. inversion Hn; auto.
    + destruct (isIn p (a :: q)) eqn:Ei.
      * apply isIn_spec in Ei. apply in_split in Ei as (l1 & l2 & Eq).
        assert (Hl1 : l1 <> []) by (intros ->; injection Eq; congruence).
        pose proof (chain_len _ _ _ Hc Hn) as HL.
        rewrite (findBefore_ok _ m (a :: q) a p l1 l2); auto. cbn [obind].
        destruct l1 as [|b l1'] using rev_ind; [contradiction|]. clear IHl1'. rewrite last_last.
        rewrite Eq in Hc, Hn. pose proof Hc as Hc2. rewrite <- app_assoc in Hc. apply seg_app in Hc as (mid & S1 & S2).
        cbn in S2. destruct S2 as (-> & y & F1 & F2 & F3 & F4 & Fn & s2 & G1 & G2 & G3 & G4 & S3).
        rewrite Es in G1. injection G1 as <-.
        rewrite (get_ok m b y); auto. cbn [obind]. rewrite Fn, Nat.eqb_refl.
        eexists _, _. split; [reflexivity|]. rewrite Eq. rewrite without_cut; auto. split.
        -- rewrite <- app_assoc. apply seg_app. exists (Some b).
           rewrite <- app_assoc in Hn. change ([b] ++ p :: l2) with (b :: p :: l2) in Hn. split; [apply seg_upd; auto|].
           { apply NoDup_remove_2 in Hn. rewrite in_app_iff in Hn. tauto. }
           cbn. split; auto. eexists. split; [apply nth_error_upd_eq; apply nth_error_Some; congruence|].
           cbn. repeat (split; [assumption|]). apply seg_upd; auto.
           apply NoDup_remove_2 in Hn. rewrite in_app_iff in Hn. cbn in Hn. tauto.
        -- intros r. eapply flags_same; eauto.
      * apply isIn_false in Ei. pose proof (chain_len _ _ _ Hc Hn) as HL.
        destruct (findBefore_none (length m) m (a :: q) a p Hc Ei) as (b & y & B1 & B2 & B3); [lia|].
        rewrite B1. cbn [obind]. rewrite B2. cbn [obind]. rewrite B3. exists m, (Some a).
        rewrite without_none; auto.
Qed.

Lemma findEnd_ok : forall fuel m q r p, chain m (Some r) q -> length q <= S fuel ->
  exists l e, p :: q = l ++ [e] /\ findEnd fuel m p r = Ok (last l 0, e).
Proof.
  induction fuel as [|f IH]; intros m q r p Hc Hl; (destruct q as [|a q]; [discriminate Hc|]);
    destruct Hc as (Ha & x & E1 & E2 & E3 & E4 & Hc); injection Ha as ->; cbn [findEnd];
    rewrite (get_ok m a x); auto; cbn [obind].
  - destruct q; [|cbn in Hl; lia]. cbn in Hc. rewrite Hc. exists [p], a. auto.
  - destruct q as [|b q].
    + cbn in Hc. rewrite Hc. exists [p], a. auto.
    + pose proof Hc as [Hb _]. rewrite Hb in Hc |- *.
      destruct (IH m (b :: q) b a Hc) as (l & e & El & Ef); [cbn in *; lia|].
      exists (p :: l), e. rewrite El. split; auto. rewrite Ef. destruct l; auto.
      destruct q; discriminate El.
Qed.

Lemma popOld_ok : forall m cq l e, chain m cq (l ++ [e]) -> NoDup (l ++ [e]) ->
  exists m' cq', popSlot Oldest m cq = Ok (m', cq', Some e) /\ chain m' cq' l /\ (forall r, flags m' r = flags m r).
Proof.
  intros m cq l e Hc Hn. destruct l as [|a l].
  - cbn in Hc. destruct Hc as (-> & x & E1 & E2 & E3 & E4 & Ex). unfold popSlot.
    rewrite (get_ok m e x); auto. cbn [obind]. rewrite Ex. eexists _, None. split; [reflexivity|]. split; [reflexivity|].
    intros r. eapply flags_same; eauto.
  - pose proof Hc as Hc0. destruct Hc as (-> & x & E1 & E2 & E3 & E4 & Hc). unfold popSlot.
    rewrite (get_ok m a x); auto. cbn [obind].
    assert (exists r, pnext x = Some r) as (r & Er).
    { fold app in Hc. destruct l as [|b l]; cbn in Hc; destruct Hc as [-> _]; eauto. }
    rewrite Er in Hc |- *. fold app in Hc.
    pose proof (chain_len _ _ _ Hc0 Hn) as HL.
    destruct (findEnd_ok (length m) m (l ++ [e]) r a Hc) as (l' & e' & El & Ef).
    { cbn in HL. lia. }
    change (a :: l ++ [e]) with ((a :: l) ++ [e]) in El. apply app_inj_tail in El as [<- <-].
    rewrite Ef. cbn [obind].
    destruct (@exists_last _ (a :: l)) as (l' & b & Eb); [discriminate|]. rewrite Eb, last_last in *.
    rewrite <- app_assoc in Hc0, Hn. apply seg_app in Hc0 as (mid & S1 & S2). cbn in S2.
    destruct S2 as (-> & y & F1 & F2 & F3 & F4 & S2). rewrite (get_ok m b y); auto. cbn [obind].
    eexists _, _. split; [reflexivity|]. split.
    + apply seg_app. exists (Some b). split.
      * apply seg_upd; auto. apply NoDup_remove_2 in Hn. rewrite in_app_iff in Hn. tauto.
      * cbn. split; auto. eexists. split; [apply nth_error_upd_eq; apply nth_error_Some; congruence|]. cbn. auto.
    + intros q. eapply flags_same; eauto.
Qed.

Lemma popNew_ok : forall m cq q e, chain m cq (e :: q) -> NoDup (e :: q) ->
  exists m' cq', popSlot Newest m cq = Ok (m', cq', Some e) /\ chain m' cq' q /\ (forall r, flags m' r = flags m r).
Proof.
  intros m cq q e (-> & x & E1 & E2 & E3 & E4 & Hc) Hn. unfold popSlot. rewrite (get_ok m e x); auto. cbn [obind].
  eexists _, _. split; [reflexivity|]. split.
  - inversion Hn; subst. apply seg_upd; auto.
  - intros q'. eapply flags_same; eauto.
Qed.

Lemma notifyChain_ok : forall fuel m top q, chain m top q -> NoDup q -> length q <= fuel ->
  exists m', notifyChain fuel m top = Ok m' /\
    (forall r, flags m' r = if isIn r q then Some (true, true, true) else flags m r).
Proof.
  induction fuel as [|f IH]; intros m top q Hc Hn Hl.
  - destruct q; [|cbn in Hl; lia]. cbn in Hc. subst top. exists m. cbn. auto.
  - destruct q as [|p q].
    + cbn in Hc. subst top. exists m. cbn. auto.
    + pose proof (seg_flags _ _ _ _ p Hc (or_introl eq_refl)) as Hf.
      destruct Hc as (-> & x & E1 & E2 & E3 & E4 & Hc). cbn [notifyChain].
      rewrite (get_ok m p x); auto. cbn [obind].
      destruct (notify_ok m p _ _ Hf) as (m1 & N1 & N2 & N3). rewrite N1. cbn [obind].
      inversion Hn; subst. cbn in Hl.
      destruct (IH m1 (pnext x) q) as (m2 & M1 & M2); auto; [apply N3; auto|lia|].
      exists m2. split; auto. intros r. rewrite M2. unfold isIn. cbn. rewrite (Nat.eqb_sym r p). fold (isIn r q).
      rewrite N2, (Nat.eqb_sym r p). destruct (p =? r); destruct (isIn r q); auto.
Qed.

Lemma notifyAll_ok : forall m cq q, chain m cq q -> NoDup q ->
  exists m', notifyAll m cq = Ok (m', None, negb (length q =? 0)) /\
    (forall r, flags m' r = if isIn r q then Some (true, true, true) else flags m r).
Proof.
  intros m cq q Hc Hn. unfold notifyAll.
  destruct (notifyChain_ok (length m) m cq q Hc Hn) as (m' & E & F); [eapply chain_len; eauto|].
  rewrite E. cbn. exists m'. split; auto. destruct q; cbn in Hc; [subst; auto|]. destruct Hc as [-> _]. auto.
Qed.

(** *** refinement of the specification *)

Record srel (m : mem) (cq : option nat) (added : list nat) (s : sspec) : Prop := {
  r_chain : chain m cq (rev (waiting s));
  r_nodup : NoDup (waiting s);
  r_made : length m = made s;
  r_flags : forall p, p < made s -> flags m p = Some (isIn p added, isIn p (notified s), true);
  r_wait : forall p, In p (waiting s) -> In p added /\ ~ In p (notified s);
  r_not : forall p, In p (notified s) -> In p added;
  r_bound : forall p, In p added -> p < made s;
  r_fresh : forall p x, nth_error m p = Some x -> ~ In p added -> pnext x = None
}.

Lemma isIn_rev : forall p l, isIn p (rev l) = isIn p l.
Proof.
  intros. destruct (isIn p l) eqn:E.
  - apply isIn_spec. apply -> in_rev. apply isIn_spec. auto.
  - apply isIn_false. rewrite <- in_rev. apply isIn_false. auto.
Qed.
Lemma without_rev : forall p l, without p (rev l) = rev (without p l).
Proof.
  induction l as [|a l IH]; auto. cbn [rev]. rewrite without_app, IH. cbn. fold (without p l).
  destruct (a =? p); cbn; auto. apply app_nil_r.
Qed.
Lemma isIn_cons : forall r p l, isIn r (p :: l) = (r =? p) || isIn r l.
Proof. auto. Qed.
Lemma isIn_app : forall r a b, isIn r (a ++ b) = isIn r a || isIn r b.
Proof. intros. unfold isIn. apply existsb_app. Qed.
Lemma isIn_without : forall r p l, isIn r (without p l) = isIn r l && negb (r =? p).
Proof.
  intros. apply eq_true_iff_eq. rewrite isIn_spec, in_without, andb_true_iff, isIn_spec, negb_true_iff, Nat.eqb_neq.
  tauto.
Qed.

Local Arguments isIn : simpl never.
Local Arguments without : simpl never.

Definition nextAdded (o : sop) (added : list nat) := match o with OAdd p => p :: added | _ => added end.
Definition okOp (o : sop) (added : list nat) : Prop :=
  match o with OAdd p => ~ In p added | ORemove p | OReset p => In p added | _ => True end.

(** slots outside of the chain keep their next *)
Lemma fresh_sub : forall (m m' : mem) (added : list nat),
  (forall p x, nth_error m p = Some x -> ~ In p added -> pnext x = None) ->
  (forall p x', nth_error m' p = Some x' -> ~ In p added -> exists x, nth_error m p = Some x /\ pnext x' = pnext x) ->
  forall p x, nth_error m' p = Some x -> ~ In p added -> pnext x = None.
Proof. intros m m' added H K p x Hp Hn. destruct (K p x Hp Hn) as (y & Ey & ->). eauto. Qed.

Definition nextKept (m m' : mem) (q : list nat) : Prop :=
  forall p x', nth_error m' p = Some x' -> ~ In p q -> exists x, nth_error m p = Some x /\ pnext x' = pnext x.

Lemma nextKept_upd : forall m p x y (q : list nat), nth_error m p = Some x -> In p q \/ pnext y = pnext x -> nextKept m (upd m p y) q.
Proof.
  intros m p x y q Hx H r x' Hr Hn. destruct (Nat.eq_dec p r).
  - subst r. rewrite nth_error_upd_eq in Hr; [|apply nth_error_Some; congruence]. injection Hr as <-.
    exists x. split; auto. destruct H; [contradiction|auto].
  - rewrite nth_error_upd_ne in Hr; auto. eauto.
Qed.
Lemma nextKept_trans : forall m1 m2 m3 q, nextKept m1 m2 q -> nextKept m2 m3 q -> nextKept m1 m3 q.
Proof.
  intros m1 m2 m3 q H1 H2 p x Hp Hn. destruct (H2 p x Hp Hn) as (y & Ey & ->). destruct (H1 p y Ey Hn) as (z & Ez & ->). eauto.
Qed.
Lemma nextKept_refl : forall m q, nextKept m m q.
Proof. red. eauto. Qed.

Lemma get_inv : forall m p x, get m p = Ok x -> nth_error m p = Some x.
Proof. unfold get. intros m p x H. destruct (nth_error m p) as [y|]; [|discriminate]. destruct (plive y); congruence. Qed.

Lemma notify_kept : forall m p m' q, notify m p = Ok m' -> nextKept m m' q /\ length m' = length m.
Proof.
  unfold notify. intros m p m' q H. apply obind_ok in H as (x & Hx & H). injection H as <-.
  split; [|apply upd_length]. eapply nextKept_upd; eauto using get_inv.
Qed.
Lemma notifyChain_kept : forall f m p m' q, notifyChain f m p = Ok m' -> nextKept m m' q /\ length m' = length m.
Proof.
  induction f as [|f IH]; intros m p m' q H; destruct p; cbn in H; try discriminate;
    try (injection H as <-; auto using nextKept_refl; fail).
  apply obind_ok in H as (x & _ & H). apply obind_ok in H as (m1 & H1 & H).
  apply (notify_kept _ _ _ q) in H1 as [H1 L1]. apply (IH _ _ _ q) in H as [H L].
  split; [eapply nextKept_trans; eauto|congruence].
Qed.
Lemma findBefore_in : forall f m q top p b, chain m (Some top) q -> findBefore f m top p = Ok b -> In b q.
Proof.
  induction f as [|f IH]; intros m q top p b Hc H; (destruct q as [|a q]; [discriminate Hc|]);
    destruct Hc as (Ha & x & E1 & E2 & E3 & E4 & Hc); injection Ha as ->; cbn [findBefore] in H;
    rewrite (get_ok m a x) in H; auto; cbn [obind] in H; destruct (pnext x) as [r|] eqn:Er;
    try (destruct (r =? p)); try discriminate; try (injection H as <-; cbn; auto; fail).
  right. eapply IH; eauto.
Qed.
Lemma remove_kept : forall m cq p m' cq' b q, chain m cq q -> remove m cq p = Ok (m', cq', b) ->
  nextKept m m' q /\ length m' = length m.
Proof.
  unfold remove. intros m cq p m' cq' b q Hc H. apply obind_ok in H as (s & Hs & H).
  destruct (charged s); [|injection H as <- <- <-; auto using nextKept_refl].
  destruct cq as [a|]; [|injection H as <- <- <-; auto using nextKept_refl].
  destruct (a =? p); [injection H as <- <- <-; auto using nextKept_refl|].
  apply obind_ok in H as (c & Hb & H). apply obind_ok in H as (x & Hx & H).
  destruct (match pnext x with Some r => r =? p | None => false end);
    injection H as <- <- <-; [|auto using nextKept_refl].
  split; [|apply upd_length]. eapply nextKept_upd; eauto using get_inv. left. eapply findBefore_in; eauto.
Qed.
Lemma pop_kept : forall ord m cq m' cq' e q, chain m cq q -> NoDup q -> popSlot ord m cq = Ok (m', cq', e) ->
  nextKept m m' q /\ length m' = length m.
Proof.
  unfold popSlot. intros ord m cq m' cq' e q Hc Hn H. destruct cq as [p|]; [|injection H as <- <- <-; auto using nextKept_refl].
  assert (Hp : In p q) by (destruct q as [|a q]; [discriminate Hc|]; destruct Hc as [K _]; injection K as ->; cbn; auto).
  apply obind_ok in H as (x & Hx & H).
  assert (D : forall n, Ok (upd m p (mkP None (charged x) (psignaled x) (plive x)), n, Some p) = Ok (m', cq', e) -> nextKept m m' q /\ length m' = length m).
  { intros n K. injection K as <- <- <-. split; [|apply upd_length]. eapply nextKept_upd; eauto using get_inv. }
  destruct ord, (pnext x) as [r|] eqn:Er; eauto.
  apply obind_ok in H as ((a & b) & Hf & H). apply obind_ok in H as (y & Hy & H). injection H as <- <- <-.
  split; [|apply upd_length]. eapply nextKept_upd; eauto using get_inv. left.
  destruct q as [|c q]; [discriminate Hc|]. pose proof (chain_len _ _ _ Hc Hn) as HL.
  destruct Hc as (Ha & z & E1 & E2 & E3 & E4 & Hc). injection Ha as ->.
  apply get_inv in Hx. rewrite E1 in Hx. injection Hx as ->. rewrite Er in Hc.
  destruct (findEnd_ok (length m) m q r c Hc) as (l & e' & El & Ef); [cbn in HL; lia|].
  rewrite Hf in Ef. injection Ef as -> ->. rewrite El. apply in_or_app. left.
  destruct l as [|u l] using rev_ind; [destruct q; [|discriminate El]; discriminate Hc|]. rewrite last_last. apply in_or_app. cbn; auto.
Qed.

Lemma step_ok : forall ord o m cq added s s' a, srel m cq added s -> okOp o added ->
  sspecStep ord o s = Some (s', a) ->
  exists m' cq', sstep ord o m cq = Ok (m', cq', a) /\ srel m' cq' (nextAdded o added) s'.
Proof.
  intros ord o m cq added s s' a R Ho Hs. destruct R as [Rc Rn Rm Rf Rw Rt Rb Rx].
  assert (Nr : NoDup (rev (waiting s))) by (apply NoDup_rev; auto).
  assert (Wl : forall p, In p (waiting s) -> p < made s) by (intros p Hp; apply Rw in Hp; auto; apply Rb; tauto).
  assert (Wa : forall p, ~ In p added -> ~ In p (rev (waiting s))).
  { intros p Hp Hin. apply in_rev in Hin. apply Rw in Hin. tauto. }
  assert (Fk : forall m', nextKept m m' (rev (waiting s)) ->
     forall p x, nth_error m' p = Some x -> ~ In p added -> pnext x = None).
  { intros m' K p x Hp Hn. destruct (K p x Hp) as (y & Ey & ->); eauto. }
  destruct o; cbn [sspecStep] in Hs; cbn [sstep nextAdded okOp] in *.
  - (* new *)
    injection Hs as <- <-. eexists _, _. split; [reflexivity|]. constructor; cbn; auto.
    + apply seg_new; auto.
    + rewrite app_length. cbn. lia.
    + intros p Hp. destruct (Nat.eq_dec p (length m)).
      * subst p. rewrite flags_new_eq.
        assert (isIn (length m) added = false) by (apply isIn_false; intros K; apply Rb in K; lia).
        assert (isIn (length m) (notified s) = false) by (apply isIn_false; intros K; apply Rt, Rb in K; lia).
        rewrite H, H0. auto.
      * rewrite flags_new; auto. apply Rf. lia.
    + intros p Hp. apply Rb in Hp. lia.
    + intros p x Hp Hn. destruct (Nat.eq_dec p (length m)).
      * subst p. rewrite nth_error_app2, Nat.sub_diag in Hp; auto. injection Hp as <-. auto.
      * assert (p < length (m ++ [freshSlot])) by (apply nth_error_Some; congruence).
        rewrite app_length in H. cbn in H. rewrite nth_error_app1 in Hp; [eauto|lia].
  - (* add *)
    destruct (Nat.ltb_spec p (made s)) as [Hp|Hp]; [|discriminate]. cbn [negb] in Hs.
    assert (E1 : isIn p (waiting s) = false) by (apply isIn_false; intros K; apply Rw in K; tauto).
    assert (E2 : isIn p (notified s) = false) by (apply isIn_false; intros K; apply Rt in K; tauto).
    assert (E3 : isIn p added = false) by (apply isIn_false; auto).
    rewrite E1, E2 in Hs. cbn in Hs. injection Hs as <- <-.
    pose proof (Rf p Hp) as F. rewrite E2, E3 in F.
    destruct (add_lk_ok m cq (rev (waiting s)) p _ F Rc (Wa p Ho)) as (m' & A1 & A2 & A3).
    apply flags_get in F as (x & G1 & G2 & G3 & G4 & G5).
    exists m', (Some p). unfold add. rewrite G1. cbn [obind]. rewrite G3, G4, (Rx p x G2 Ho). cbn.
    rewrite A1. cbn. split; auto.
    assert (K : nextKept m m' (p :: rev (waiting s)) /\ length m' = length m).
    { unfold add_lk in A1. rewrite G1 in A1. cbn in A1. injection A1 as <-. split; [|apply upd_length].
      eapply nextKept_upd; eauto. cbn; auto. }
    destruct K as [K KL].
    constructor; cbn; auto.
    + rewrite rev_app_distr. exact A2.
    + apply NoDup_rev in Rn. rewrite <- (rev_involutive (waiting s ++ [p])). apply NoDup_rev. rewrite rev_app_distr.
      constructor; auto.
    + congruence.
    + intros r Hr. rewrite A3, isIn_cons. destruct (Nat.eqb_spec r p); cbn; [subst; rewrite E2; auto|auto].
    + intros r Hr. apply in_app_iff in Hr as [Hr|[<-|[]]]; [apply Rw in Hr; tauto|].
      split; [auto|]. apply isIn_false; exact E2.
    + intros r [<-|Hr]; auto.
    + intros r y Hr Hn. destruct (K r y Hr) as (z & Ez & ->).
      * intros [Q|Q]; [tauto|]. apply Wa in Q; tauto.
      * apply (Rx r z); auto.
  - (* remove *)
    destruct (Nat.ltb_spec p (made s)) as [Hp|Hp]; [|discriminate]. cbn [negb] in Hs. injection Hs as <- <-.
    pose proof (Rf p Hp) as F. assert (E3 : isIn p added = true) by (apply isIn_spec; auto). rewrite E3 in F.
    destruct (remove_ok m cq (rev (waiting s)) p _ F Rc Nr) as (m' & cq' & A1 & A2 & A3).
    destruct (remove_kept _ _ _ _ _ _ _ Rc A1) as [K KL].
    rewrite isIn_rev in A1. exists m', cq'. split; auto. constructor; cbn; eauto.
    + rewrite <- without_rev. auto.
    + apply without_NoDup; auto.
    + congruence.
    + intros r Hr. rewrite A3. auto.
    + intros r Hr. apply in_without in Hr as [Hr _]. auto.
  - (* one *)
    unfold notifyOne.
    assert (D : forall e m1 cq1 w, popSlot ord m cq = Ok (m1, cq1, Some e) -> chain m1 cq1 (rev w) ->
      (forall r, flags m1 r = flags m r) -> (forall r, In r (waiting s) <-> r = e \/ In r w) -> NoDup w -> ~ In e w ->
      exists m' cq', (let! (m1, cq1, p) := popSlot ord m cq in
        match p with None => Ok (m1, cq1, false) | Some p => let! m2 := notify m1 p in Ok (m2, cq1, true) end)
        = Ok (m', cq', true) /\ srel m' cq' added (mkSS (made s) w (e :: notified s))).
    { intros e m1 cq1 w P1 P2 P3 P4 P5 P6. rewrite P1. cbn [obind].
      assert (He : In e (waiting s)) by (apply P4; auto).
      assert (Fe : flags m1 e = Some (true, false, true)).
      { rewrite P3. apply (seg_flags _ _ _ _ e Rc). apply -> in_rev. auto. }
      destruct (notify_ok m1 e _ _ Fe) as (m2 & N1 & N2 & N3). rewrite N1. cbn [obind].
      exists m2, cq1. split; auto.
      destruct (pop_kept _ _ _ _ _ _ _ Rc Nr P1) as [K1 L1].
      destruct (notify_kept _ _ _ (rev (waiting s)) N1) as [K2 L2].
      constructor; cbn; auto.
      - apply N3; auto. rewrite <- in_rev. auto.
      - congruence.
      - intros r Hr. rewrite N2, isIn_cons. destruct (Nat.eqb_spec r e).
        + subst r. assert (isIn e added = true) by (apply isIn_spec; apply Rw; auto). rewrite H. auto.
        + rewrite P3. cbn. auto.
      - intros r Hr. assert (In r (waiting s)) by (apply P4; auto). destruct (Rw r H). split; auto.
        intros [->|Q]; tauto.
      - intros r [<-|Hr]; auto. apply Rw; auto.
      - exact (Fk m2 (nextKept_trans _ _ _ _ K1 K2)). }
    destruct ord.
    + destruct (waiting s) as [|e w] eqn:Ew.
      * injection Hs as <- <-. cbn in Rc. subst cq. cbn. eexists _, _. split; [reflexivity|].
        constructor; auto; rewrite ?Ew; cbn; auto.
      * injection Hs as <- <-. cbn in Rc, Nr.
        destruct (popOld_ok m cq (rev w) e Rc Nr) as (m1 & cq1 & P1 & P2 & P3).
        inversion Rn; subst. eapply D; eauto. intros r. cbn. intuition.
    + destruct (rev (waiting s)) as [|e w] eqn:Ew.
      * injection Hs as <- <-. cbn in Rc. subst cq. cbn. eexists _, _. split; [reflexivity|].
        constructor; auto; rewrite ?Ew; cbn; auto.
      * injection Hs as <- <-.
        destruct (popNew_ok m cq w e Rc Nr) as (m1 & cq1 & P1 & P2 & P3).
        inversion Nr; subst. eapply D; eauto.
        -- rewrite rev_involutive; auto.
        -- intros r. rewrite <- in_rev. rewrite (in_rev (waiting s)), Ew. cbn. intuition.
        -- apply NoDup_rev; auto.
        -- rewrite <- in_rev. auto.
  - (* all *)
    injection Hs as <- <-.
    destruct (notifyAll_ok m cq _ Rc Nr) as (m' & A1 & A2). rewrite rev_length in A1.
    exists m', None. split; auto.
    assert (K : nextKept m m' (rev (waiting s)) /\ length m' = length m).
    { unfold notifyAll in A1. apply obind_ok in A1 as (m1 & A1 & A3). injection A3 as <- _. eapply notifyChain_kept; eauto. }
    destruct K as [K KL].
    constructor; cbn; auto.
    + constructor.
    + congruence.
    + intros r Hr. rewrite A2, isIn_rev, isIn_app. destruct (isIn r (waiting s)) eqn:E; cbn; auto.
      apply isIn_spec, Rw in E. destruct E as [E _]. apply isIn_spec in E. rewrite E. auto.
    + intros r [].
    + intros r Hr. apply in_app_iff in Hr as [Hr|Hr]; auto. apply Rw; auto.
    + eauto.
  - (* test *)
    destruct (Nat.ltb_spec p (made s)) as [Hp|Hp]; [|discriminate]. cbn [negb] in Hs. injection Hs as <- <-.
    destruct (flags_get _ _ _ _ (Rf p Hp)) as (x & G1 & G2 & G3 & G4 & G5). rewrite G1. cbn. rewrite G4.
    eexists _, _. split; [reflexivity|]. constructor; auto.
  - (* reset *)
    destruct (Nat.ltb_spec p (made s)) as [Hp|Hp]; [|discriminate]. cbn [negb] in Hs. injection Hs as <- <-.
    destruct (flags_get _ _ _ _ (Rf p Hp)) as (x & G1 & G2 & G3 & G4 & G5).
    unfold resetSlot. rewrite G1. cbn [obind]. rewrite G4. destruct (isIn p (notified s)) eqn:E; cbn [obind].
    + eexists _, _. split; [reflexivity|].
      assert (Hw : ~ In p (rev (waiting s))).
      { rewrite <- in_rev. intros K. apply Rw in K. apply isIn_spec in E. tauto. }
      constructor; cbn; auto.
      * apply seg_upd; auto.
      * rewrite upd_length. auto.
      * intros r Hr. rewrite (flags_upd m p x); auto. cbn. rewrite G3, G5, isIn_without.
        destruct (Nat.eqb_spec r p); cbn.
        -- subst r. rewrite andb_false_r. auto.
        -- rewrite andb_true_r. auto.
      * intros r Hr. destruct (Rw r Hr). split; auto. intros Q. apply in_without in Q. tauto.
      * intros r Hr. apply in_without in Hr as [Hr _]. auto.
      * apply Fk. eapply nextKept_upd; eauto.
    + eexists _, _. split; [reflexivity|]. rewrite without_none; [|apply isIn_false; auto].
      constructor; auto.
Qed.

Lemma onceOnly_step : forall o ops added, onceOnly added (o :: ops) -> okOp o added /\ onceOnly (nextAdded o added) ops.
Proof. destruct o; cbn; tauto. Qed.

Lemma run_ok : forall ord ops m cq added s s' l, srel m cq added s -> onceOnly added ops ->
  sspecRun ord ops s = Some (s', l) -> srun ord ops m cq = Ok l.
Proof.
  induction ops as [|o ops IH]; intros m cq added s s' l R Ho H; cbn [sspecRun srun] in *.
  - injection H as <- <-. auto.
  - apply onceOnly_step in Ho as [Ho1 Ho2].
    destruct (sspecStep ord o s) as [[s1 a]|] eqn:E; [|discriminate].
    destruct (sspecRun ord ops s1) as [[s2 l2]|] eqn:E2; [|discriminate]. injection H as <- <-.
    destruct (step_ok _ _ _ _ _ _ _ _ R Ho1 E) as (m' & cq' & A & B).
    rewrite A. cbn [obind]. rewrite (IH m' cq' _ _ _ _ B Ho2 E2). auto.
Qed.

Lemma srel_init : srel [] None [] sspec0.
Proof. constructor; cbn; auto; try lia; try tauto; try constructor. intros [|p] x H; discriminate. Qed.
