(** Invariants of the level lock. *)
From Verif Require Import Common LevelLock_Model.

(** ** who is inside: holds for all histories *)

Definition waits (e : option nat) (s : lstate) : Prop :=
  forall t p, e <> Some t -> lpcs s t = LWait p ->
  exists x, nth_error (slots s) p = Some x /\ thr x = t /\
            (signaled x = true -> In t (map fst (own s))).

Definition base (P : nat -> Z -> Prop) (e : option nat) (s : lstate) : Prop :=
  length (own s) = useCount s /\
  Forall (fun a => snd a = curLevel s) (own s) /\
  Forall (fun a => P (fst a) (snd a)) (own s) /\
  Forall (fun x => P (thr x) (level x)) (slots s) /\
  waits e s.

Lemma Forall_upd {A} (P : A -> Prop) : forall l i x, Forall P l -> P x -> Forall P (upd l i x).
Proof.
  induction l as [|a l IH]; intros i x H Hx; destruct i; cbn; auto; inversion H; subst; constructor; auto.
Qed.

Lemma Forall_nth {A} (P : A -> Prop) : forall l i x, Forall P l -> nth_error l i = Some x -> P x.
Proof. intros l i x H E. rewrite Forall_forall in H. apply H. eapply nth_error_In; eauto. Qed.

Lemma getSlot_ok : forall s p x, getSlot s p = Ok x -> nth_error (slots s) p = Some x /\ live x = true.
Proof.
  unfold getSlot. intros s p x H. destruct (nth_error (slots s) p) as [y|]; [|discriminate].
  destruct (live y) eqn:E; [|discriminate]. injection H as <-. auto.
Qed.

Lemma waits_upd : forall e s s' p x y,
  waits e s -> lpcs s' = lpcs s -> own s' = own s -> slots s' = upd (slots s) p y ->
  nth_error (slots s) p = Some x -> thr y = thr x -> signaled y = signaled x -> waits e s'.
Proof.
  intros e s s' p x y H E1 E2 E3 E4 E5 E6 t q He Hq. rewrite E1 in Hq.
  destruct (H t q He Hq) as (z & Hz & Ht & Hs).
  destruct (Nat.eq_dec p q).
  - subst q. exists y. rewrite E3, E2. split; [apply nth_error_upd_eq; apply nth_error_Some; congruence|].
    rewrite E5, E6. rewrite E4 in Hz. injection Hz as <-. auto.
  - exists z. rewrite E3, E2, nth_error_upd_ne; auto.
Qed.

Section Base.
Variable P : nat -> Z -> Prop.

Lemma enter_base : forall e s t v,
  base P e s -> P t v -> useCount s = 0 \/ v = curLevel s -> base P e (enter s t v).
Proof.
  intros e s t v (H1 & H2 & H3 & H4 & H5) Hp Hv. unfold base; cbn.
  split; [lia|]. split.
  - constructor; auto. destruct Hv as [Hv| ->]; auto. rewrite Hv in H1. destruct (own s); [constructor|discriminate].
  - split; [constructor; auto|]. split; auto.
    intros u p He Hu. destruct (H5 u p He Hu) as (x & Ex & Et & Es). exists x. cbn. auto.
Qed.

Lemma putSlot_base : forall e s p x y,
  base P e s -> nth_error (slots s) p = Some x -> thr y = thr x -> level y = level x -> signaled y = signaled x ->
  base P e (putSlot s p y).
Proof.
  intros e s p x y (H1 & H2 & H3 & H4 & H5) Hx E1 E2 E3. unfold base; cbn.
  repeat (split; [assumption|]). split.
  - apply Forall_upd; auto. rewrite E1, E2. apply (Forall_nth _ _ _ _ H4 Hx).
  - apply (waits_upd e s _ p x y); auto.
Qed.

Lemma signal_base : forall e s p x,
  base P e s -> nth_error (slots s) p = Some x -> In (thr x) (map fst (own s)) ->
  base P e (putSlot s p (setSignaled x)).
Proof.
  intros e s p x (H1 & H2 & H3 & H4 & H5) Hx Hin. unfold base; cbn.
  repeat (split; [assumption|]). split.
  - apply Forall_upd; auto. apply (Forall_nth _ _ _ _ H4 Hx).
  - intros t q He Hq. destruct (H5 t q He Hq) as (z & Ez & Et & Es). cbn.
    destruct (Nat.eq_dec p q).
    + subst q. exists (setSignaled x). rewrite Hx in Ez. injection Ez as <-.
      split; [apply nth_error_upd_eq; apply nth_error_Some; congruence|]. cbn. subst t. auto.
    + exists z. rewrite nth_error_upd_ne; auto.
Qed.

Lemma mustWait_no : forall s v, mustWait s v = false -> useCount s = 0 \/ v = curLevel s.
Proof.
  unfold mustWait. intros s v H. destruct (qbot s); [discriminate|].
  destruct (Z.eqb_spec v (curLevel s)); auto. destruct (Nat.eqb_spec (useCount s) 0); auto. discriminate.
Qed.

Lemma lockAsync_base : forall e s p s', base P e s -> lockAsync s p = Ok s' ->
  base P e s' /\ lpcs s' = lpcs s /\ (exists x, nth_error (slots s) p = Some x) /\
  (forall x, nth_error (slots s) p = Some x -> exists y, nth_error (slots s') p = Some y /\ thr y = thr x /\
    (signaled y = true -> signaled x = true \/ In (thr x) (map fst (own s')))).
Proof.
  intros e s p s' Hb H. unfold lockAsync in H. apply obind_ok in H as (x & Hx & H).
  apply getSlot_ok in Hx as [Hx Hl].
  assert (Hp : P (thr x) (level x)) by (destruct Hb as (_&_&_&H4&_); apply (Forall_nth _ _ _ _ H4 Hx)).
  destruct (mustWait s (level x)) eqn:E.
  - assert (Hb2 : base P e (logPark s p)) by exact Hb.
    cbn [logPark qtop qbot] in H. fold (logPark s p) in H.
    destruct (qtop s).
    + destruct (qbot s) as [b|]; [|discriminate].
      apply obind_ok in H as (y & Hy & H). apply getSlot_ok in Hy as [Hy Hly]. cbn in Hy.
      assert (B : base P e (putSlot (logPark s p) b (setNext y (Some p)))) by (eapply putSlot_base; eauto).
      injection H as <-. split; [exact B|]. cbn. split; auto. split; [eauto|].
      intros z Hz. destruct (Nat.eq_dec b p).
      * subst b. exists (setNext y (Some p)). rewrite Hy in Hz. injection Hz as <-.
        split; [apply nth_error_upd_eq; apply nth_error_Some; congruence|]. cbn. auto.
      * exists z. rewrite nth_error_upd_ne; auto.
    + injection H as <-. split; [exact Hb|]. cbn. split; auto. split; [eauto|].
      intros z Hz. exists z. auto.
  - injection H as <-. split.
    + assert (B : base P e (enter s (thr x) (level x))) by (apply enter_base; auto using mustWait_no).
      apply (signal_base e _ p x) in B; auto. cbn. auto.
    + cbn. split; auto. split; [eauto|]. intros z Hz. rewrite Hx in Hz. injection Hz as <-.
      exists (setSignaled x). split; [apply nth_error_upd_eq; apply nth_error_Some; congruence|]. cbn. auto.
Qed.

Lemma releaseTop_base : forall e s s',
  base P e s -> (forall p x, qtop s = Some p -> nth_error (slots s) p = Some x -> useCount s = 0 \/ level x = curLevel s) ->
  releaseTopThread s = Ok s' -> base P e s' /\ lpcs s' = lpcs s.
Proof.
  intros e s s' Hb Hc H. unfold releaseTopThread in H. destruct (qtop s) as [p|] eqn:Eq; [|discriminate].
  apply obind_ok in H as (x & Hx & H). apply getSlot_ok in Hx as [Hx Hl].
  injection H as <-. split; auto.
  assert (Hp : P (thr x) (level x)) by (destruct Hb as (_&_&_&H4&_); apply (Forall_nth _ _ _ _ H4 Hx)).
  assert (B : base P e (enter (setTop s (snext x)) (thr x) (level x))).
  { apply enter_base; auto. apply (Hc p x); auto. }
  apply (signal_base e _ p x) in B; auto. cbn. auto.
Qed.

Lemma releaseSame_base : forall e fuel s s',
  base P e s -> releaseSame fuel s = Ok s' -> base P e s' /\ lpcs s' = lpcs s.
Proof.
  induction fuel as [|f IH]; intros s s' Hb H; cbn in H; destruct (qtop s) as [p|] eqn:Eq;
    try (injection H as <-; auto; fail);
    apply obind_ok in H as (x & Hx & H); apply getSlot_ok in Hx as [Hx Hl];
    destruct (Z.eqb_spec (level x) (curLevel s)); try discriminate; try (injection H as <-; auto; fail).
  apply obind_ok in H as (s1 & H1 & H).
  assert (B : base P e s1 /\ lpcs s1 = lpcs s).
  { eapply releaseTop_base; eauto. intros q y Hq Hy. right. rewrite Eq in Hq. injection Hq as <-. congruence. }
  destruct B as [B1 B2]. destruct (IH s1 s') as [C1 C2]; auto. split; auto. congruence.
Qed.

Lemma dropOne_length : forall t l, In t (map fst l) -> length l = S (length (dropOne t l)).
Proof.
  induction l as [|a l IH]; cbn; intros H; [contradiction|].
  destruct (Nat.eqb_spec (fst a) t); auto. destruct H as [H|H]; [contradiction|]. cbn. rewrite <- IH; auto.
Qed.
Lemma dropOne_other : forall t u l, u <> t -> In u (map fst l) -> In u (map fst (dropOne t l)).
Proof.
  induction l as [|a l IH]; cbn; intros H Hi; auto.
  destruct (Nat.eqb_spec (fst a) t); destruct Hi as [Hi|Hi]; auto; try congruence; cbn; auto.
Qed.
Lemma dropOne_Forall : forall (Q : nat * Z -> Prop) t l, Forall Q l -> Forall Q (dropOne t l).
Proof.
  induction l as [|a l IH]; cbn; intros H; auto. inversion H; subst. destruct (fst a =? t); auto.
Qed.

Lemma unlock_base : forall e s t s',
  base P e s -> In t (map fst (own s)) -> (e = Some t \/ lpcs s t = LIdle) -> unlock s t = Ok s' ->
  base P e s' /\ lpcs s' = lpcs s.
Proof.
  intros e s t s' (H1 & H2 & H3 & H4 & H5) Ht He H. unfold unlock in H. cbn in H.
  set (s0 := mkL _ _ _ _ _ _ _ _ _) in H.
  assert (B : base P e s0).
  { unfold base, s0; cbn. pose proof (dropOne_length t (own s) Ht). split; [lia|].
    split; [apply dropOne_Forall; auto|]. split; [apply dropOne_Forall; auto|]. split; auto.
    intros u p Hu Hw. cbn in Hw. destruct (H5 u p Hu Hw) as (x & Ex & Et & Es). exists x. cbn.
    split; auto. split; auto. intros K. apply dropOne_other; auto. intros ->. destruct He; congruence. }
  change (lpcs s) with (lpcs s0).
  destruct (Nat.eqb_spec (pred (useCount s)) 0) as [E|E]; [|injection H as <-; auto].
  destruct (qtop s) eqn:Eq; [|injection H as <-; auto].
  apply obind_ok in H as (s1 & K1 & K2).
  assert (B1 : base P e s1 /\ lpcs s1 = lpcs s0).
  { eapply releaseTop_base; eauto. }
  destruct B1 as [B1 B2]. apply (releaseSame_base e) in K2; auto. destruct K2. split; auto. congruence.
Qed.

Lemma cancel_base : forall s t p s',
  base P None s -> lpcs s t = LWait p -> cancelAsync s p = Ok s' -> base P (Some t) s' /\ lpcs s' = lpcs s.
Proof.
  intros s t p s' Hb Hw H. unfold cancelAsync in H. apply obind_ok in H as (x & Hx & H).
  apply getSlot_ok in Hx as [Hx Hl].
  assert (Hb2 : base P (Some t) s).
  { destruct Hb as (H1 & H2 & H3 & H4 & H5). repeat (split; [assumption|]).
    intros u q Hu Hq. apply H5; auto. discriminate. }
  destruct (signaled x) eqn:Es.
  - destruct Hb as (H1 & H2 & H3 & H4 & H5). destruct (H5 t p) as (y & Ey & Et & Ei); auto; [discriminate|].
    rewrite Hx in Ey. injection Ey as <-. subst t. eapply unlock_base; eauto.
  - destruct (qtop s) as [a|] eqn:Eq; [|discriminate].
    destruct (Nat.eqb_spec a p).
    + injection H as <-. auto.
    + apply obind_ok in H as (q & Hq & H). destruct q as [b|]; [|discriminate].
      apply obind_ok in H as (y & Hy & H). apply getSlot_ok in Hy as [Hy Hly]. injection H as <-.
      split; auto. eapply putSlot_base; eauto.
Qed.

Lemma die_base : forall e s p s', base P e s -> die s p = Ok s' ->
  base P e s' /\ lpcs s' = lpcs s.
Proof.
  intros e s p s' Hb H. unfold die in H. apply obind_ok in H as (x & Hx & H). apply getSlot_ok in Hx as [Hx Hl].
  injection H as <-. split; auto. eapply putSlot_base; eauto.
Qed.

Lemma idle_base : forall e s t, base P e s -> e = None \/ e = Some t -> base P None (setPc s t LIdle).
Proof.
  intros e s t (H1 & H2 & H3 & H4 & H5) He. repeat (split; [assumption|]).
  intros u p _ Hu. cbn in Hu. destruct (Nat.eqb_spec u t); [discriminate|].
  apply H5; auto. destruct He; congruence.
Qed.

Definition cmdP (tc : nat * lcmd) : Prop :=
  match snd tc with LLock v | LTry v => P (fst tc) v | _ => True end.

Lemma exec_base : forall tc s s', cmdP tc -> base P None s -> lexec tc s = Ok s' -> base P None s'.
Proof.
  intros [t c] s s' Hc Hb H. unfold lexec in H. destruct (lpcs s t) as [|p] eqn:Ep.
  - destruct c.
    + apply obind_ok in H as (s1 & H1 & H). injection H as <-.
      set (x0 := mkSlot None t v false true) in *.
      assert (B : base P None (newSlot s x0)).
      { destruct Hb as (A1 & A2 & A3 & A4 & A5). unfold base; cbn. repeat (split; [assumption|]). split.
        - apply Forall_app. split; auto.
        - intros u p _ Hu. destruct (A5 u p) as (x & Ex & Et & Es); auto; [discriminate|]. exists x. cbn.
          rewrite nth_error_app1; auto. apply nth_error_Some. congruence. }
      destruct (lockAsync_base None _ _ _ B H1) as (C1 & C2 & C3 & C4).
      destruct (C4 x0) as (y & Ey & Et & Es); [cbn; rewrite nth_error_app2, Nat.sub_diag; auto|].
      destruct C1 as (D1 & D2 & D3 & D4 & D5). repeat (split; [assumption|]).
      intros u p _ Hu. cbn in Hu. destruct (Nat.eqb_spec u t).
      * injection Hu as <-. exists y. cbn. split; auto. split; [rewrite Et; auto|].
        intros K. subst u. destruct (Es K) as [Z|Z]; [discriminate Z|exact Z].
      * apply D5; auto. discriminate.
    + injection H as <-. unfold tryLock. destruct (mustWait s v) eqn:E; auto.
      apply enter_base; auto using mustWait_no.
    + destruct (existsb _ (own s)) eqn:E; [|injection H as <-; auto].
      apply existsb_exists in E as ((u & v) & Hin & Eu). cbn in Eu. apply Nat.eqb_eq in Eu. subst u.
      eapply unlock_base in H; eauto; [tauto|]. apply (in_map fst) in Hin. auto.
    + injection H as <-. auto.
  - apply obind_ok in H as (x & Hx & H). apply getSlot_ok in Hx as [Hx Hl].
    assert (D : (if signaled x then let! s := die s p in Ok (setPc s t LIdle) else Ok s) = Ok s' -> base P None s').
    { destruct (signaled x); [|intros K; injection K as <-; auto].
      intros K. apply obind_ok in K as (s1 & K1 & K2). injection K2 as <-.
      apply die_base with (e := None) in K1; auto. destruct K1. eapply idle_base; eauto. }
    destruct c; auto.
    apply obind_ok in H as (s1 & K1 & H). apply obind_ok in H as (s2 & K2 & H). injection H as <-.
    apply (cancel_base s t) in K1; auto. destruct K1 as [K1 K3].
    apply die_base with (e := Some t) in K2; auto. destruct K2. eapply idle_base; eauto.
Qed.

Lemma run_base : forall sched s s', Forall cmdP sched -> base P None s -> lrun sched s = Ok s' -> base P None s'.
Proof.
  induction sched as [|tc sched IH]; cbn [lrun]; intros s s' Hc Hb H; [congruence|].
  apply obind_ok in H as (s1 & H1 & H). inversion Hc; subst.
  apply IH with (s := s1); auto. eapply exec_base; eauto.
Qed.

Lemma init_base : base P None linit.
Proof. unfold base; cbn. repeat split; auto. intros t p _ H. discriminate H. Qed.

End Base.

(** ** the queue: holds as long as nobody cancels *)

Definition linked (s : lstate) (q : list nat) : Prop :=
  forall i p, nth_error q i = Some p ->
  exists x, nth_error (slots s) p = Some x /\ live x = true /\ signaled x = false /\
            snext x = nth_error q (S i) /\ lpcs s (thr x) = LWait p.

Definition qinv (s : lstate) (q : list nat) : Prop :=
  qtop s = nth_error q 0 /\
  (q <> [] -> qbot s = Some (last q 0)) /\
  linked s q /\ NoDup q /\
  parked s = freed s ++ q /\
  (forall t p, lpcs s t = LWait p ->
    exists x, nth_error (slots s) p = Some x /\ live x = true /\ thr x = t /\ (signaled x = false -> In p q)).

Lemma getSlot_eq : forall s p x, nth_error (slots s) p = Some x -> live x = true -> getSlot s p = Ok x.
Proof. unfold getSlot. intros s p x -> ->. auto. Qed.

Lemma releaseTop_q : forall s p q, qinv s (p :: q) ->
  exists x s', nth_error (slots s) p = Some x /\ releaseTopThread s = Ok s' /\ qinv s' q /\
    curLevel s' = level x /\ length (slots s') = length (slots s) /\ own s' = (thr x, level x) :: own s.
Proof.
  intros s p q (H1 & H2 & H3 & H4 & H5 & H6).
  destruct (H3 0 p) as (x & Ex & El & Es & En & Ew); auto.
  exists x. unfold releaseTopThread. cbn in H1. rewrite H1. rewrite (getSlot_eq s p x); auto. cbn [obind].
  eexists. split; auto. split; [reflexivity|]. split; [|cbn; rewrite upd_length; auto].
  inversion H4; subst.
  unfold qinv. cbn. split; [cbn in En; auto|]. split.
  { intros Hn. rewrite H2; [|discriminate]. destruct q; [contradiction|]. reflexivity. }
  split.
  { intros i r Hr. destruct (H3 (S i) r) as (y & Ey & Ey1 & Ey2 & Ey3 & Ey4); auto.
    exists y. cbn. rewrite nth_error_upd_ne; auto. intros ->. apply nth_error_In in Hr. contradiction. }
  split; auto. split; [rewrite <- app_assoc; auto|].
  intros t r Hr. destruct (H6 t r Hr) as (y & Ey & Ey1 & Ey2 & Ey3).
  destruct (Nat.eq_dec p r).
  - subst r. rewrite Ex in Ey. injection Ey as <-. exists (setSignaled x). cbn.
    split; [apply nth_error_upd_eq; apply nth_error_Some; congruence|]. repeat split; auto. discriminate.
  - exists y. rewrite nth_error_upd_ne; auto. repeat split; auto. intros K. destruct (Ey3 K); [congruence|auto].
Qed.

Lemma releaseSame_q : forall fuel s q, qinv s q -> length q <= fuel ->
  exists s' q1 q2, q = q1 ++ q2 /\ releaseSame fuel s = Ok s' /\ qinv s' q2.
Proof.
  induction fuel as [|f IH]; intros s q Hq Hl.
  - destruct q; [|cbn in Hl; lia]. exists s, [], []. cbn. pose proof Hq as [-> _]. auto.
  - destruct q as [|p q].
    + exists s, [], []. cbn. pose proof Hq as [-> _]. auto.
    + pose proof Hq as [Ht _]. cbn in Ht. cbn [releaseSame]. rewrite Ht.
      pose proof Hq as (_ & _ & H3 & _). destruct (H3 0 p) as (x & Ex & El & _); auto.
      rewrite (getSlot_eq s p x); auto. cbn [obind].
      destruct (level x =? curLevel s)%Z.
      * destruct (releaseTop_q s p q Hq) as (x' & s1 & _ & E & Hq1 & _). rewrite E. cbn [obind].
        destruct (IH s1 q Hq1) as (s2 & q1 & q2 & -> & E2 & H2); [cbn in Hl; lia|].
        exists s2, (p :: q1), q2. auto.
      * exists s, [], (p :: q). auto.
Qed.

Lemma q_short : forall s q, qinv s q -> length q <= length (slots s).
Proof.
  intros s q (_ & _ & H3 & H4 & _).
  assert (incl q (seq 0 (length (slots s)))).
  { intros p Hp. apply In_nth_error in Hp as (i & Hi). destruct (H3 i p Hi) as (x & Ex & _).
    apply in_seq. assert (p < length (slots s)) by (apply nth_error_Some; congruence). lia. }
  apply NoDup_incl_length in H; auto. rewrite seq_length in H. auto.
Qed.

(** what the last owner's unlock does *)
Lemma unlock_q : forall s q t, qinv s q ->
  exists s' q1 q2, q = q1 ++ q2 /\ unlock s t = Ok s' /\ qinv s' q2 /\
    (pred (useCount s) = 0 -> q <> [] -> q1 <> []).
Proof.
  intros s q t Hq. unfold unlock. cbn.
  set (s0 := mkL _ _ _ _ _ _ _ _ _).
  assert (Hq0 : qinv s0 q) by exact Hq.
  destruct (Nat.eqb_spec (pred (useCount s)) 0) as [E|E]; [|exists s0, [], q; intuition].
  destruct q as [|p q].
  - destruct Hq as [-> _]. cbn. exists s0, [], []. intuition.
  - pose proof Hq as [Ht _]. rewrite Ht. cbn [nth_error].
    destruct (releaseTop_q s0 p q Hq0) as (x' & s1 & _ & E1 & Hq1 & _ & L & _). rewrite E1. cbn [obind].
    destruct (releaseSame_q (length (slots s)) s1 q Hq1) as (s2 & q1 & q2 & -> & E2 & H2).
    { apply q_short in Hq1. rewrite L in Hq1. exact Hq1. }
    exists s2, (p :: q1), q2. repeat split; auto; try apply H2. discriminate.
Qed.

Lemma last_nth_error : forall (q : list nat) d, q <> [] -> nth_error q (length q - 1) = Some (last q d).
Proof.
  intros q d H. destruct q as [|a q] using rev_ind; [contradiction|].
  rewrite last_last, app_length. cbn. rewrite nth_error_app2; [|lia].
  replace (length q + 1 - 1 - length q) with 0 by lia. reflexivity.
Qed.

Definition noCancel (tc : nat * lcmd) : Prop := snd tc <> LCancel.

Lemma fresh_q : forall s q x t,
  qinv s q -> thr x = t -> lpcs s t = LIdle -> live x = true ->
  forall i p, nth_error q i = Some p -> p <> length (slots s).
Proof.
  intros s q x t (_&_&H3&_) _ _ _ i p Hi. destruct (H3 i p Hi) as (y & Ey & _).
  assert (p < length (slots s)) by (apply nth_error_Some; congruence). lia.
Qed.

Lemma lock_q : forall s q t v, qinv s q -> lpcs s t = LIdle ->
  exists s' q', lexec (t, LLock v) s = Ok s' /\ qinv s' q'.
Proof.
  intros s q t v Hq Ht. unfold lexec. rewrite Ht. unfold lockAsync.
  set (x0 := mkSlot None t v false true). set (n := length (slots s)).
  assert (Hn : nth_error (slots s ++ [x0]) n = Some x0) by (unfold n; rewrite nth_error_app2, Nat.sub_diag; auto).
  rewrite (getSlot_eq (newSlot s x0) n x0); auto. cbn [obind].
  destruct Hq as (H1 & H2 & H3 & H4 & H5 & H6).
  assert (Hfr : forall i p, nth_error q i = Some p -> p < n).
  { intros i p Hi. destruct (H3 i p Hi) as (y & Ey & _). apply nth_error_Some. congruence. }
  assert (Hold : forall p x, nth_error (slots s) p = Some x -> nth_error (slots s ++ [x0]) p = Some x).
  { intros p x Hp. rewrite nth_error_app1; auto. apply nth_error_Some. congruence. }
  assert (Hlt : forall p x, nth_error (slots s) p = Some x -> p <> n).
  { intros p x Hp ->. assert (n < length (slots s)) by (apply nth_error_Some; congruence). unfold n in *. lia. }
  assert (Hlen : forall p x, nth_error (slots s) p = Some x -> p < length (slots s ++ [x0])).
  { intros p x Hp. rewrite app_length. assert (p < length (slots s)) by (apply nth_error_Some; congruence). lia. }
  assert (Hpc : forall u p, lpcs s u = LWait p -> u <> t) by (intros; congruence).
  destruct (mustWait (newSlot s x0) (level x0)) eqn:Em.
  - cbn [logPark newSlot qtop qbot]. destruct q as [|a q].
    + cbn in H1. rewrite H1. cbn [obind]. eexists. exists [n]. split; [reflexivity|].
      unfold qinv; cbn. split; auto. split; auto. split.
      { intros i p Hp. destruct i; [|destruct i; discriminate]. cbn in Hp. injection Hp as <-.
        exists x0. cbn. rewrite Nat.eqb_refl. auto. }
      split; [constructor; auto; constructor|]. split; [rewrite H5, app_nil_r; auto|].
      intros u p Hu. destruct (Nat.eqb_spec u t).
      * injection Hu as <-. exists x0. repeat split; auto.
      * destruct (H6 u p Hu) as (y & Ey & E1 & E2 & E3). exists y. split; auto. repeat split; auto.
        intros K. destruct (E3 K).
    + cbn in H1. rewrite H1. rewrite H2; [|discriminate]. set (b := last (a :: q) 0) in *.
      assert (Hb : nth_error (a :: q) (length q) = Some b).
      { unfold b. rewrite <- (last_nth_error (a :: q) 0); [|discriminate]. f_equal. cbn. lia. }
      clearbody b.
      destruct (H3 _ _ Hb) as (y & Ey & E1 & E2 & E3 & E4).
      rewrite (getSlot_eq _ b y); [|cbn; auto|auto]. cbn [obind].
      eexists. exists ((a :: q) ++ [n]). split; [reflexivity|].
      unfold qinv; cbn -[last app nth_error]. split; auto. split; [intros _; rewrite last_last; auto|]. split.
      { intros i p Hp.
        assert (Hi : i < length (a :: q) \/ i = length (a :: q)).
        { assert (i < length ((a :: q) ++ [n])) by (apply nth_error_Some; congruence).
          rewrite app_length in H. cbn [length] in *. lia. }
        destruct Hi as [Hi| ->].
        - rewrite nth_error_app1 in Hp; auto. destruct (H3 i p Hp) as (z & Ez & F1 & F2 & F3 & F4).
          destruct (Nat.eq_dec p b).
          + subst p. rewrite Ey in Ez. injection Ez as <-. exists (setNext y (Some n)).
            cbn -[nth_error app]. split; [apply nth_error_upd_eq; exact (Hlen _ _ Ey)|].
            split; auto. split; auto.
            assert (i = length q).
            { eapply (NoDup_nth_error (a :: q)); eauto. congruence. }
            subst i. split; [rewrite nth_error_app2; cbn [length]; [rewrite Nat.sub_diag|]; auto|].
            destruct (Nat.eqb_spec (thr y) t); auto. apply Hpc in F4. contradiction.
          + exists z. cbn -[nth_error app]. split; [rewrite nth_error_upd_ne; auto|]. split; auto. split; auto. split.
            * rewrite F3. destruct (Nat.eq_dec i (length q)).
              { subst i. congruence. }
              rewrite nth_error_app1; auto. cbn in *. lia.
            * destruct (Nat.eqb_spec (thr z) t); auto. apply Hpc in F4. contradiction.
        - rewrite nth_error_app2, Nat.sub_diag in Hp; auto. injection Hp as <-.
          exists x0. cbn -[nth_error app]. rewrite Nat.eqb_refl. split; [rewrite nth_error_upd_ne; auto|].
          { intros K. apply Hlt in Ey. congruence. }
          repeat split; auto. symmetry. apply nth_error_None. rewrite app_length. cbn. lia. }
      split.
      { apply NoDup_rev in H4. rewrite <- (rev_involutive ((a :: q) ++ [n])). apply NoDup_rev.
        rewrite rev_app_distr. cbn [rev app]. constructor; auto.
        intros K. rewrite in_app_iff in K. assert (In n (a :: q)).
        { destruct K as [K|K]; [apply in_rev in K; right; auto|]. destruct K as [->|[]]. left; auto. }
        apply In_nth_error in H as (i & Hi). apply Hfr in Hi. lia. }
      split; [rewrite H5, app_assoc; auto|].
      intros u p Hu. destruct (Nat.eqb_spec u t).
      * injection Hu as <-. exists x0. split; [rewrite nth_error_upd_ne; auto|].
        { intros K. apply Hlt in Ey. congruence. }
        repeat split; auto. intros _. apply in_or_app. cbn. auto.
      * destruct (H6 u p Hu) as (z & Ez & F1 & F2 & F3).
        destruct (Nat.eq_dec b p).
        { subst p. rewrite Ey in Ez. injection Ez as <-. exists (setNext y (Some n)).
          split; [apply nth_error_upd_eq; exact (Hlen _ _ Ey)|].
          cbn. repeat split; auto. intros K. apply F3 in K. change (In b ((a :: q) ++ [n])). apply in_or_app. auto. }
        exists z. rewrite nth_error_upd_ne; auto. split; auto. repeat split; auto.
        intros K. apply in_or_app. auto.
  - cbn [obind]. eexists. exists q. split; [reflexivity|]. unfold qinv; cbn -[nth_error].
    split; auto. split; auto. split.
    { intros i p Hi. destruct (H3 i p Hi) as (y & Ey & F1 & F2 & F3 & F4). exists y. cbn -[nth_error].
      split; [rewrite nth_error_upd_ne; auto|].
      { intros K. apply Hlt in Ey. congruence. }
      repeat split; auto. destruct (Nat.eqb_spec (thr y) t); auto. apply Hpc in F4. contradiction. }
    split; auto. split; auto.
    intros u p Hu. destruct (Nat.eqb_spec u t).
    + injection Hu as <-. exists (setSignaled x0). cbn -[nth_error].
      split; [apply nth_error_upd_eq; rewrite app_length; cbn; unfold n; lia|]. repeat split; auto. discriminate.
    + destruct (H6 u p Hu) as (z & Ez & F1 & F2 & F3). exists z.
      split; [rewrite nth_error_upd_ne; auto|].
      { intros K. apply Hlt in Ez. congruence. }
      auto.
Qed.

Lemma exec_q : forall tc s q, noCancel tc -> qinv s q -> exists s' q', lexec tc s = Ok s' /\ qinv s' q'.
Proof.
  intros [t c] s q Hc Hq. destruct (lpcs s t) as [|p] eqn:Ep.
  - destruct c.
    + eapply lock_q; eauto.
    + cbn. rewrite Ep. exists (tryLock s t v), q. split; auto. unfold tryLock. destruct (mustWait s v); auto.
    + cbn. rewrite Ep. destruct (existsb _ _); [|eauto].
      destruct (unlock_q s q t Hq) as (s' & q1 & q2 & _ & E & H & _). eauto.
    + destruct (Hc eq_refl).
  - pose proof Hq as (_&_&H3&H4&_&H6). destruct (H6 t p Ep) as (x & Ex & El & Et & Es).
    cbn. rewrite Ep, (getSlot_eq s p x); auto. cbn [obind].
    assert (D : exists s' q', (if signaled x then let! s := die s p in Ok (setPc s t LIdle) else Ok s) = Ok s' /\ qinv s' q').
    { destruct (signaled x) eqn:E; [|eauto]. unfold die. rewrite (getSlot_eq s p x); auto. cbn [obind].
      eexists. exists q. split; [reflexivity|].
      destruct Hq as (H1 & H2 & _ & _ & H5 & _). unfold qinv; cbn -[nth_error].
      split; auto. split; auto. split.
      - intros i r Hr. destruct (H3 i r Hr) as (y & Ey & F1 & F2 & F3 & F4). exists y. cbn -[nth_error].
        destruct (Nat.eq_dec p r); [subst; congruence|].
        split; [rewrite nth_error_upd_ne; auto|]. repeat split; auto.
        destruct (Nat.eqb_spec (thr y) t); auto. congruence.
      - split; auto. split; auto. intros u r Hr. destruct (Nat.eqb_spec u t); [discriminate|].
        destruct (H6 u r Hr) as (y & Ey & F1 & F2 & F3). exists y.
        split; [rewrite nth_error_upd_ne; auto; intros ->; congruence|]. auto. }
    destruct c; auto. destruct (Hc eq_refl).
Qed.

Lemma run_q : forall sched s q, Forall noCancel sched -> qinv s q ->
  exists s' q', lrun sched s = Ok s' /\ qinv s' q'.
Proof.
  induction sched as [|tc sched IH]; cbn [lrun]; intros s q Hc Hq; [eauto|].
  inversion Hc; subst. destruct (exec_q tc s q) as (s1 & q1 & E & Hq1); auto.
  rewrite E. cbn [obind]. eauto.
Qed.

Lemma init_q : qinv linit [].
Proof.
  unfold qinv; cbn. repeat split; auto; try contradiction; try constructor.
  - intros i p H. destruct i; discriminate.
  - intros t p H. discriminate.
Qed.

(** ** the lock that nobody had to wait for *)

Lemma exec_quiet : forall tc s s', lexec tc s = Ok s' ->
  (parked s = [] -> qbot s = None) -> (exists l, parked s' = parked s ++ l) /\ (parked s' = [] -> qbot s' = None).
Proof.
  assert (R : forall s s', releaseTopThread s = Ok s' -> parked s' = parked s /\ qbot s' = qbot s).
  { intros s s' H. unfold releaseTopThread in H. destruct (qtop s); [|discriminate].
    apply obind_ok in H as (x & _ & H). injection H as <-. auto. }
  assert (RS : forall f s s', releaseSame f s = Ok s' -> parked s' = parked s /\ qbot s' = qbot s).
  { induction f as [|f IH]; intros s s' H; cbn in H; destruct (qtop s);
      try (injection H as <-; auto; fail); apply obind_ok in H as (x & _ & H);
      destruct (level x =? curLevel s)%Z; try discriminate; try (injection H as <-; auto; fail).
    apply obind_ok in H as (s1 & H1 & H). apply R in H1. apply IH in H. intuition congruence. }
  assert (U : forall t s s', unlock s t = Ok s' -> parked s' = parked s /\ qbot s' = qbot s).
  { intros t s s' H. unfold unlock in H. cbn in H. destruct (pred (useCount s) =? 0); [|injection H as <-; auto].
    destruct (qtop s); [|injection H as <-; auto]. apply obind_ok in H as (s1 & H1 & H).
    apply R in H1. apply RS in H. cbn in *. intuition congruence. }
  assert (S_ : forall s s', parked s' = parked s /\ qbot s' = qbot s -> (parked s = [] -> qbot s = None) ->
     (exists l, parked s' = parked s ++ l) /\ (parked s' = [] -> qbot s' = None)).
  { intros s s' [E1 E2] H. split; [exists []; rewrite app_nil_r; auto|]. rewrite E1, E2. auto. }
  intros [t c] s s' H Hq. unfold lexec in H. destruct (lpcs s t) as [|p].
  - destruct c.
    + apply obind_ok in H as (s1 & H1 & H). injection H as <-. unfold lockAsync in H1.
      apply obind_ok in H1 as (x & Hx & H1). cbn -[getSlot mustWait] in H1.
      destruct (mustWait _ (level x)).
      * split.
        { destruct (qtop s).
          - destruct (qbot s); [|discriminate]. apply obind_ok in H1 as (y & _ & H1). injection H1 as <-. cbn. eauto.
          - injection H1 as <-. cbn. eauto. }
        { intros K. exfalso. destruct (qtop s).
          - destruct (qbot s); [|discriminate]. apply obind_ok in H1 as (y & _ & H1). injection H1 as <-. cbn in K.
            destruct (parked s); discriminate.
          - injection H1 as <-. cbn in K. destruct (parked s); discriminate. }
      * injection H1 as <-. apply S_; auto.
    + injection H as <-. apply S_; auto. unfold tryLock. destruct (mustWait s v); auto.
    + destruct (existsb _ _); [|injection H as <-; apply S_; auto]. apply S_; eauto.
    + injection H as <-; apply S_; auto.
  - apply obind_ok in H as (x & Hx & H).
    assert (D : (if signaled x then let! s := die s p in Ok (setPc s t LIdle) else Ok s) = Ok s' -> parked s' = parked s /\ qbot s' = qbot s).
    { destruct (signaled x); [|intros K; injection K as <-; auto]. unfold die.
      intros K. apply obind_ok in K as (s1 & K & K2). apply obind_ok in K as (y & _ & K). injection K as <-. injection K2 as <-. auto. }
    apply S_; auto.
    destruct c; auto.
    apply obind_ok in H as (s1 & K1 & H). apply obind_ok in H as (s2 & K2 & H). injection H as <-.
    assert (E1 : parked s1 = parked s /\ qbot s1 = qbot s).
    { unfold cancelAsync in K1. apply obind_ok in K1 as (y & _ & K1). destruct (signaled y); [eapply U; eauto|].
      destruct (qtop s) as [a|]; [|discriminate]. destruct (a =? p); [injection K1 as <-; auto|].
      apply obind_ok in K1 as (q & _ & K1). destruct q; [|discriminate].
      apply obind_ok in K1 as (z & _ & K1). injection K1 as <-. auto. }
    unfold die in K2. apply obind_ok in K2 as (y & _ & K2). injection K2 as <-. auto.
Qed.

Lemma run_quiet : forall sched s s', lrun sched s = Ok s' ->
  (parked s = [] -> qbot s = None) -> (exists l, parked s' = parked s ++ l) /\ (parked s' = [] -> qbot s' = None).
Proof.
  induction sched as [|tc sched IH]; cbn [lrun]; intros s s' H Hq.
  - injection H as <-. split; auto. exists []. rewrite app_nil_r. auto.
  - apply obind_ok in H as (s1 & H1 & H). apply exec_quiet in H1; auto. destruct H1 as ((l & E) & H1).
    apply IH in H; auto. destruct H as ((l' & E') & H). split; auto. exists (l ++ l'). rewrite E', E, app_assoc. auto.
Qed.

(** ** the lock that is lost *)

Definition stuck (s : lstate) : Prop := own s = [] /\ qbot s <> None.

Lemma exec_stuck : forall tc s s', base (fun _ _ => True) None s -> stuck s -> lexec tc s = Ok s' -> stuck s'.
Proof.
  intros [t c] s s' Hb [H1 H2] H. unfold lexec in H. destruct (lpcs s t) as [|p] eqn:Ep.
  - destruct c.
    + apply obind_ok in H as (s1 & K & H). injection H as <-. unfold lockAsync in K.
      apply obind_ok in K as (x & Hx & K). cbn -[getSlot] in K. unfold mustWait in K. cbn -[getSlot] in K.
      destruct (qbot s) as [b|]; [|congruence]. destruct (qtop s).
      * apply obind_ok in K as (y & _ & K). injection K as <-. split; cbn; auto. discriminate.
      * injection K as <-. split; cbn; auto. discriminate.
    + injection H as <-. unfold tryLock, mustWait. destruct (qbot s) eqn:E; [|congruence]. split; congruence.
    + rewrite H1 in H. cbn in H. injection H as <-. split; auto.
    + injection H as <-. split; auto.
  - apply obind_ok in H as (x & Hx & H). apply getSlot_ok in Hx as [Hx Hl].
    assert (Hs : signaled x = false).
    { destruct Hb as (_ & _ & _ & _ & Hw). destruct (Hw t p) as (y & Ey & _ & Es); auto; [discriminate|].
      rewrite Hx in Ey. injection Ey as <-. rewrite H1 in Es. destruct (signaled x); auto. destruct (Es eq_refl). }
    rewrite Hs in H.
    assert (D : Ok s = Ok s' -> stuck s') by (intros K; injection K as <-; split; auto).
    destruct c; auto.
    apply obind_ok in H as (s1 & K1 & H). apply obind_ok in H as (s2 & K2 & H). injection H as <-.
    assert (E1 : stuck s1).
    { unfold cancelAsync in K1. apply obind_ok in K1 as (y & Hy & K1). apply getSlot_ok in Hy as [Hy _].
      rewrite Hx in Hy. injection Hy as <-. rewrite Hs in K1.
      destruct (qtop s) as [a|]; [|discriminate]. destruct (a =? p); [injection K1 as <-; split; auto|].
      apply obind_ok in K1 as (q & _ & K1). destruct q; [|discriminate].
      apply obind_ok in K1 as (z & _ & K1). injection K1 as <-. split; auto. }
    unfold die in K2. apply obind_ok in K2 as (y & _ & K2). injection K2 as <-. destruct E1. split; auto.
Qed.

Lemma run_stuck : forall sched s s', base (fun _ _ => True) None s -> stuck s -> lrun sched s = Ok s' -> stuck s'.
Proof.
  induction sched as [|tc sched IH]; cbn [lrun]; intros s s' Hb Hs H; [congruence|].
  apply obind_ok in H as (s1 & H1 & H). apply (IH s1); auto; [|eapply exec_stuck; eauto].
  eapply exec_base; eauto. unfold cmdP. destruct (snd tc); auto.
Qed.
