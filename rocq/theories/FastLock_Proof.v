(** Lemmas about FastLock: the invariant of all schedules. *)
From Verif Require Import Common FastLock_Model.

Lemma addr_eqb_eq a b : addr_eqb a b = true <-> a = b.
Proof.
  destruct a as [a1 a2], b as [b1 b2]. unfold addr_eqb. simpl.
  rewrite andb_true_iff, !Nat.eqb_eq. split; [intros [-> ->]; auto|intros H; injection H; auto].
Qed.

Lemma oaddr_eqb_eq a b : oaddr_eqb a b = true <-> a = b.
Proof.
  destruct a as [a|], b as [b|]; simpl; try (split; congruence).
  rewrite addr_eqb_eq. split; congruence.
Qed.

Lemma oaddr_eqb_ne a b : oaddr_eqb a b = false <-> a <> b.
Proof. rewrite <- oaddr_eqb_eq. destruct (oaddr_eqb a b); split; congruence. Qed.

(** the slots behind the holder, the oldest first; each links to the one before *)
Fixpoint chained (nx : addr -> option addr) (h : addr) (w : list addr) : Prop :=
  match w with
  | [] => True
  | a :: w' => nx a = Some h /\ chained nx a w'
  end.

Definition waiting s (a : addr) : Prop :=
  pcs s (fst a) = Wait (snd a) \/ pcs s (fst a) = Halt (snd a).

Definition holder s (h : addr) (w : list addr) : Prop :=
  match pcs s (fst h) with
  | TryOwn d | SlowOwn d => d = snd h /\ owner s = None
  | Wait d | Halt d => d = snd h /\ owner s = Some h
  | Crit | URead => owner s = Some h
  | USet o => owner s = Some h /\ o = Some h
  | UCas o => owner s = None /\ o = Some h
  | UScan o p => owner s = None /\ o = Some h /\ In p w
  | UNotify p => owner s = None /\ hd_error w = Some p
  | UOwner p n => owner s = None /\ hd_error w = Some p /\ n = fst p
  | _ => False
  end.

Definition outside s (t : nat) : Prop :=
  match pcs s t with
  | Idle | LRead _ | TryCas _ _ | AddRead _ | AddNext _ _ | UWake _ | Gone => True
  | AddCas d tmp => next s (t, d) = tmp
  | Crashed => exists u, pcs s u = Gone
  | _ => False
  end.

Definition hasLock (p : pc) : bool :=
  match p with
  | Crit | URead | USet _ | UCas _ | UScan _ _ | UNotify _ | UOwner _ _ => true
  | _ => false
  end.

Definition wakeOk s : Prop :=
  forall t d, owner s = Some (t, d) -> pcs s t = Halt d ->
    tok s t = true \/ exists u, pcs s u = UWake t.

Definition body s (q : list addr) : Prop :=
  match q with
  | [] => queue s = None /\ owner s = None /\ enq s = acq s
  | h :: w => queue s = Some (last w h) /\ chained (next s) h w /\ holder s h w /\
              Forall (waiting s) w /\
              enq s = acq s ++ map fst (if hasLock (pcs s (fst h)) then w else q)
  end.

Record inv s q : Prop := {
  v_nodup : NoDup (map fst q);
  v_out : forall t, ~ In t (map fst q) -> outside s t;
  v_body : body s q;
  v_wake : wakeOk s
}.

Lemma inv_init : inv init [].
Proof.
  constructor; simpl; auto.
  - constructor.
  - intros t _. unfold outside. simpl. auto.
  - unfold wakeOk. simpl. discriminate.
Qed.

Lemma chained_ext nx nx' h w :
  (forall a, In a w -> nx a = nx' a) -> chained nx h w -> chained nx' h w.
Proof.
  revert h. induction w as [|a w IH]; simpl; intros h H; auto.
  intros [H1 H2]. split; [rewrite <- H; auto|]. apply IH; auto.
Qed.

Lemma last_default {A} (a : A) w h k : last (a :: w) h = last (a :: w) k.
Proof. revert a. induction w as [|b w IH]; intros a; auto. exact (IH b). Qed.

Lemma chained_snoc nx h w a : chained nx h w -> nx a = Some (last w h) -> chained nx h (w ++ [a]).
Proof.
  revert h. induction w as [|b w IH]; simpl; intros h H E; auto.
  destruct H as [H1 H2]. split; auto. apply IH; auto.
  rewrite E. destruct w as [|c w]; auto. f_equal. apply last_default.
Qed.

Lemma last_snoc {A} (w : list A) h a : last (w ++ [a]) h = a.
Proof. induction w as [|b w IH]; simpl; auto. destruct (w ++ [a]) eqn:E; auto. destruct w; discriminate. Qed.

Lemma last_in {A} (a : A) w h : In (last (a :: w) h) (a :: w).
Proof. revert a. induction w as [|b w IH]; intros a; [simpl; auto|]. right. apply (IH b). Qed.

(** the slot before a waiting one *)
Lemma chained_prev nx h w p : chained nx h w -> In p w ->
  (nx p = Some h /\ hd_error w = Some p) \/ exists p', nx p = Some p' /\ In p' w.
Proof.
  revert h. induction w as [|a w IH]; simpl; intros h C H; [tauto|]. destruct C as [E C].
  destruct H as [->|H]; [auto|]. right.
  destruct (IH a C H) as [[E2 _]|(p' & E2 & I)]; eauto.
Qed.

Lemma in_fst a (q : list addr) : In a q -> In (fst a) (map fst q).
Proof. apply in_map. Qed.

(** ** A thread outside the queue moves, the queue stays *)
Lemma out_step s s' q t :
  inv s q -> ~ In t (map fst q) ->
  queue s' = queue s -> owner s' = owner s -> enq s' = enq s -> acq s' = acq s ->
  (forall a, fst a <> t -> next s' a = next s a) ->
  (forall u, u <> t -> pcs s' u = pcs s u) ->
  (forall u, tok s u = true -> tok s' u = true) ->
  (forall n, pcs s t = UWake n -> tok s' n = true \/ pcs s n = Gone) ->
  (pcs s t = Gone -> pcs s' t = Gone) ->
  outside s' t -> (forall d, pcs s' t <> Halt d) ->
  inv s' q.
Proof.
  intros [ND OUT B W] N Eq Eo Ee Ea En Ep Et Hw Hg Ho Hh.
  assert (Hin : forall a, In a q -> pcs s' (fst a) = pcs s (fst a)).
  { intros a Ha. apply Ep. intros E. apply N. rewrite <- E. apply in_fst, Ha. }
  constructor; auto.
  - intros u Hu. destruct (Nat.eq_dec u t) as [->|Hut]; auto.
    specialize (OUT u Hu). unfold outside in *. rewrite (Ep u Hut).
    destruct (pcs s u) eqn:E; auto.
    + rewrite En; auto.
    + destruct OUT as [v Hv]. exists v. destruct (Nat.eq_dec v t) as [->|]; auto. rewrite Ep; auto.
  - destruct q as [|h w]; simpl in *.
    + rewrite Eq, Eo, Ee, Ea. auto.
    + destruct B as (B1 & B2 & B3 & B4 & B5). rewrite Eq, Ee, Ea.
      rewrite (Hin h) by auto. split; auto. split; [|split; [|split; auto]].
      * eapply chained_ext; [|exact B2]. intros a Ha. symmetry. apply En. intros <-.
        apply N. right. apply in_fst, Ha.
      * unfold holder in *. rewrite (Hin h) by auto. rewrite Eo. exact B3.
      * rewrite Forall_forall in *. intros a Ha. unfold waiting. rewrite Hin by auto. apply B4; auto.
  - intros u d Ho' Hp. rewrite Eo in Ho'. destruct (Nat.eq_dec u t) as [->|Hut].
    + exfalso. eapply Hh; eauto.
    + rewrite Ep in Hp by auto. destruct (W u d Ho' Hp) as [H|[v Hv]]; auto.
      destruct (Nat.eq_dec v t) as [->|Hvt].
      * destruct (Hw _ Hv) as [H|H]; auto. congruence.
      * right. exists v. rewrite Ep; auto.
Qed.

(** ** A thread outside enters the queue *)
Lemma enq_step s s' q t d :
  inv s q -> ~ In t (map fst q) ->
  queue s' = Some (t, d) -> owner s' = owner s -> enq s' = enq s ++ [t] -> acq s' = acq s ->
  next s' = next s -> (forall u, u <> t -> pcs s' u = pcs s u) -> tok s' = tok s ->
  (forall n, pcs s t <> UWake n) -> pcs s t <> Gone ->
  (match q with
   | [] => pcs s' t = TryOwn d \/ pcs s' t = SlowOwn d
   | _ => pcs s' t = Wait d /\ next s (t, d) = queue s
   end) ->
  inv s' (q ++ [(t, d)]).
Proof.
  intros [ND OUT B W] N Eq Eo Ee Ea En Ep Et Hw Hg Hp.
  assert (Hin : forall a, In a q -> pcs s' (fst a) = pcs s (fst a)).
  { intros a Ha. apply Ep. intros E. apply N. rewrite <- E. apply in_fst, Ha. }
  constructor.
  - rewrite map_app. simpl. apply NoDup_Add with (a := t) (l := map fst q).
    + rewrite <- (app_nil_r (map fst q)) at 1. apply Add_app.
    + auto.
  - intros u Hu. rewrite map_app, in_app_iff in Hu. simpl in Hu.
    assert (Hut : u <> t) by (intros ->; tauto).
    specialize (OUT u ltac:(tauto)). unfold outside in *. rewrite (Ep u Hut).
    destruct (pcs s u) eqn:E; auto.
    + rewrite En; auto.
    + destruct OUT as [v Hv]. exists v. destruct (Nat.eq_dec v t) as [->|]; [congruence|]. rewrite Ep; auto.
  - destruct q as [|h w]; simpl in *.
    + destruct B as (B1 & B2 & B3). rewrite Eq, Ee, Ea, B3. split; auto. split; auto.
      destruct Hp as [Hp|Hp]; unfold holder; simpl; rewrite Hp, Eo; simpl; auto.
    + destruct B as (B1 & B2 & B3 & B4 & B5). destruct Hp as [Hp1 Hp2].
      rewrite last_snoc. split; auto. split; [|split; [|split]].
      * rewrite En. apply chained_snoc; auto. congruence.
      * unfold holder in *. rewrite (Hin h) by auto. rewrite Eo.
        destruct (pcs s (fst h)); auto.
        -- rewrite in_app_iff. tauto.
        -- destruct w; [destruct B3; discriminate|exact B3].
        -- destruct w; [destruct B3 as (_ & B3 & _); discriminate|exact B3].
      * rewrite Forall_app. split.
        -- rewrite Forall_forall in *. intros a Ha. unfold waiting. rewrite Hin by auto. apply B4; auto.
        -- constructor; auto. left. auto.
      * rewrite (Hin h) by auto. rewrite Ee, B5, Ea, <- app_assoc. f_equal.
        destruct (hasLock _); simpl; rewrite map_app; auto.
  - intros u e Ho Hh. rewrite Eo in Ho. destruct (Nat.eq_dec u t) as [->|Hut].
    + exfalso. destruct q; [destruct Hp; congruence|destruct Hp; congruence].
    + rewrite Ep in Hh by auto. rewrite Et. destruct (W u e Ho Hh) as [H|[v Hv]]; auto.
      right. exists v. rewrite Ep; auto. intros ->. eapply Hw; eauto.
Qed.

(** ** A thread of the queue moves and stays in it *)
Lemma in_step s s' q t :
  inv s q -> In t (map fst q) ->
  queue s' = queue s -> enq s' = enq s ->
  next s' = next s ->
  (forall u, u <> t -> pcs s' u = pcs s u) ->
  (forall u, u <> t -> tok s u = true -> tok s' u = true) ->
  match q with
  | [] => False
  | h :: w =>
     (if t =? fst h then
        holder s' h w /\
        enq s = acq s' ++ map fst (if hasLock (pcs s' (fst h)) then w else q) /\
        (forall d, owner s' = Some (t, d) -> pcs s' t = Halt d -> tok s' t = true)
      else
        owner s' = owner s /\ acq s' = acq s /\
        exists d, (pcs s t = Wait d \/ pcs s t = Halt d) /\ (pcs s' t = Wait d \/ pcs s' t = Halt d))
  end ->
  inv s' q.
Proof.
  intros [ND OUT B W] I Eq Ee En Ep Et H.
  destruct q as [|h w]; [tauto|]. simpl in B. destruct B as (B1 & B2 & B3 & B4 & B5).
  simpl in ND. inversion ND as [|? ? ND1 ND2]; subst.
  assert (Hnw : forall n, pcs s t <> UWake n).
  { intros n Hn. destruct (Nat.eqb_spec t (fst h)) as [->|Ht].
    - unfold holder in B3. rewrite Hn in B3. auto.
    - destruct H as (_ & _ & d & [H|H] & _); congruence. }
  assert (Hng : pcs s t <> Gone).
  { intros Hn. destruct (Nat.eqb_spec t (fst h)) as [->|Ht].
    - unfold holder in B3. rewrite Hn in B3. auto.
    - destruct H as (_ & _ & d & [H|H] & _); congruence. }
  constructor; auto.
  - intros u Hu. assert (Hut : u <> t) by (intros ->; auto).
    specialize (OUT u Hu). unfold outside in *. rewrite (Ep u Hut). rewrite En.
    destruct (pcs s u) eqn:E; auto.
    destruct OUT as [v Hv]. exists v. rewrite Ep; auto. intros ->. congruence.
  - simpl. rewrite Eq, En, Ee. split; auto. split; auto.
    destruct (Nat.eqb_spec t (fst h)) as [->|Ht].
    + destruct H as (H1 & H2 & H3). split; auto. split; auto.
      rewrite Forall_forall in *. intros a Ha. unfold waiting. rewrite Ep; [apply B4; auto|].
      intros E. apply ND1. rewrite <- E. apply in_fst, Ha.
    + destruct H as (H1 & H2 & d & H3 & H4). unfold holder. rewrite H1, H2.
      rewrite (Ep (fst h)) by auto. split; auto. split; auto.
      rewrite Forall_forall in *. intros a Ha. unfold waiting. destruct (Nat.eq_dec (fst a) t) as [E|E].
      * destruct (B4 a Ha) as [X|X]; rewrite E in *; destruct H3; destruct H4; try congruence;
          assert (d = snd a) by congruence; subst d; auto.
      * rewrite Ep by auto. apply B4; auto.
  - intros u e Ho Hh. destruct (Nat.eqb_spec t (fst h)) as [E|Ht].
    + destruct H as (H1 & H2 & H3). destruct (Nat.eq_dec u t) as [->|Hut].
      * left. eapply H3; eauto.
      * exfalso. unfold holder in H1. rewrite Ho in H1.
        assert (h = (u, e)).
        { destruct (pcs s' (fst h)); try tauto; intuition congruence. }
        subst h. simpl in E. congruence.
    + destruct H as (H1 & H2 & d & H3 & H4). rewrite H1 in Ho.
      assert (Eh : h = (u, e)).
      { unfold holder in B3. rewrite Ho in B3. destruct (pcs s (fst h)); try tauto; intuition congruence. }
      assert (Hut : u <> t) by (intros ->; rewrite Eh in Ht; simpl in Ht; congruence).
      rewrite Ep in Hh by auto. destruct (W u e Ho Hh) as [X|[v Hv]]; auto.
      right. exists v. rewrite Ep; auto. intros ->. congruence.
Qed.

Lemma holder_owner s h w a : holder s h w -> owner s = Some a -> a = h.
Proof. unfold holder. destruct (pcs s (fst h)); intuition congruence. Qed.

Lemma waiting_lives s a : waiting s a -> slotLives s a = true.
Proof. unfold waiting, slotLives. intros [-> | ->]; apply Nat.eqb_refl. Qed.

Definition plain (tc : nat * cmd) : Prop :=
  match snd tc with CGive _ => False | _ => True end.

Ltac pcsimp :=
  cbn [setPc setQueue setOwner setNext setTok logEnq logAcq queue owner next tok pcs enq acq] in *.

Lemma eqb_ne u t : u <> t -> (u =? t) = false.
Proof. apply Nat.eqb_neq. Qed.

Lemma addr_eqb_ne a b : a <> b -> addr_eqb a b = false.
Proof. intros H. destruct (addr_eqb a b) eqn:E; auto. apply addr_eqb_eq in E. congruence. Qed.


Ltac upc := rewrite ?Nat.eqb_refl; try (intros u Hu; rewrite eqb_ne by auto; auto; fail).

Lemma move_in s q t c s' :
  inv s q -> In t (map fst q) -> (forall u, c <> CGive u) -> move t c s = Some s' ->
  exists q', inv s' q'.
Proof.
  intros I Hi Hg E.
  destruct q as [|h w]; [destruct Hi|]. pose proof (v_body _ _ I) as B. simpl in B.
  destruct B as (B1 & B2 & B3 & B4 & B5). pose proof (v_nodup _ _ I) as ND.
  inversion ND as [|? ? ND1 ND2]; subst.
  destruct (Nat.eq_dec t (fst h)) as [Et|Et].
  - (* the holder *)
    assert (Eh : h = (t, snd h)) by (destruct h; simpl in *; congruence).
    unfold holder in B3. rewrite <- Et in B3, B5.
    assert (X : forall s' : state, queue s' = queue s -> enq s' = enq s -> next s' = next s ->
      (forall u, u <> t -> pcs s' u = pcs s u) ->
      (forall u, u <> t -> tok s u = true -> tok s' u = true) ->
      holder s' h w ->
      enq s = acq s' ++ map fst (if hasLock (pcs s' t) then w else h :: w) ->
      (forall d, pcs s' t <> Halt d) -> exists q', inv s' q').
    { intros z Z1 Z2 Z3 Z4 Z5 Z6 Z7 Z8. exists (h :: w). eapply (in_step s z (h :: w) t); eauto.
      rewrite <- Et, Nat.eqb_refl. split; auto. split; auto. intros d _ Hd. exfalso. eapply Z8; eauto. }
    assert (Y : forall p, (match p with Halt _ => False | _ => True end) ->
      hasLock p = hasLock (pcs s t) ->
      holder (setPc s t p) h w -> exists q', inv (setPc s t p) q').
    { intros p Hp Hl Hh. apply X; auto; pcsimp.
      - upc.
      - rewrite Nat.eqb_refl, Hl. auto.
      - rewrite Nat.eqb_refl. intros d ->. auto. }
    unfold move in E.
    destruct (pcs s t) as [ |d|d lk|d|d|d tmp|d tmp|d|d|d| | |o|o|o p|p|p n|n| | ] eqn:Ep; try tauto.
    + (* TryOwn *)
      injection E as <-. destruct B3 as [-> Eo]. apply X; auto; pcsimp; upc.
      * unfold holder. pcsimp. rewrite <- Et, Nat.eqb_refl, <- Eh. auto.
      * cbn [hasLock] in *. rewrite B5. cbn [map]. rewrite <- app_assoc, <- Et. auto.
      * discriminate.
    + (* SlowOwn *)
      injection E as <-. destruct B3 as [-> Eo]. apply X; auto; pcsimp; upc.
      * unfold holder. pcsimp. rewrite <- Et, Nat.eqb_refl, <- Eh. auto.
      * cbn [hasLock] in *. rewrite B5. cbn [map]. rewrite <- app_assoc, <- Et. auto.
      * discriminate.
    + (* Wait *)
      destruct B3 as [-> Eo].
      destruct (oaddr_eqb (owner s) (Some (t, snd h))) eqn:Z;
        [|exfalso; apply oaddr_eqb_ne in Z; apply Z; rewrite Eo; f_equal; exact Eh]. injection E as <-. apply X; auto; pcsimp; upc.
      * unfold holder. pcsimp. rewrite <- Et, Nat.eqb_refl. auto.
      * cbn [hasLock] in *. rewrite B5. cbn [map]. rewrite <- app_assoc, <- Et. auto.
      * discriminate.
    + (* Halt *)
      destruct B3 as [-> Eo]. destruct (tok s t); [|discriminate]. injection E as <-.
      apply X; auto; pcsimp; upc.
      * unfold holder. pcsimp. rewrite <- Et, Nat.eqb_refl. auto.
      * cbn [hasLock] in *. auto.
      * discriminate.
    + (* Crit *)
      destruct c; try discriminate; [|exfalso; eapply Hg; eauto]. injection E as <-.
      apply Y; auto. unfold holder. pcsimp. rewrite <- Et, Nat.eqb_refl. auto.
    + (* URead *)
      injection E as <-. apply Y; auto. unfold holder. pcsimp. rewrite <- Et, Nat.eqb_refl. auto.
    + (* USet *)
      destruct B3 as [Eo ->]. injection E as <-. apply X; auto; pcsimp; upc.
      * unfold holder. pcsimp. rewrite <- Et, Nat.eqb_refl. auto.
      * cbn [hasLock] in *. auto.
      * discriminate.
    + (* UCas *)
      destruct B3 as [Eo ->]. destruct (oaddr_eqb (queue s) (Some h)) eqn:Eq.
      * apply oaddr_eqb_eq in Eq. injection E as <-.
        assert (w = []).
        { destruct w as [|a w]; auto. exfalso. rewrite B1 in Eq.
          assert (Eq2 : last (a :: w) h = h) by congruence.
          pose proof (in_fst _ _ (last_in a w h)) as Hl. rewrite Eq2 in Hl. auto. }
        subst w. exists []. constructor.
        -- constructor.
        -- intros u _. unfold outside. pcsimp. destruct (Nat.eqb_spec u t) as [->|Hu]; auto.
           pose proof (v_out _ _ I u ltac:(simpl; intros [H|[]]; congruence)) as O.
           unfold outside in O. destruct (pcs s u) eqn:Eu; auto.
           destruct O as [v Hv]. exists v. destruct (Nat.eqb_spec v t) as [->|]; congruence.
        -- simpl. split; auto. split; auto. cbn [hasLock] in B5. rewrite B5. simpl.
           rewrite app_nil_r. auto.
        -- intros u d Ho. pcsimp. congruence.
      * rewrite B1 in E. injection E as <-. apply Y; auto. unfold holder. pcsimp.
        rewrite <- Et, Nat.eqb_refl. split; auto. split; auto.
        destruct w as [|a w].
        -- exfalso. apply oaddr_eqb_ne in Eq. apply Eq. rewrite B1. auto.
        -- apply last_in.
    + (* UScan *)
      destruct B3 as (Eo & -> & Hp). rewrite Forall_forall in B4.
      rewrite (waiting_lives s p (B4 p Hp)) in E.
      destruct (chained_prev _ _ _ _ B2 Hp) as [[En Hd]|(p' & En & Hp')]; rewrite En in E.
      * destruct (oaddr_eqb (Some h) (Some h)) eqn:Z; [|apply oaddr_eqb_ne in Z; congruence]. injection E as <-. apply Y; auto. unfold holder. pcsimp.
        rewrite <- Et, Nat.eqb_refl. auto.
      * destruct (oaddr_eqb (Some p') (Some h)) eqn:Ez.
        -- exfalso. apply oaddr_eqb_eq in Ez. injection Ez as ->. apply ND1, in_fst, Hp'.
        -- injection E as <-. apply Y; auto. unfold holder. pcsimp.
           rewrite <- Et, Nat.eqb_refl. auto.
    + (* UNotify *)
      destruct B3 as (Eo & Hd). destruct w as [|a w]; [discriminate|]. injection Hd as ->.
      rewrite (waiting_lives s p (Forall_inv B4)) in E. injection E as <-.
      apply Y; auto. unfold holder. pcsimp. rewrite <- Et, Nat.eqb_refl. auto.
    + (* UOwner *)
      destruct B3 as (Eo & Hd & ->). destruct w as [|a w]; [discriminate|]. injection Hd as ->.
      injection E as <-. pose proof (Forall_inv B4) as Wp. pose proof (Forall_inv_tail B4) as Ww. simpl in ND1, ND2.
      assert (Hpt : fst p <> t) by (intros H; apply ND1; rewrite <- Et; auto).
      exists (p :: w). constructor.
      * exact ND2.
      * intros u Hu. unfold outside. pcsimp. destruct (Nat.eqb_spec u t) as [->|Hut]; auto.
        pose proof (v_out _ _ I u) as O. simpl in O. simpl in Hu.
        specialize (O ltac:(intros [H|H]; [congruence|auto])). unfold outside in O.
        destruct (pcs s u) eqn:Eu; auto. destruct O as [v Hv]. exists v.
        destruct (Nat.eqb_spec v t) as [->|]; congruence.
      * simpl. simpl in B2. destruct B2 as [B2 B2']. rewrite B1.
        split; [f_equal; destruct w as [|b w]; auto; apply (last_default b w h p)|]. split; auto.
        rewrite (eqb_ne _ _ Hpt). split; [|split].
        -- unfold holder. pcsimp. rewrite (eqb_ne _ _ Hpt).
           destruct Wp as [-> | ->]; auto.
        -- rewrite Forall_forall in *. intros a Ha. unfold waiting. pcsimp.
           rewrite eqb_ne; [apply Ww; auto|]. intros H. apply ND1. rewrite <- Et, <- H.
           right. apply in_fst, Ha.
        -- cbn [hasLock] in B5. rewrite B5. destruct Wp as [-> | ->]; auto.
      * intros u d Ho Hh. pcsimp. injection Ho as ->. simpl. right. exists t.
        rewrite Nat.eqb_refl. auto.
  - (* a waiting thread *)
    destruct Hi as [H|Hi]; [congruence|]. apply in_map_iff in Hi. destruct Hi as (a & Ea & Ha).
    rewrite Forall_forall in B4. pose proof (B4 a Ha) as Wa. unfold waiting in Wa. rewrite Ea in Wa.
    assert (X : forall s' : state, queue s' = queue s -> enq s' = enq s -> next s' = next s ->
      (forall u, u <> t -> pcs s' u = pcs s u) ->
      (forall u, u <> t -> tok s u = true -> tok s' u = true) ->
      owner s' = owner s -> acq s' = acq s -> (pcs s' t = Wait (snd a) \/ pcs s' t = Halt (snd a)) ->
      exists q', inv s' q').
    { intros z Z1 Z2 Z3 Z4 Z5 Z6 Z7 Z8. exists (h :: w). eapply (in_step s z (h :: w) t); eauto.
      - right. rewrite <- Ea. apply in_fst, Ha.
      - rewrite eqb_ne by auto. split; auto. split; auto. exists (snd a). auto. }
    unfold move in E. destruct Wa as [Wa|Wa]; rewrite Wa in E.
    + assert (Z : oaddr_eqb (owner s) (Some (t, snd a)) = false).
      { apply oaddr_eqb_ne. intros Ho. pose proof (holder_owner _ _ _ _ B3 Ho) as Hh.
        apply Et. rewrite <- Hh. auto. }
      rewrite Z in E. injection E as <-. apply X; auto; pcsimp; upc. auto.
    + destruct (tok s t); [|discriminate]. injection E as <-. apply X; auto; pcsimp; upc. auto.
Qed.

Lemma move_out s q t c s' :
  inv s q -> ~ In t (map fst q) -> (forall u, c <> CGive u) -> move t c s = Some s' ->
  exists q', inv s' q'.
Proof.
  intros I Hi Hg E. pose proof (v_out _ _ I t Hi) as O. unfold outside in O. unfold move in E.
  assert (X : forall p, (match p with
      | Idle | LRead _ | TryCas _ _ | AddRead _ | AddNext _ _ | UWake _ | Gone => True
      | Crashed => exists u, pcs s u = Gone /\ u <> t | _ => False end) ->
      pcs s t <> Gone -> (forall n, pcs s t <> UWake n \/ pcs s n = Gone) -> exists q', inv (setPc s t p) q').
  { intros p Hp H1 H2. exists q. eapply (out_step s _ q t); eauto; pcsimp; upc.
    - intros n Hn. destruct (H2 n); [tauto|auto].
    - tauto.
    - unfold outside. pcsimp. rewrite Nat.eqb_refl. destruct p; auto; try tauto.
      destruct Hp as (u & Hu & Hut). exists u. rewrite eqb_ne; auto.
    - intros d ->. auto. }
  destruct (pcs s t) as [ |d|d lk|d|d|d tmp|d tmp|d|d|d| | |o|o|o p|p|p n|n| | ] eqn:Ep; try tauto; try discriminate.
  - (* Idle *)
    destruct c; try discriminate; injection E as <-; apply X; simpl; auto; try discriminate; left; discriminate.
  - (* LRead *)
    injection E as <-. apply X; [destruct (queue s); simpl; auto|discriminate|left; discriminate].
  - (* TryCas *)
    destruct (queue s) eqn:Eq; injection E as <-.
    + apply X; [destruct lk; simpl; auto|discriminate|left; discriminate].
    + exists (q ++ [(t, d)]). apply (enq_step s); auto; pcsimp; upc; try congruence.
      pose proof (v_body _ _ I) as B. destruct q as [|h w]; [auto|].
      simpl in B. destruct B as [B _]. congruence.
  - (* AddRead *)
    injection E as <-. apply X; simpl; auto; [discriminate|left; discriminate].
  - (* AddNext *)
    injection E as <-. exists q. eapply (out_step s _ q t); eauto; pcsimp; upc; try congruence.
    + intros a Ha. rewrite addr_eqb_ne; auto. intros ->. auto.
    + unfold outside. pcsimp. rewrite Nat.eqb_refl.
      assert (Z : addr_eqb (t, d) (t, d) = true) by (apply addr_eqb_eq; auto). rewrite Z. auto.
  - (* AddCas *)
    destruct (oaddr_eqb (queue s) tmp) eqn:Eq; injection E as <-.
    + apply oaddr_eqb_eq in Eq. exists (q ++ [(t, d)]). apply (enq_step s); auto; pcsimp; upc; try congruence.
      pose proof (v_body _ _ I) as B. destruct q as [|h w]; simpl in B; destruct B as [B _];
        rewrite B in Eq; subst tmp; auto. split; auto. congruence.
    + apply X; simpl; auto; [discriminate|left; discriminate].
  - (* UWake *)
    destruct (pcs s n) eqn:En; injection E as <-;
      try (exists q; eapply (out_step s _ q t); eauto; pcsimp; upc; try congruence;
        [intros u Hu; destruct (u =? n); auto
        |intros m Hm; left; assert (m = n) by congruence; subst; rewrite Nat.eqb_refl; auto
        |unfold outside; pcsimp; rewrite Nat.eqb_refl; auto]; fail).
    apply X; simpl; auto; [|discriminate|].
    + exists n. split; auto. intros ->. congruence.
    + intros m. destruct (Nat.eq_dec m n) as [->|]; auto. left. congruence.
Qed.

Lemma exec_inv s q tc s' : inv s q -> plain tc -> exec tc s = Some s' -> exists q', inv s' q'.
Proof.
  intros I Pl E. destruct tc as [t c]. unfold plain in Pl. simpl in Pl.
  assert (C : c = CPoke \/ move t c s = Some s') by (destruct c; auto).
  destruct C as [->|C].
  - simpl in E. injection E as <-. exists q.
    destruct I as [ND OUT B W]. constructor; auto.
    intros u d Ho Hp. pcsimp. destruct (W u d Ho Hp) as [H|H]; auto. rewrite H. destruct (u =? t); auto.
  - assert (Hg : forall u, c <> CGive u) by (intros u ->; auto).
    destruct (in_dec Nat.eq_dec t (map fst q)); [eapply move_in|eapply move_out]; eauto.
Qed.

Lemma run_inv sched : forall s q, inv s q -> Forall plain sched -> exists q', inv (run sched s) q'.
Proof.
  induction sched as [|tc sched IH]; intros s q I F; simpl; eauto.
  inversion F; subst. destruct (exec tc s) as [s'|] eqn:E; eauto.
  destruct (exec_inv s q tc s' I) as [q' I']; eauto.
Qed.

Definition noExit (tc : nat * cmd) : Prop :=
  match snd tc with CExit => False | _ => True end.

Lemma exec_gone s tc s' : (forall u, pcs s u <> Gone) -> noExit tc -> exec tc s = Some s' ->
  forall u, pcs s' u <> Gone.
Proof.
  intros H N E u. destruct tc as [t c]. unfold noExit in N. simpl in N.
  assert (C : c = CPoke \/ move t c s = Some s') by (destruct c; auto).
  destruct C as [->|C]; [simpl in E; injection E as <-; apply H|]. clear E. unfold move in C.
  repeat match type of C with
  | context [match ?x with _ => _ end] => destruct x eqn:?
  end; try discriminate; try tauto; injection C as <-; pcsimp;
  repeat match goal with |- context [if ?b then _ else _] => destruct b end; try discriminate; auto.
Qed.

Lemma run_gone sched : forall s, (forall u, pcs s u <> Gone) -> Forall noExit sched ->
  forall u, pcs (run sched s) u <> Gone.
Proof.
  induction sched as [|tc sched IH]; intros s H F; auto. inversion F; subst. simpl.
  destruct (exec tc s) as [s'|] eqn:E; apply IH; auto. eapply exec_gone; eauto.
Qed.

Lemma hasLock_holder s q t : inv s q -> hasLock (pcs s t) = true -> exists h w, q = h :: w /\ fst h = t.
Proof.
  intros I H. destruct (in_dec Nat.eq_dec t (map fst q)) as [Hi|Hi].
  - destruct q as [|h w]; [destruct Hi|]. exists h, w. split; auto.
    destruct Hi as [Hi|Hi]; auto. pose proof (v_body _ _ I) as B. simpl in B.
    destruct B as (_ & _ & _ & B4 & _). apply in_map_iff in Hi. destruct Hi as (a & Ea & Ha).
    rewrite Forall_forall in B4. destruct (B4 a Ha) as [X|X]; rewrite Ea in X; rewrite X in H; discriminate.
  - pose proof (v_out _ _ I t Hi) as O. unfold outside in O.
    destruct (pcs s t); simpl in H; try discriminate; tauto.
Qed.

Lemma pcs_setPc s t p : pcs (setPc s t p) t = p.
Proof. pcsimp. rewrite Nat.eqb_refl. auto. Qed.

Lemma run_cons t c sched s s' : c <> CPoke -> move t c s = Some s' ->
  run ((t, c) :: sched) s = run sched s'.
Proof. intros H E. cbn [run exec]. destruct c; try congruence; rewrite E; auto. Qed.

Lemma idle_lock s t d : pcs s t = Idle -> queue s = None ->
  pcs (run [(t, CLock d); (t, CLock d); (t, CLock d); (t, CLock d)] s) t = Crit.
Proof.
  intros H Q.
  erewrite run_cons; [|discriminate|unfold move; rewrite H; reflexivity].
  erewrite run_cons; [|discriminate|unfold move; rewrite pcs_setPc; reflexivity].
  pcsimp. rewrite Q.
  erewrite run_cons; [|discriminate|unfold move; rewrite pcs_setPc; pcsimp; rewrite Q; reflexivity].
  erewrite run_cons; [|discriminate|unfold move; rewrite pcs_setPc; reflexivity].
  cbn [run]. apply pcs_setPc.
Qed.

Lemma idle_try s t d : pcs s t = Idle -> queue s = None ->
  pcs (run [(t, CTry d); (t, CTry d); (t, CTry d)] s) t = Crit.
Proof.
  intros H Q.
  erewrite run_cons; [|discriminate|unfold move; rewrite H; reflexivity].
  erewrite run_cons; [|discriminate|unfold move; rewrite pcs_setPc; pcsimp; rewrite Q; reflexivity].
  erewrite run_cons; [|discriminate|unfold move; rewrite pcs_setPc; reflexivity].
  cbn [run]. apply pcs_setPc.
Qed.
