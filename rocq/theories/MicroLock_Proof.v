(** Lemmas about MicroLock: the invariant of all schedules. *)
From Verif Require Import Common MicroLock_Spec MicroLock_Model.

Lemma addr_eqb_eq a b : addr_eqb a b = true <-> a = b.
Proof.
  destruct a as [a1 a2], b as [b1 b2]. unfold addr_eqb. simpl.
  rewrite andb_true_iff, !Nat.eqb_eq. split; [intros [-> ->]; auto|intros H; injection H; auto].
Qed.

Lemma addr_eqb_refl a : addr_eqb a a = true.
Proof. apply addr_eqb_eq. auto. Qed.

Lemma addr_eqb_ne a b : a <> b -> addr_eqb a b = false.
Proof. intros H. destruct (addr_eqb a b) eqn:E; auto. apply addr_eqb_eq in E. congruence. Qed.

Lemma oaddr_eqb_eq a b : oaddr_eqb a b = true <-> a = b.
Proof.
  destruct a as [a|], b as [b|]; simpl; try (split; congruence).
  rewrite addr_eqb_eq. split; congruence.
Qed.

Lemma oaddr_eqb_ne a b : oaddr_eqb a b = false <-> a <> b.
Proof. rewrite <- oaddr_eqb_eq. destruct (oaddr_eqb a b); split; congruence. Qed.

Lemma follow_snoc l : forall x e,
  follow x (l ++ [e]) = match follow x l with Some y => allowed y e | None => None end.
Proof.
  induction l as [|a l IH]; intros x e; cbn [follow app].
  - destruct (allowed x e); auto.
  - destruct (allowed x a); auto.
Qed.

Lemma not_existsb t q : ~ In t q -> existsb (Nat.eqb t) q = false.
Proof.
  intros H. destruct (existsb (Nat.eqb t) q) eqn:E; auto.
  apply existsb_exists in E. destruct E as (u & I & E). apply Nat.eqb_eq in E. subst. tauto.
Qed.

(** the objects behind the first one, the oldest first; each links to the one before *)
Fixpoint chained (nx : addr -> option addr) (h : addr) (w : list addr) : Prop :=
  match w with
  | [] => True
  | a :: w' => nx a = Some h /\ chained nx a w'
  end.

Definition waiting s (a : addr) : Prop :=
  pcs s (fst a) = Wait (snd a) \/ pcs s (fst a) = Halt (snd a).

Definition holder s (h : addr) (w : list addr) : Prop :=
  next s h = None /\
  match pcs s (fst h) with
  | Wait d | Halt d | Crit d | UTest d | UCas d => d = snd h
  | UScan d p => d = snd h /\ In p w
  | UNotify d p => d = snd h /\ hd_error w = Some p
  | UGive d p n => d = snd h /\ hd_error w = Some p /\ n = fst p
  | _ => False
  end.

Definition outside s (t : nat) : Prop :=
  match pcs s t with
  | Idle | LInit _ | LNext _ _ | LCas _ | UWake _ _ | Gone => True
  | LTry d => next s (t, d) = None
  | Crashed => exists u, pcs s u = Gone
  | _ => False
  end.

(** the thread is between the return of the constructor and the point where its
    destructor gives the lock up *)
Definition inside (p : pc) : bool :=
  match p with
  | Crit _ | UTest _ | UCas _ | UScan _ _ | UNotify _ _ | UGive _ _ _ => true
  | _ => false
  end.

Definition wakeOk s : Prop :=
  forall t d, next s (t, d) = None -> pcs s t = Halt d ->
    tok s t = true \/ exists u e, pcs s u = UWake e t.

Definition sitOf s (q : list addr) : sit :=
  match q with
  | [] => (None, [])
  | h :: w => if inside (pcs s (fst h)) then (Some (fst h), map fst w) else (None, map fst q)
  end.

Definition body s (q : list addr) : Prop :=
  match q with
  | [] => top s = None
  | h :: w => top s = Some (last w h) /\ chained (next s) h w /\ holder s h w /\
              Forall (waiting s) w
  end.

Record inv s q : Prop := {
  v_nodup : NoDup (map fst q);
  v_out : forall t, ~ In t (map fst q) -> outside s t;
  v_body : body s q;
  v_wake : wakeOk s;
  v_hist : follow fresh (hist s) = Some (sitOf s q)
}.

Lemma inv_init : inv init [].
Proof.
  constructor; simpl; auto.
  - constructor.
  - intros t _. unfold outside. simpl. auto.
  - unfold wakeOk. simpl. discriminate.
Qed.

Lemma chained_ext nx nx' h w :
  (forall a, In a w -> nx a = nx' a) -> chained nx h w -> chained nx' h w.
Proof.
  revert h. induction w as [|a w IH]; simpl; intros h H; auto.
  intros [H1 H2]. split; [rewrite <- H; auto|]. apply IH; auto.
Qed.

Lemma last_default {A} (a : A) w h k : last (a :: w) h = last (a :: w) k.
Proof. revert a. induction w as [|b w IH]; intros a; auto. exact (IH b). Qed.

Lemma chained_snoc nx h w a : chained nx h w -> nx a = Some (last w h) -> chained nx h (w ++ [a]).
Proof.
  revert h. induction w as [|b w IH]; simpl; intros h H E; auto.
  destruct H as [H1 H2]. split; auto. apply IH; auto.
  rewrite E. destruct w as [|c w]; auto. f_equal. apply last_default.
Qed.

Lemma last_snoc {A} (w : list A) h a : last (w ++ [a]) h = a.
Proof. induction w as [|b w IH]; simpl; auto. destruct (w ++ [a]) eqn:E; auto. destruct w; discriminate. Qed.

Lemma last_in {A} (a : A) w h : In (last (a :: w) h) (a :: w).
Proof. revert a. induction w as [|b w IH]; intros a; [simpl; auto|]. right. apply (IH b). Qed.

(** the object before a waiting one *)
Lemma chained_prev nx h w p : chained nx h w -> In p w ->
  (nx p = Some h /\ hd_error w = Some p) \/ exists p', nx p = Some p' /\ In p' w.
Proof.
  revert h. induction w as [|a w IH]; simpl; intros h C H; [tauto|]. destruct C as [E C].
  destruct H as [->|H]; [auto|]. right.
  destruct (IH a C H) as [[E2 _]|(p' & E2 & I)]; eauto.
Qed.

Lemma chained_some nx h w p : chained nx h w -> In p w -> nx p <> None.
Proof.
  intros C H. destruct (chained_prev _ _ _ _ C H) as [[E _]|(p' & E & _)]; congruence.
Qed.

Lemma in_fst a (q : list addr) : In a q -> In (fst a) (map fst q).
Proof. apply in_map. Qed.

Lemma same_addr (q : list addr) a b : NoDup (map fst q) -> In a q -> In b q -> fst a = fst b -> a = b.
Proof.
  induction q as [|c q IH]; simpl; [tauto|]. intros N Ha Hb E. inversion N; subst.
  destruct Ha as [->|Ha], Hb as [->|Hb]; auto.
  - exfalso. apply H1. rewrite E. apply in_fst, Hb.
  - exfalso. apply H1. rewrite <- E. apply in_fst, Ha.
Qed.

(** ** A thread outside the queue moves, the queue stays *)
Lemma out_step s s' q t :
  inv s q -> ~ In t (map fst q) ->
  top s' = top s -> hist s' = hist s ->
  (forall a, fst a <> t -> next s' a = next s a) ->
  (forall u, u <> t -> pcs s' u = pcs s u) ->
  (forall u, tok s u = true -> tok s' u = true) ->
  (forall e n, pcs s t = UWake e n -> tok s' n = true \/ pcs s n = Gone) ->
  (pcs s t = Gone -> pcs s' t = Gone) ->
  outside s' t -> (forall d, pcs s' t <> Halt d) ->
  inv s' q.
Proof.
  intros [ND OUT B W HI] N Eq Eh En Ep Et Hw Hg Ho Hh.
  assert (Hin : forall a, In a q -> pcs s' (fst a) = pcs s (fst a)).
  { intros a Ha. apply Ep. intros E. apply N. rewrite <- E. apply in_fst, Ha. }
  assert (Hnx : forall a, In a q -> next s' a = next s a).
  { intros a Ha. apply En. intros E. apply N. rewrite <- E. apply in_fst, Ha. }
  constructor; auto.
  - intros u Hu. destruct (Nat.eq_dec u t) as [->|Hut]; auto.
    specialize (OUT u Hu). unfold outside in *. rewrite (Ep u Hut).
    destruct (pcs s u) eqn:E; auto.
    + rewrite En; auto.
    + destruct OUT as [v Hv]. exists v. destruct (Nat.eq_dec v t) as [->|]; auto. rewrite Ep; auto.
  - destruct q as [|h w]; simpl in *.
    + congruence.
    + destruct B as (B1 & B2 & B3 & B4). rewrite Eq.
      split; auto. split; [|split; auto].
      * eapply chained_ext; [|exact B2]. intros a Ha. symmetry. apply Hnx. auto.
      * unfold holder in *. rewrite (Hin h), (Hnx h) by auto. exact B3.
      * rewrite Forall_forall in *. intros a Ha. unfold waiting. rewrite Hin by auto. apply B4; auto.
  - intros u d Ho' Hp. destruct (Nat.eq_dec u t) as [->|Hut].
    + exfalso. eapply Hh; eauto.
    + rewrite Ep in Hp by auto. rewrite En in Ho' by auto.
      destruct (W u d Ho' Hp) as [H|(v & e & Hv)]; auto.
      destruct (Nat.eq_dec v t) as [->|Hvt].
      * destruct (Hw _ _ Hv) as [H|H]; auto. congruence.
      * right. exists v, e. rewrite Ep; auto.
  - rewrite Eh, HI. f_equal. unfold sitOf. destruct q as [|h w]; auto. rewrite Hin; simpl; auto.
Qed.

(** ** A thread outside enters the queue *)
Lemma enq_step s s' q t d :
  inv s q -> ~ In t (map fst q) ->
  top s' = Some (t, d) -> hist s' = hist s ++ [Lines t] ->
  next s' = next s -> (forall u, u <> t -> pcs s' u = pcs s u) -> tok s' = tok s ->
  (forall e n, pcs s t <> UWake e n) -> pcs s t <> Gone ->
  pcs s' t = Wait d -> next s (t, d) = top s ->
  inv s' (q ++ [(t, d)]).
Proof.
  intros [ND OUT B W HI] N Eq Eh En Ep Et Hw Hg Hp1 Hp2.
  assert (Hin : forall a, In a q -> pcs s' (fst a) = pcs s (fst a)).
  { intros a Ha. apply Ep. intros E. apply N. rewrite <- E. apply in_fst, Ha. }
  constructor.
  - rewrite map_app. simpl. apply NoDup_Add with (a := t) (l := map fst q).
    + rewrite <- (app_nil_r (map fst q)) at 1. apply Add_app.
    + auto.
  - intros u Hu. rewrite map_app, in_app_iff in Hu. simpl in Hu.
    assert (Hut : u <> t) by (intros ->; tauto).
    specialize (OUT u ltac:(tauto)). unfold outside in *. rewrite (Ep u Hut).
    destruct (pcs s u) eqn:E; auto.
    + rewrite En; auto.
    + destruct OUT as [v Hv]. exists v. destruct (Nat.eq_dec v t) as [->|]; [congruence|]. rewrite Ep; auto.
  - destruct q as [|h w]; simpl in *.
    + split; auto. split; auto. split; auto. unfold holder. simpl. rewrite Hp1, En. split; congruence.
    + destruct B as (B1 & B2 & B3 & B4).
      rewrite last_snoc. split; auto. split; [|split].
      * rewrite En. apply chained_snoc; auto. congruence.
      * unfold holder in *. rewrite (Hin h) by auto. rewrite En. destruct B3 as [B3 B5]. split; auto.
        destruct (pcs s (fst h)); auto.
        -- rewrite in_app_iff. tauto.
        -- destruct w; [destruct B5; discriminate|exact B5].
        -- destruct w; [destruct B5 as (_ & B5 & _); discriminate|exact B5].
      * rewrite Forall_app. split.
        -- rewrite Forall_forall in *. intros a Ha. unfold waiting. rewrite Hin by auto. apply B4; auto.
        -- constructor; auto. left. auto.
  - intros u e Ho Hh. rewrite En in Ho. destruct (Nat.eq_dec u t) as [->|Hut]; [congruence|].
    rewrite Ep in Hh by auto. rewrite Et. destruct (W u e Ho Hh) as [H|(v & f & Hv)]; auto.
    right. exists v, f. rewrite Ep; auto. intros ->. eapply Hw; eauto.
  - rewrite Eh, follow_snoc, HI. unfold sitOf, allowed. destruct q as [|h w].
    + simpl. rewrite Hp1. auto.
    + cbn [app]. rewrite (Hin h) by (simpl; auto).
      destruct (inside (pcs s (fst h))) eqn:Ei.
      * rewrite not_existsb by (simpl in N; tauto). rewrite map_app. simpl in N.
        destruct (Nat.eqb_spec (fst h) t) as [E|E]; [exfalso; tauto|auto].
      * rewrite not_existsb by auto. cbn [map]. rewrite map_app. auto.
Qed.

(** ** A thread of the queue moves and stays in it *)
Lemma in_step s s' q t :
  inv s q -> In t (map fst q) ->
  top s' = top s -> next s' = next s ->
  (forall u, u <> t -> pcs s' u = pcs s u) ->
  (forall u, u <> t -> tok s u = true -> tok s' u = true) ->
  match q with
  | [] => False
  | h :: w =>
     (if t =? fst h then
        holder s' h w /\ follow fresh (hist s') = Some (sitOf s' q) /\
        (forall d, pcs s' t <> Halt d)
      else
        hist s' = hist s /\
        exists d, (pcs s t = Wait d \/ pcs s t = Halt d) /\ (pcs s' t = Wait d \/ pcs s' t = Halt d))
  end ->
  inv s' q.
Proof.
  intros [ND OUT B W HI] I Eq En Ep Et H.
  destruct q as [|h w]; [tauto|]. simpl in B. destruct B as (B1 & B2 & B3 & B4).
  pose proof ND as NDall. simpl in ND. inversion ND as [|? ? ND1 ND2]; subst.
  assert (Hnw : forall e n, pcs s t <> UWake e n).
  { intros e n Hn. destruct (Nat.eqb_spec t (fst h)) as [->|Ht].
    - unfold holder in B3. rewrite Hn in B3. tauto.
    - destruct H as (_ & d & [H|H] & _); congruence. }
  assert (Hng : pcs s t <> Gone).
  { intros Hn. destruct (Nat.eqb_spec t (fst h)) as [->|Ht].
    - unfold holder in B3. rewrite Hn in B3. tauto.
    - destruct H as (_ & d & [H|H] & _); congruence. }
  constructor; auto.
  - intros u Hu. assert (Hut : u <> t) by (intros ->; auto).
    specialize (OUT u Hu). unfold outside in *. rewrite (Ep u Hut). rewrite En.
    destruct (pcs s u) eqn:E; auto.
    destruct OUT as [v Hv]. exists v. rewrite Ep; auto. intros ->. congruence.
  - simpl. rewrite Eq, En. split; auto. split; auto.
    destruct (Nat.eqb_spec t (fst h)) as [->|Ht].
    + destruct H as (H1 & H2 & H3). split; auto.
      rewrite Forall_forall in *. intros a Ha. unfold waiting. rewrite Ep; [apply B4; auto|].
      intros E. apply ND1. rewrite <- E. apply in_fst, Ha.
    + destruct H as (H1 & d & H3 & H4). unfold holder. rewrite En.
      rewrite (Ep (fst h)) by auto. split; auto.
      rewrite Forall_forall in *. intros a Ha. unfold waiting. destruct (Nat.eq_dec (fst a) t) as [E|E].
      * destruct (B4 a Ha) as [X|X]; rewrite E in *; destruct H3; destruct H4; try congruence;
          assert (d = snd a) by congruence; subst d; auto.
      * rewrite Ep by auto. apply B4; auto.
  - intros u e Ho Hh. rewrite En in Ho. destruct (Nat.eq_dec u t) as [->|Hut].
    + exfalso. destruct (Nat.eqb_spec t (fst h)) as [E|Ht].
      * destruct H as (_ & _ & H). eapply H; eauto.
      * destruct H as (_ & d & H3 & H4). destruct I as [I|I]; [auto|].
        apply in_map_iff in I. destruct I as (a & Ea & Ha).
        rewrite Forall_forall in B4. destruct H4 as [H4|H4]; [congruence|].
        destruct (Nat.eq_dec d e) as [->|]; [|congruence].
        assert (a = (t, e)); [|subst a; eapply chained_some; eauto].
        { assert (Hd : snd a = e).
          { destruct (B4 a Ha) as [X|X]; rewrite Ea in X; destruct H3; congruence. }
          destruct a; simpl in *; congruence. }
    + rewrite Ep in Hh by auto. destruct (W u e Ho Hh) as [X|(v & f & Hv)]; auto.
      right. exists v, f. rewrite Ep; auto. intros ->. eapply Hnw; eauto.
  - destruct (Nat.eqb_spec t (fst h)) as [E|Ht].
    + apply H.
    + destruct H as (H1 & _). rewrite H1, HI. unfold sitOf. rewrite Ep by auto. auto.
Qed.

Lemma waiting_lives s a : waiting s a -> objLives s a = true.
Proof. unfold waiting, objLives. intros [-> | ->]; apply Nat.eqb_refl. Qed.

Ltac pcsimp :=
  cbn [setPc setTop setNext setTok log top next tok pcs hist] in *.

Lemma eqb_ne u t : u <> t -> (u =? t) = false.
Proof. apply Nat.eqb_neq. Qed.

Ltac upc := rewrite ?Nat.eqb_refl; try (intros u Hu; rewrite eqb_ne by auto; auto; fail).

Lemma move_in s q t c s' :
  inv s q -> In t (map fst q) -> move t c s = Some s' -> exists q', inv s' q'.
Proof.
  intros I Hi E.
  destruct q as [|h w]; [destruct Hi|]. pose proof (v_body _ _ I) as B. simpl in B.
  destruct B as (B1 & B2 & B3 & B4). pose proof (v_nodup _ _ I) as ND. pose proof (v_hist _ _ I) as HI.
  inversion ND as [|? ? ND1 ND2]; subst.
  destruct (Nat.eq_dec t (fst h)) as [Et|Et].
  - (* the first one *)
    assert (Eh : h = (t, snd h)) by (destruct h; simpl in *; congruence).
    unfold holder in B3. rewrite <- Et in B3. destruct B3 as [Bn B3].
    assert (X : forall s' : state, top s' = top s -> next s' = next s ->
      (forall u, u <> t -> pcs s' u = pcs s u) ->
      (forall u, u <> t -> tok s u = true -> tok s' u = true) ->
      holder s' h w -> follow fresh (hist s') = Some (sitOf s' (h :: w)) ->
      (forall d, pcs s' t <> Halt d) -> exists q', inv s' q').
    { intros z Z1 Z3 Z4 Z5 Z6 Z7 Z8. exists (h :: w). eapply (in_step s z (h :: w) t); eauto.
      rewrite <- Et, Nat.eqb_refl. auto. }
    assert (Y : forall p, (match p with Halt _ => False | _ => True end) ->
      inside p = inside (pcs s t) ->
      holder (setPc s t p) h w -> exists q', inv (setPc s t p) q').
    { intros p Hp Hl Hh. apply X; auto; pcsimp.
      - upc.
      - rewrite HI. unfold sitOf. pcsimp. rewrite <- Et, Nat.eqb_refl, Hl. auto.
      - rewrite Nat.eqb_refl. intros d ->. auto. }
    unfold sitOf in HI. rewrite <- Et in HI. unfold move in E.
    destruct (pcs s t) as [ |d|d|d k|d|d|d|d|d|d|d k|d k|d k n|d n| | ] eqn:Ep; try tauto.
    + (* Wait *)
      subst d. rewrite <- Eh, Bn in E. injection E as <-. apply X; auto; pcsimp; upc.
      * unfold holder. pcsimp. rewrite <- Et, Nat.eqb_refl. auto.
      * rewrite follow_snoc, HI. unfold sitOf. pcsimp. cbn [inside map allowed].
        rewrite <- Et, ?Nat.eqb_refl. auto.
      * discriminate.
    + (* Halt *)
      subst d. destruct (tok s t); [|discriminate]. injection E as <-.
      apply X; auto; pcsimp; upc.
      * unfold holder. pcsimp. rewrite <- Et, Nat.eqb_refl. auto.
      * rewrite HI. unfold sitOf. pcsimp. rewrite <- Et, Nat.eqb_refl. auto.
      * discriminate.
    + (* Crit *)
      destruct c; try discriminate. injection E as <-.
      apply Y; auto. unfold holder. pcsimp. rewrite <- Et, Nat.eqb_refl. auto.
    + (* UTest *)
      subst d. rewrite <- Eh, Bn in E.
      injection E as <-. apply Y; auto. unfold holder. pcsimp. rewrite <- Et, Nat.eqb_refl. auto.
    + (* UCas *)
      subst d. rewrite <- Eh in E. destruct (oaddr_eqb (top s) (Some h)) eqn:Eq.
      * apply oaddr_eqb_eq in Eq. injection E as <-.
        assert (w = []).
        { destruct w as [|a w]; auto. exfalso. rewrite B1 in Eq.
          assert (Eq2 : last (a :: w) h = h) by congruence.
          pose proof (in_fst _ _ (last_in a w h)) as Hl. rewrite Eq2 in Hl. auto. }
        subst w. exists []. constructor.
        -- constructor.
        -- intros u _. unfold outside. pcsimp. destruct (Nat.eqb_spec u t) as [->|Hu]; auto.
           pose proof (v_out _ _ I u ltac:(simpl; intros [H|[]]; congruence)) as O.
           unfold outside in O. destruct (pcs s u) eqn:Eu; auto.
           destruct O as [v Hv]. exists v. destruct (Nat.eqb_spec v t) as [->|]; congruence.
        -- simpl. auto.
        -- intros u d Ho Hh. pcsimp. destruct (Nat.eqb_spec u t) as [->|Hu]; [discriminate Hh|].
           destruct (v_wake _ _ I u d Ho Hh) as [H|(v & f & Hv)]; auto.
           right. exists v, f. rewrite eqb_ne; auto. congruence.
        -- pcsimp. rewrite follow_snoc, HI. cbn [inside map allowed]. rewrite ?Nat.eqb_refl. auto.
      * rewrite B1 in E. injection E as <-. apply Y; auto. unfold holder. pcsimp.
        rewrite <- Et, Nat.eqb_refl. split; auto. split; auto.
        destruct w as [|a w].
        -- exfalso. apply oaddr_eqb_ne in Eq. apply Eq. rewrite B1. auto.
        -- apply last_in.
    + (* UScan *)
      destruct B3 as (-> & Hp). rewrite Forall_forall in B4. rewrite <- Eh in E.
      rewrite (waiting_lives s k (B4 k Hp)) in E.
      destruct (chained_prev _ _ _ _ B2 Hp) as [[En Hd]|(p' & En & Hp')]; rewrite En in E.
      * destruct (oaddr_eqb (Some h) (Some h)) eqn:Z; [|apply oaddr_eqb_ne in Z; congruence].
        injection E as <-. apply Y; auto. unfold holder. pcsimp.
        rewrite <- Et, Nat.eqb_refl. auto.
      * destruct (oaddr_eqb (Some p') (Some h)) eqn:Ez.
        -- exfalso. apply oaddr_eqb_eq in Ez. injection Ez as ->. apply ND1, in_fst, Hp'.
        -- injection E as <-. apply Y; auto. unfold holder. pcsimp.
           rewrite <- Et, Nat.eqb_refl. auto.
    + (* UNotify *)
      destruct B3 as (-> & Hd). destruct w as [|a w]; [discriminate|]. injection Hd as ->.
      rewrite (waiting_lives s k (Forall_inv B4)) in E. injection E as <-.
      apply Y; auto. unfold holder. pcsimp. rewrite <- Et, Nat.eqb_refl. auto.
    + (* UGive *)
      destruct B3 as (-> & Hd & ->). destruct w as [|a w]; [discriminate|]. injection Hd as ->.
      rewrite (waiting_lives s k (Forall_inv B4)) in E.
      injection E as <-. pose proof (Forall_inv B4) as Wp. pose proof (Forall_inv_tail B4) as Ww.
      simpl in ND1, ND2. destruct (proj1 (NoDup_cons_iff _ _) ND2) as [ND3 ND4].
      assert (Hpt : fst k <> t) by (intros H; apply ND1; rewrite <- Et; auto).
      assert (Hk : forall b, fst b <> fst k -> addr_eqb b k = false).
      { intros b Hb. apply addr_eqb_ne. intros ->. auto. }
      exists (k :: w). constructor.
      * exact ND2.
      * intros u Hu. unfold outside. pcsimp. destruct (Nat.eqb_spec u t) as [->|Hut]; auto.
        pose proof (v_out _ _ I u) as O. simpl in O. simpl in Hu.
        specialize (O ltac:(intros [H|H]; [congruence|auto])). unfold outside in O.
        destruct (pcs s u) eqn:Eu; auto.
        -- rewrite Hk; auto.
        -- destruct O as [v Hv]. exists v.
           destruct (Nat.eqb_spec v t) as [->|]; congruence.
      * simpl. simpl in B2. destruct B2 as [B2 B2']. rewrite B1.
        split; [f_equal; destruct w as [|b w]; auto; apply (last_default b w h k)|].
        split; [|split].
        -- eapply chained_ext; [|exact B2']. intros b Hb. cbv beta. rewrite Hk; auto.
           intros H. apply ND3. rewrite <- H. apply in_fst, Hb.
        -- unfold holder. pcsimp. rewrite (eqb_ne _ _ Hpt), addr_eqb_refl.
           destruct Wp as [-> | ->]; auto.
        -- rewrite Forall_forall in *. intros a Ha. unfold waiting. pcsimp.
           rewrite eqb_ne; [apply Ww; auto|]. intros H. apply ND1. rewrite <- Et, <- H.
           right. apply in_fst, Ha.
      * intros u d Ho Hh. pcsimp. destruct (Nat.eqb_spec u t) as [->|Hu]; [discriminate Hh|].
        destruct (addr_eqb (u, d) k) eqn:Ek.
        -- apply addr_eqb_eq in Ek. subst k. right. exists t, (snd h). rewrite Nat.eqb_refl. auto.
        -- destruct (v_wake _ _ I u d Ho Hh) as [H|(v & f & Hv)]; auto.
           right. exists v, f. rewrite eqb_ne; auto. congruence.
      * pcsimp. rewrite follow_snoc, HI. cbn [inside map allowed]. rewrite ?Nat.eqb_refl.
        unfold sitOf. pcsimp. rewrite (eqb_ne _ _ Hpt). destruct Wp as [-> | ->]; auto.
  - (* a waiting thread *)
    destruct Hi as [H|Hi]; [congruence|]. apply in_map_iff in Hi. destruct Hi as (a & Ea & Ha).
    rewrite Forall_forall in B4. pose proof (B4 a Ha) as Wa. unfold waiting in Wa. rewrite Ea in Wa.
    assert (X : forall s' : state, top s' = top s -> next s' = next s ->
      (forall u, u <> t -> pcs s' u = pcs s u) ->
      (forall u, u <> t -> tok s u = true -> tok s' u = true) ->
      hist s' = hist s -> (pcs s' t = Wait (snd a) \/ pcs s' t = Halt (snd a)) ->
      exists q', inv s' q').
    { intros z Z1 Z3 Z4 Z5 Z6 Z8. exists (h :: w). eapply (in_step s z (h :: w) t); eauto.
      - right. rewrite <- Ea. apply in_fst, Ha.
      - rewrite eqb_ne by auto. split; auto. exists (snd a). auto. }
    assert (Z : next s (t, snd a) <> None).
    { rewrite <- Ea, <- surjective_pairing. eapply chained_some; eauto. }
    unfold move in E. destruct Wa as [Wa|Wa]; rewrite Wa in E.
    + destruct (next s (t, snd a)); [|congruence].
      injection E as <-. apply X; auto; pcsimp; upc. auto.
    + destruct (tok s t); [|discriminate]. injection E as <-. apply X; auto; pcsimp; upc. auto.
Qed.

Lemma move_out s q t c s' :
  inv s q -> ~ In t (map fst q) -> move t c s = Some s' -> exists q', inv s' q'.
Proof.
  intros I Hi E. pose proof (v_out _ _ I t Hi) as O. unfold outside in O. unfold move in E.
  assert (X : forall p, (match p with
      | Idle | LInit _ | LNext _ _ | LCas _ | UWake _ _ | Gone => True
      | Crashed => exists u, pcs s u = Gone /\ u <> t | _ => False end) ->
      pcs s t <> Gone -> (forall e n, pcs s t <> UWake e n \/ pcs s n = Gone) -> exists q', inv (setPc s t p) q').
  { intros p Hp H1 H2. exists q. eapply (out_step s _ q t); eauto; pcsimp; upc.
    - intros e n Hn. destruct (H2 e n); [tauto|auto].
    - tauto.
    - unfold outside. pcsimp. rewrite Nat.eqb_refl. destruct p; auto; try tauto.
      destruct Hp as (u & Hu & Hut). exists u. rewrite eqb_ne; auto.
    - intros d ->. auto. }
  assert (L : forall d, next s (t, d) = top s -> (forall e n, pcs s t <> UWake e n) -> pcs s t <> Gone ->
      exists q', inv (setPc (log (setTop s (Some (t, d))) (Lines t)) t (Wait d)) q').
  { intros d En H1 H2. exists (q ++ [(t, d)]). apply (enq_step s); auto; pcsimp; upc; auto. }
  assert (N : forall d k p, (forall e n, pcs s t <> UWake e n) -> pcs s t <> Gone ->
      (p = LCas d \/ (p = LTry d /\ k = None)) ->
      exists q', inv (setPc (setNext s (t, d) k) t p) q').
  { intros d k p H1 H2 Hp. exists q. eapply (out_step s _ q t); eauto; pcsimp; upc; try congruence.
    - intros a Ha. rewrite addr_eqb_ne; auto. intros ->. auto.
    - unfold outside. pcsimp. rewrite Nat.eqb_refl. destruct Hp as [->|[-> ->]]; auto.
      rewrite addr_eqb_refl. auto.
    - destruct Hp as [->|[-> _]]; discriminate. }
  destruct (pcs s t) as [ |d|d|d k|d|d|d|d|d|d|d k|d k|d k n|d n| | ] eqn:Ep; try tauto; try discriminate.
  - (* Idle *)
    destruct c; try discriminate; injection E as <-; apply X; simpl; auto; try discriminate; left; discriminate.
  - (* LInit *)
    injection E as <-. apply N; auto; discriminate.
  - (* LTry *)
    destruct (top s) eqn:Eq; injection E as <-.
    + apply X; simpl; auto; [discriminate|left; discriminate].
    + apply L; [congruence|discriminate|discriminate].
  - (* LNext *)
    injection E as <-. apply N; auto; discriminate.
  - (* LCas *)
    destruct (oaddr_eqb (top s) (next s (t, d))) eqn:Eq; injection E as <-.
    + apply oaddr_eqb_eq in Eq. apply L; auto; discriminate.
    + apply X; simpl; auto; [discriminate|left; discriminate].
  - (* UWake *)
    destruct (pcs s n) eqn:En; injection E as <-;
      try (exists q; eapply (out_step s _ q t); eauto; pcsimp; upc; try congruence;
        [intros u Hu; destruct (u =? n); auto
        |intros e m Hm; left; assert (m = n) by congruence; subst; rewrite Nat.eqb_refl; auto
        |unfold outside; pcsimp; rewrite Nat.eqb_refl; auto]; fail).
    apply X; simpl; auto; [|discriminate|].
    + exists n. split; auto. intros ->. congruence.
    + intros e m. destruct (Nat.eq_dec m n) as [->|]; auto. left. congruence.
Qed.

Lemma exec_inv s q tc s' : inv s q -> exec tc s = Some s' -> exists q', inv s' q'.
Proof.
  intros I E. destruct tc as [t c].
  assert (C : c = CPoke \/ move t c s = Some s') by (destruct c; auto).
  destruct C as [->|C].
  - simpl in E. injection E as <-. exists q.
    destruct I as [ND OUT B W HI]. constructor; auto.
    intros u d Ho Hp. pcsimp. destruct (W u d Ho Hp) as [H|H]; auto. rewrite H. destruct (u =? t); auto.
  - destruct (in_dec Nat.eq_dec t (map fst q)); [eapply move_in|eapply move_out]; eauto.
Qed.

Lemma run_inv sched : forall s q, inv s q -> exists q', inv (run sched s) q'.
Proof.
  induction sched as [|tc sched IH]; intros s q I; simpl; eauto.
  destruct (exec tc s) as [s'|] eqn:E; eauto.
  destruct (exec_inv s q tc s' I) as [q' I']; eauto.
Qed.

Definition noExit (tc : nat * cmd) : Prop :=
  match snd tc with CExit => False | _ => True end.

Lemma exec_gone s tc s' : (forall u, pcs s u <> Gone) -> noExit tc -> exec tc s = Some s' ->
  forall u, pcs s' u <> Gone.
Proof.
  intros H N E u. destruct tc as [t c]. unfold noExit in N. simpl in N.
  assert (C : c = CPoke \/ move t c s = Some s') by (destruct c; auto).
  destruct C as [->|C]; [simpl in E; injection E as <-; apply H|]. clear E. unfold move in C.
  repeat match type of C with
  | context [match ?x with _ => _ end] => destruct x eqn:?
  end; try discriminate; try tauto; injection C as <-; pcsimp;
  repeat match goal with |- context [if ?b then _ else _] => destruct b end; try discriminate; auto.
Qed.

Lemma run_gone sched : forall s, (forall u, pcs s u <> Gone) -> Forall noExit sched ->
  forall u, pcs (run sched s) u <> Gone.
Proof.
  induction sched as [|tc sched IH]; intros s H F; auto. inversion F; subst. simpl.
  destruct (exec tc s) as [s'|] eqn:E; apply IH; auto. eapply exec_gone; eauto.
Qed.

Lemma inside_holder s q t : inv s q -> inside (pcs s t) = true -> exists h w, q = h :: w /\ fst h = t.
Proof.
  intros I H. destruct (in_dec Nat.eq_dec t (map fst q)) as [Hi|Hi].
  - destruct q as [|h w]; [destruct Hi|]. exists h, w. split; auto.
    destruct Hi as [Hi|Hi]; auto. pose proof (v_body _ _ I) as B. simpl in B.
    destruct B as (_ & _ & _ & B4). apply in_map_iff in Hi. destruct Hi as (a & Ea & Ha).
    rewrite Forall_forall in B4. destruct (B4 a Ha) as [X|X]; rewrite Ea in X; rewrite X in H; discriminate.
  - pose proof (v_out _ _ I t Hi) as O. unfold outside in O.
    destruct (pcs s t); simpl in H; try discriminate; tauto.
Qed.

(** the thread stands in the queue *)
Definition queued (p : pc) : bool :=
  match p with Wait _ | Halt _ => true | _ => false end.

Lemma sit_meaning s q t : inv s q ->
  (fst (sitOf s q) = Some t <-> inside (pcs s t) = true) /\
  (In t (snd (sitOf s q)) <-> queued (pcs s t) = true).
Proof.
  intros I. pose proof (v_body _ _ I) as B. pose proof (v_nodup _ _ I) as ND.
  assert (Q1 : ~ In t (map fst q) -> inside (pcs s t) = false /\ queued (pcs s t) = false).
  { intros N. pose proof (v_out _ _ I t N) as O. unfold outside in O.
    destruct (pcs s t); simpl; auto; tauto. }
  destruct q as [|h w].
  - destruct (Q1 ltac:(simpl; tauto)) as [-> ->]. simpl. split; split; intros X; try discriminate X; tauto.
  - simpl in B. destruct B as (B1 & B2 & [B3 B5] & B4). simpl in ND. inversion ND as [|? ? ND1 ND2]; subst.
    assert (Q2 : In t (map fst w) -> inside (pcs s t) = false /\ queued (pcs s t) = true).
    { intros Hi. apply in_map_iff in Hi. destruct Hi as (a & Ea & Ha).
      rewrite Forall_forall in B4. destruct (B4 a Ha) as [X|X]; rewrite Ea in X; rewrite X; auto. }
    assert (Q3 : inside (pcs s (fst h)) = negb (queued (pcs s (fst h)))).
    { destruct (pcs s (fst h)); simpl; auto; tauto. }
    unfold sitOf. destruct (Nat.eq_dec (fst h) t) as [E|E].
    + subst t. destruct (inside (pcs s (fst h))) eqn:Ei; cbn [fst snd].
      * destruct (queued (pcs s (fst h))); [discriminate Q3|].
        split; split; auto; intros X; try discriminate X; tauto.
      * destruct (queued (pcs s (fst h))); [|discriminate Q3].
        split; split; auto; intros X; try discriminate X. simpl. auto.
    + destruct (in_dec Nat.eq_dec t (map fst w)) as [Hi|Hi].
      * destruct (Q2 Hi) as [-> ->]. destruct (inside (pcs s (fst h))); cbn [fst snd]; split; split; auto; intros X; try congruence.
        simpl. auto.
      * destruct (Q1 ltac:(simpl; intros [X|X]; auto)) as [-> ->].
        destruct (inside (pcs s (fst h))); cbn [fst snd]; split; split; intros X; try congruence; try tauto.
        simpl in X. tauto.
Qed.

Lemma pcs_setPc s t p : pcs (setPc s t p) t = p.
Proof. pcsimp. rewrite Nat.eqb_refl. auto. Qed.

Lemma run_cons t c sched s s' : c <> CPoke -> move t c s = Some s' ->
  run ((t, c) :: sched) s = run sched s'.
Proof. intros H E. cbn [run exec]. destruct c; try congruence; rewrite E; auto. Qed.

Lemma free_lock s t d : pcs s t = Idle -> top s = None ->
  pcs (run [(t, CLock d); (t, CLock d); (t, CLock d); (t, CLock d)] s) t = Crit d.
Proof.
  intros H Q.
  erewrite run_cons; [|discriminate|unfold move; rewrite H; reflexivity].
  erewrite run_cons; [|discriminate|unfold move; rewrite pcs_setPc; reflexivity].
  erewrite run_cons; [|discriminate|unfold move; rewrite pcs_setPc; pcsimp; rewrite Q; reflexivity].
  erewrite run_cons; [|discriminate|unfold move; rewrite pcs_setPc; pcsimp; rewrite addr_eqb_refl; reflexivity].
  cbn [run]. apply pcs_setPc.
Qed.
