From Verif Require Import Common Fiber_Spec Fiber_Model.
From Coq Require Import Lia.

Definition std (h : list ev) (f : nat) : option ctxr :=
  if active h f then Some (mkC (Some (stopReq h f)) (Some false) (Some (reasonOf h f))) else None.
Record Base (s : st) (h : list ev) : Prop := {
  b_todo : todo s = None;
  b_gone : forall f, gone (fib s f) = false;
  b_plc : forall f g, plc (fib s f) <> InDestr g;
  b_caller : forall f, caller (fib s f) = callerOf h f;
  b_exc : forall f, exc (fib s f) = failed h f;
  b_zero : active h 0 = true;
  b_valid : valid h }.
Record Core (s : st) (h : list ev) : Prop := {
  i_base : Base s h;
  i_cur : cur s = ctrl h;
  i_run : run s = ctrl h;
  i_act : active h (ctrl h) = true;
  i_ctx : forall f, ctx (fib s f) = std h f;
  i_free : forall f, nFree h f = nExit h f }.
Record Inv (s : st) (h : list ev) : Prop := {
  i_core : Core s h;
  i_slp : forall f, f <> ctrl h -> active h f = true -> (plc (fib s f) = InSleep <-> sleeping h f = true);
  i_awake : sleeping h (ctrl h) = false;
  i_owes : owes h = false }.

Lemma init_ok : Inv (init true) [].
Proof.
  repeat constructor; cbn; auto; try discriminate.
Qed.

Ltac eqb := repeat match goal with |- context [Nat.eqb ?a ?b] => destruct (Nat.eqb_spec a b); subst; cbn in *; try congruence end.

Lemma resume_ok s h to (t : bool) :
  Base s h -> ctrl h = to -> active h to = true -> to <> cur s ->
  (forall f, f <> cur s -> ctx (fib s f) = std h f /\ nFree h f = nExit h f) ->
  (if t then active h (cur s) = false /\ nExit h (cur s) = S (nFree h (cur s)) /\ exists a b, ctx (fib s (cur s)) = Some (mkC a (Some true) b)
   else ctx (fib s (cur s)) = std h (cur s) /\ active h (cur s) = true /\ nFree h (cur s) = nExit h (cur s)) ->
  (forall f, active h f = true -> (plc (fib s f) = InSleep <-> sleeping h f = true)) -> owes h = stopReq h to || sleeping h to ->
  resume s to = Throw \/ exists x, resume s to = Ok x /\ Inv (snd x) (fst x ++ h).
Proof.
  intros HB HC HA HN HO HT HS HW. set (c := cur s) in *.
  assert (E : exists a b, ctx (fib s c) = Some (mkC a (Some t) b)).
  { destruct t; [apply HT|]. destruct HT as (E & A & _). unfold std in E. rewrite A in E. eauto. }
  destruct E as (a & b & E). unfold resume. cbn [cur goto fib]. fold c. rewrite E. cbn [termS].
  set (s1 := setCur (if t then setCtx (goto s to) c None else goto s to) to).
  set (h1 := (if t then [EFree c] else []) ++ h).
  assert (K1 : ctrl h1 = ctrl h) by (unfold h1; destruct t; reflexivity).
  assert (K2 : forall f, active h1 f = active h f) by (unfold h1; destruct t; reflexivity).
  assert (K3 : forall f, stopReq h1 f = stopReq h f) by (unfold h1; destruct t; reflexivity).
  assert (K4 : forall f, reasonOf h1 f = reasonOf h f) by (unfold h1; destruct t; reflexivity).
  assert (I : Core s1 h1).
  { destruct HB as [B1 B2 B3 B4 B5 B6 B7]. constructor.
    - constructor.
      + unfold s1. destruct t; exact B1.
      + intros f. unfold s1. destruct t; cbn; eqb; auto.
      + intros f g. unfold s1. destruct t; cbn; eqb; auto.
      + intros f. unfold s1, h1. destruct t; cbn; eqb; auto.
      + intros f. unfold s1, h1. destruct t; cbn; eqb; auto.
      + rewrite K2. exact B6.
      + unfold h1. destruct t; [|exact B7]. cbn. split; [|exact B7]. destruct HT as (_ & X & _). lia.
    - unfold s1. cbn. now rewrite K1.
    - unfold s1. rewrite K1. destruct t; symmetry; exact HC.
    - now rewrite K1, K2, HC.
    - intros f. unfold std. rewrite K2, K3, K4. fold (std h f). destruct (Nat.eq_dec f c) as [Q|Q].
      + subst f. unfold s1. destruct t; cbn; [rewrite Nat.eqb_refl; unfold std; destruct HT as (X & _); now rewrite X|apply HT].
      + destruct (HO f Q) as [X _]. unfold s1. destruct t; cbn; [|exact X]. destruct (Nat.eqb_spec f c); [contradiction|exact X].
    - intros f. unfold h1. destruct (Nat.eq_dec f c) as [Q|Q].
      + subst f. destruct t; cbn [app nFree nExit]; [rewrite Nat.eqb_refl|]; destruct HT as (_ & X & Y); lia.
      + destruct (HO f Q) as [_ X]. destruct t; cbn [app nFree nExit]; [|exact X]. destruct (Nat.eqb_spec c f); [congruence|exact X]. }
  assert (X : ctx (fib s1 to) = Some (mkC (Some (stopReq h to)) (Some false) (Some (reasonOf h to)))).
  { rewrite (i_ctx _ _ I). unfold std. now rewrite K2, K3, K4, HA. }
  rewrite X. cbn [stopS reas]. pose proof (b_plc _ _ (i_base _ _ I) to) as XP.
  assert (Add : forall e, ctrl (e :: h1) = ctrl h1 -> (forall f, active (e :: h1) f = active h1 f) -> (forall f, stopReq (e :: h1) f = stopReq h1 f) -> (forall f, reasonOf (e :: h1) f = reasonOf h1 f) ->
    (forall f, callerOf (e :: h1) f = callerOf h1 f) -> (forall f, failed (e :: h1) f = failed h1 f) -> (forall f, nFree (e :: h1) f = nFree h1 f) -> (forall f, nExit (e :: h1) f = nExit h1 f) -> allowed h1 e -> Core s1 (e :: h1)).
  { intros e A1 A2 A3 A4 A5 A6 A7 A8 A9. destruct I as [[B1 B2 B3 B4 B5 B6 B7] I1 I2 I3 I4 I5]. constructor.
    - constructor; auto.
      + intros f. now rewrite A5.
      + intros f. now rewrite A6.
      + now rewrite A2.
      + cbn. auto.
    - now rewrite A1.
    - now rewrite A1.
    - now rewrite A1, A2.
    - intros f. unfold std. rewrite A2, A3, A4. apply I4.
    - intros f. now rewrite A7, A8. }
  assert (PL : forall f, plc (fib s1 f) = plc (fib s f)).
  { intros f. unfold s1. destruct t; cbn; [|reflexivity]. destruct (Nat.eqb_spec f c); [subst f|]; reflexivity. }
  assert (K5 : forall f, sleeping h1 f = sleeping h f) by (unfold h1; destruct t; reflexivity).
  assert (K6 : owes h1 = owes h) by (unfold h1; destruct t; reflexivity).
  assert (Fin : forall e, Core s1 (e :: h1) -> (forall f, active (e :: h1) f = active h1 f) -> ctrl (e :: h1) = ctrl h1 -> (forall f, f <> to -> sleeping (e :: h1) f = sleeping h f) -> sleeping (e :: h1) to = false -> owes (e :: h1) = false -> Inv s1 (e :: h1)).
  { intros e C1 C2 C3 C4 C5 C6. constructor; auto; rewrite C3, K1, HC; auto. intros f N A. rewrite PL, C4 by exact N. apply HS. now rewrite C2, K2 in A. }
  pose proof (HS to HA) as HSt. rewrite <- PL in HSt.
  destruct (stopReq h to) eqn:SR.
  - destruct (plc (fib s1 to)) as [| | |g] eqn:P; [right|left; reflexivity|right|exfalso; exact (XP g eq_refl)].
    all: eexists; split; [reflexivity|]; cbn [fst snd]; apply Fin; try reflexivity; [apply Add; try reflexivity; cbn; rewrite K1, K3; auto| |].
    1, 3: intros f N; cbn; rewrite K5; destruct (Nat.eqb_spec to f); [congruence|reflexivity].
    all: cbn; rewrite Nat.eqb_refl; reflexivity.
  - right. destruct (plc (fib s1 to)) as [| | |g] eqn:P; [| | |exfalso; exact (XP g eq_refl)].
    1, 2: assert (NS : sleeping h to = false) by (destruct (sleeping h to); [destruct HSt as [_ X2]; discriminate (X2 eq_refl)|reflexivity]);
      eexists; (split; [reflexivity|]); cbn [fst snd]; change (Inv s1 h1); constructor; auto; rewrite ?K1, ?HC, ?K5, ?K6, ?HW, ?NS; auto;
      intros f N A; rewrite PL, K5; apply HS; now rewrite K2 in A.
    eexists. split; [reflexivity|]. cbn [fst snd]. apply Fin; try reflexivity.
    + apply Add; try reflexivity. cbn. rewrite K1, K3, K4. auto.
    + intros f N. cbn. rewrite K5. destruct (Nat.eqb_spec to f); [congruence|reflexivity].
    + cbn. rewrite Nat.eqb_refl. reflexivity.
Qed.

Lemma also_ok e h (x : outcome (list ev * st)) : (x = Throw \/ exists y, x = Ok y /\ Inv (snd y) (fst y ++ (e ++ h))) ->
  also e x = Throw \/ exists y, also e x = Ok y /\ Inv (snd y) (fst y ++ h).
Proof. intros [->|(y & -> & I)]; [left; reflexivity|right]. eexists. split; [reflexivity|]. cbn [fst snd]. now rewrite <- app_assoc. Qed.

Lemma same_ok s h : Inv s h -> Ok ([] : list ev, s) = Throw \/ exists y : list ev * st, Ok ([], s) = Ok y /\ Inv (snd y) (fst y ++ h).
Proof. intros I. right. eexists. split; [reflexivity|exact I]. Qed.
(** events that only tell something *)
Lemma note_ok s h e : Inv s h -> ctrl (e :: h) = ctrl h -> (forall f, active (e :: h) f = active h f) -> (forall f, stopReq (e :: h) f = stopReq h f) -> (forall f, reasonOf (e :: h) f = reasonOf h f) ->
  (forall f, callerOf (e :: h) f = callerOf h f) -> (forall f, failed (e :: h) f = failed h f) -> (forall f, nFree (e :: h) f = nFree h f) -> (forall f, nExit (e :: h) f = nExit h f) -> allowed h e -> (forall f, sleeping (e :: h) f = sleeping h f) -> owes (e :: h) = owes h ->
  Ok ([e] : list ev, s) = Throw \/ exists y : list ev * st, Ok ([e], s) = Ok y /\ Inv (snd y) (fst y ++ h).
Proof.
  intros [[[B1 B2 B3 B4 B5 B6 B7] I1 I2 I3 I4 I5] J1 J2 J3] A1 A2 A3 A4 A5 A6 A7 A8 A9 A10 A11. right. eexists. split; [reflexivity|]. cbn [fst snd app]. constructor; [constructor| | |].
  - constructor; auto.
    + intros f. now rewrite A5.
    + intros f. now rewrite A6.
    + now rewrite A2.
    + cbn. auto.
  - now rewrite A1.
  - now rewrite A1.
  - now rewrite A1, A2.
  - intros f. unfold std. rewrite A2, A3, A4. apply I4.
  - intros f. now rewrite A7, A8.
  - intros f. rewrite A1, A2, A10. apply J1.
  - now rewrite A1, A10.
  - now rewrite A11.
Qed.

Lemma wake_ok s h f r p : Inv s h -> (forall g, p <> InDestr g) -> p <> InSleep ->
  wakeAt p s f r = Throw \/ exists x, wakeAt p s f r = Ok x /\ Inv (snd x) (fst x ++ h).
Proof.
  intros I NP NQ. pose proof I as [[[B1 B2 B3 B4 B5 B6 B7] I1 I2 I3 I4 I5] J1 J2 J3]. unfold wakeAt. rewrite B2, I1, I2.
  destruct (Nat.eqb_spec (ctrl h) f) as [Q|Q]; [subst f; apply note_ok; cbn; auto|].
  rewrite I4. unfold std. destruct (active h f) eqn:A; [|apply note_ok; cbn; auto].
  cbn [run setCaller setCtx put cur stopS termS]. rewrite I2. apply also_ok. cbn [cur setCaller setCtx put]. 
  apply resume_ok with (t := false); cbn [cur setPlc put setCtx setCaller app].
  - constructor; cbn; auto.
    + intros g. eqb; auto.
    + intros g k. eqb; auto.
    + intros g. eqb; auto. all: try (rewrite <- B4; auto; fail). all: try apply B4.
    + intros g. eqb; auto.
  - reflexivity.
  - exact A.
  - rewrite I1. congruence.
  - intros g G. rewrite I1 in G. split; [|exact (I5 g)]. cbn. unfold std. cbn. rewrite I1.
    destruct (Nat.eqb_spec g (ctrl h)); [congruence|]. destruct (Nat.eqb_spec g f) as [G2|G2].
    + subst g. rewrite A, !Nat.eqb_refl. reflexivity.
    + destruct (Nat.eqb_spec f g); [congruence|]. apply I4.
  - rewrite I1. cbn. rewrite Nat.eqb_refl. destruct (Nat.eqb_spec (ctrl h) f); [congruence|]. cbn. rewrite I4. unfold std. cbn.
    destruct (Nat.eqb_spec f (ctrl h)); [congruence|]. auto.
  - intros g. cbn. rewrite I1. destruct (Nat.eqb_spec g (ctrl h)) as [G|G]; cbn.
    + intros _. rewrite G, J2. split; [contradiction|discriminate].
    + destruct (Nat.eqb_spec g f) as [G2|G2]; cbn; [rewrite <- G2, ?Nat.eqb_refl; cbn|]; apply J1; exact G.
  - reflexivity.
Qed.

Lemma stop_ok s h f : Inv s h -> stop s f = Throw \/ exists x, stop s f = Ok x /\ Inv (snd x) (fst x ++ h).
Proof.
  intros I. pose proof I as [[[B1 B2 B3 B4 B5 B6 B7] I1 I2 I3 I4 I5] J1 J2 J3]. unfold stop, stopAt. rewrite B2.
  pose proof (I4 f) as C. unfold std in C. rewrite C. destruct (active h f) eqn:A; [|apply same_ok; exact I].
  apply also_ok. apply wake_ok; [|discriminate|discriminate]. cbn [app termS reas]. rewrite I2. constructor; [constructor|..].
  - constructor; cbn; auto.
    + intros g. eqb; auto.
    + intros g k. eqb; auto.
    + intros g. eqb; auto. all: try apply B4.
    + intros g. eqb; auto.
  - exact I1.
  - exact I2.
  - exact I3.
  - intros g. unfold std. cbn. destruct (Nat.eqb_spec g f) as [Q|Q].
    + subst g. rewrite A, Nat.eqb_refl. reflexivity.
    + destruct (Nat.eqb_spec f g); [congruence|]. apply I4.
  - exact I5.
  - intros g. cbn. destruct (Nat.eqb_spec g f) as [G2|G2]; cbn; [rewrite <- G2, ?Nat.eqb_refl; cbn|]; apply J1.
  - exact J2.
  - exact J3.
Qed.
Lemma switchSleep_ok s h b : Inv s h -> b = sleepsTo h (ctrl h) -> active h b = true ->
  switchSleep s b = Throw \/ exists x, switchSleep s b = Ok x /\ Inv (snd x) (fst x ++ h).
Proof.
  intros I E AB. pose proof I as [[[B1 B2 B3 B4 B5 B6 B7] I1 I2 I3 I4 I5] J1 J2 J3]. unfold switchSleep. rewrite I1, I2.
  destruct (Nat.eqb_spec (ctrl h) b) as [Q|Q].
  - rewrite I4. unfold std. rewrite I3. cbn [reas]. apply note_ok; cbn; auto. repeat split; auto. congruence.
  - apply also_ok. apply resume_ok with (t := false); cbn [cur setPlc put app].
    + constructor; cbn; auto.
      * intros g. eqb; auto.
      * intros g k. eqb; auto.
      * intros g. eqb; auto. all: try apply B4.
      * intros g. eqb; auto.
    + reflexivity.
    + exact AB.
    + rewrite I1. congruence.
    + intros g G. rewrite I1 in G. split; [|exact (I5 g)]. cbn. destruct (Nat.eqb_spec g (ctrl h)); [congruence|]. apply I4.
    + rewrite I1. cbn. rewrite Nat.eqb_refl. cbn. rewrite I4. auto.
    + intros g. cbn. destruct (Nat.eqb_spec g (ctrl h)) as [G|G]; cbn.
      * intros _. subst g. rewrite Nat.eqb_refl. cbn. tauto.
      * destruct (Nat.eqb_spec (ctrl h) g); [congruence|]. cbn. apply J1. exact G.
    + cbn. destruct (Nat.eqb_spec (ctrl h) b); [congruence|]. reflexivity.
Qed.
Lemma sleep_ok s h : Inv s h -> sleep s = Throw \/ exists x, sleep s = Ok x /\ Inv (snd x) (fst x ++ h).
Proof.
  intros I. pose proof I as [[[B1 B2 B3 B4 B5 B6 B7] I1 I2 I3 I4 I5] J1 J2 J3]. unfold sleep. rewrite I1, B4.
  destruct (callerOf h (ctrl h)) as [b|] eqn:C.
  - rewrite B2, I4. unfold std. destruct (active h b) eqn:A.
    + apply switchSleep_ok; auto. unfold sleepsTo. now rewrite C, A.
    + apply switchSleep_ok; auto. unfold sleepsTo. now rewrite C, A.
  - apply switchSleep_ok; auto. unfold sleepsTo. now rewrite C.
Qed.
Lemma start_ok s h f : Inv s h -> start s f = Throw \/ exists x, start s f = Ok x /\ Inv (snd x) (fst x ++ h).
Proof.
  intros I. pose proof I as [[[B1 B2 B3 B4 B5 B6 B7] I1 I2 I3 I4 I5] J1 J2 J3]. unfold start. pose proof (I4 f) as C. unfold std in C. rewrite C.
  destruct (active h f) eqn:A; [apply same_ok; exact I|]. rewrite B2. right. eexists. split; [reflexivity|].
  cbn [fst snd app run setCur setCaller setCtx put]. rewrite I1, I2. assert (N : f <> ctrl h) by congruence. constructor; [constructor|..].
  - constructor; cbn; auto.
    + intros g. eqb; auto.
    + intros g k. eqb; auto; discriminate.
    + intros g. eqb; auto. all: try apply B4.
    + intros g. eqb; auto.
    + rewrite B6. now rewrite Bool.orb_true_r.
  - reflexivity.
  - reflexivity.
  - cbn. now rewrite Nat.eqb_refl.
  - intros g. unfold std. cbn. destruct (Nat.eqb_spec g (ctrl h)) as [Q|Q].
    + subst g. destruct (Nat.eqb_spec (ctrl h) f); [congruence|]. destruct (Nat.eqb_spec f (ctrl h)); [congruence|]. cbn. rewrite I4. reflexivity.
    + destruct (Nat.eqb_spec g f) as [G|G].
      * subst g. rewrite Nat.eqb_refl. reflexivity.
      * destruct (Nat.eqb_spec f g); [congruence|]. apply I4.
  - intros g. apply I5.
  - intros g G. cbn in G |- *. destruct (Nat.eqb_spec f g); [congruence|]. destruct (Nat.eqb_spec g f); [congruence|]. cbn. intros A2.
    destruct (Nat.eqb_spec g (ctrl h)) as [G2|G2]; cbn.
    + rewrite G2, J2. split; discriminate.
    + destruct (Nat.eqb_spec g f); [congruence|]. apply J1; auto.
  - cbn. rewrite Nat.eqb_refl. reflexivity.
  - reflexivity.
Qed.
Lemma exit_ok s h bad : Inv s h -> exit_ s bad = Throw \/ exists x, exit_ s bad = Ok x /\ Inv (snd x) (fst x ++ h).
Proof.
  intros I. pose proof I as [[[B1 B2 B3 B4 B5 B6 B7] I1 I2 I3 I4 I5] J1 J2 J3]. unfold exit_. rewrite I1, I2.
  destruct (Nat.eqb_spec (ctrl h) 0) as [Q|Q]; [apply same_ok; exact I|].
  rewrite I4. unfold std. rewrite I3. cbn [stopS reas].
  replace (run (if bad then setExc s (ctrl h) true else s)) with (ctrl h) by (destruct bad; symmetry; exact I2).
  apply also_ok. set (s1 := if bad then setExc s (ctrl h) true else s).
  assert (C1 : cur s1 = ctrl h) by (unfold s1; destruct bad; exact I1).
  assert (X : forall g, ctx (fib s1 g) = std h g) by (intros g; unfold s1; destruct bad; [|apply I4]; cbn; eqb; apply I4).
  apply resume_ok with (t := true); cbn [cur setCtx put app].
  - constructor; cbn [todo setCtx put fib].
    + unfold s1. destruct bad; exact B1.
    + intros g. unfold s1. destruct bad; eqb; auto.
    + intros g k. unfold s1. destruct bad; eqb; auto.
    + intros g. unfold s1. destruct bad; cbn; eqb; auto; apply B4.
    + intros g. unfold s1. cbn [failed]. destruct (Nat.eqb_spec g (ctrl h)) as [G|G].
      * subst g. rewrite Nat.eqb_refl. destruct bad; cbn; rewrite ?Nat.eqb_refl; cbn; auto.
      * destruct (Nat.eqb_spec (ctrl h) g); [congruence|]. cbn. destruct bad; cbn; [destruct (Nat.eqb_spec g (ctrl h)); [congruence|]|]; apply B5.
    + cbn [active]. destruct (Nat.eqb_spec (ctrl h) 0); [congruence|]. exact B6.
    + cbn. auto.
  - reflexivity.
  - cbn [active]. destruct (Nat.eqb_spec (ctrl h) 0); [congruence|]. exact B6.
  - rewrite C1. congruence.
  - intros g G. rewrite C1 in G. cbn [setCtx put fib nFree nExit]. destruct (Nat.eqb_spec g (ctrl h)); [congruence|]. destruct (Nat.eqb_spec (ctrl h) g) as [N|N]; [congruence|]. split; [|apply I5].
    transitivity (std h g); [rewrite <- X; reflexivity|]. unfold std. cbn. destruct (Nat.eqb_spec (ctrl h) g); [congruence|]. reflexivity.
  - rewrite C1. cbn [setCtx put active nExit nFree fib]. rewrite !Nat.eqb_refl. cbn. rewrite I5. eauto.
  - intros g. cbn [active sleeping setCtx put fib]. destruct (Nat.eqb_spec (ctrl h) g) as [G|G]; [discriminate|]. cbn [negb andb]. intros A2.
    destruct (Nat.eqb_spec g (ctrl h)); [congruence|]. replace (plc (fib s1 g)) with (plc (fib s g)); [apply J1; auto|].
    unfold s1. destruct bad; [|reflexivity]. cbn. destruct (Nat.eqb_spec g (ctrl h)); [congruence|reflexivity].
  - reflexivity.
Qed.
Lemma check_ok s h f : Inv s h -> checkState s f = Throw \/ exists x, checkState s f = Ok x /\ Inv (snd x) (fst x ++ h).
Proof.
  intros I. pose proof I as [[[B1 B2 B3 B4 B5 B6 B7] I1 I2 I3 I4 I5] J1 J2 J3]. unfold checkState. rewrite B2, B5, I1.
  destruct (failed h f && Nat.eqb (ctrl h) 0) eqn:E.
  - apply andb_prop in E. destruct E as [E1 E2]. apply Nat.eqb_eq in E2. right. eexists. split; [reflexivity|]. cbn [fst snd app]. constructor; [constructor|..].
    + constructor; cbn; auto.
      * intros g. eqb; auto.
      * intros g k. eqb; auto.
      * intros g. eqb; auto. all: try apply B4.
      * intros g. eqb; auto. all: try (rewrite <- B5; auto; fail). all: try apply B5.
    + exact I1.
    + exact I2.
    + exact I3.
    + intros g. cbn. unfold std. cbn. eqb; apply I4.
    + exact I5.
    + intros g. cbn. destruct (Nat.eqb_spec g f) as [G2|G2]; cbn; [rewrite <- G2, ?Nat.eqb_refl; cbn|]; apply J1.
    + exact J2.
    + exact J3.
  - apply note_ok; cbn; auto. split.
    + rewrite I4. unfold std. destruct (active h f); reflexivity.
    + intros F Z. rewrite F, Z in E. discriminate E.
Qed.
Lemma step_ok s h o : Inv s h -> keeps o -> step s o = Throw \/ exists x, step s o = Ok x /\ Inv (snd x) (fst x ++ h).
Proof.
  intros I K. unfold step. rewrite (b_todo _ _ (i_base _ _ (i_core _ _ I))). destruct o as [f|f r|f| |bad| |f|f u].
  - now apply start_ok.
  - apply wake_ok; [exact I|discriminate|discriminate].
  - now apply stop_ok.
  - now apply sleep_ok.
  - now apply exit_ok.
  - apply note_ok; cbn; auto. symmetry. apply I.
  - now apply check_ok.
  - contradiction.
Qed.
Lemma run_ok l : forall s h, Inv s h -> Forall keeps l -> runOps l h s = Throw \/ exists x, runOps l h s = Ok x /\ Inv (snd x) (fst x).
Proof.
  induction l as [|o l IH]; intros s h I F; cbn [runOps].
  - right. eexists. split; [reflexivity|exact I].
  - inversion F; subst. destruct (step_ok s h o I) as [->|(x & -> & J)]; auto.
Qed.

(** without stop the program does not end in wakeUp *)
Definition NS (s : st) : Prop := forall f d, ctx (fib s f) = Some d -> stopS d <> Some true.
Definition noStop (o : op) : Prop := match o with OStop _ => False | _ => True end.
Lemma resume_ns s to : NS s -> resume s to <> Throw /\ forall x, resume s to = Ok x -> NS (snd x).
Proof.
  intros N. unfold resume. cbn [cur goto fib]. destruct (ctx (fib s (cur s))) as [c|] eqn:C; [|split; [discriminate|intros x Q; discriminate Q]].
  destruct (termS c) as [t|]; [|split; [discriminate|intros x Q; discriminate Q]].
  set (s1 := setCur (if t then setCtx (goto s to) (cur s) None else goto s to) to).
  assert (N1 : NS s1). { intros f d. unfold s1. destruct t; cbn; [destruct (Nat.eqb_spec f (cur s)); cbn; [discriminate|]|]; apply N. }
  destruct (ctx (fib s1 to)) as [d|] eqn:D.
  - destruct (stopS d) as [[|]|] eqn:S; [exfalso; exact (N1 to d D S)| |split; [discriminate|intros x Q; discriminate Q]].
    destruct (plc (fib s1 to)); split; try discriminate; intros x Q; inversion Q; subst; exact N1.
  - destruct (plc (fib s1 to)); split; try discriminate; intros x Q; inversion Q; subst; exact N1.
Qed.
Lemma also_ns e x : x <> Throw /\ (forall y, x = Ok y -> NS (snd y)) -> also e x <> Throw /\ forall y, also e x = Ok y -> NS (snd y).
Proof. intros [A B]. destruct x as [y| | |]; cbn; split; try discriminate; try contradiction; intros z Q; try discriminate Q. inversion Q; subst. cbn. exact (B y eq_refl). Qed.
Lemma plc_ns s f p : NS s -> NS (setPlc s f p).
Proof. intros N g d. cbn. destruct (Nat.eqb_spec g f); cbn; [subst|]; apply N. Qed.
Lemma ok_ns e s : NS s -> Ok (e, s) <> Throw /\ forall y : list ev * st, Ok (e, s) = Ok y -> NS (snd y).
Proof. intros N. split; [discriminate|]. intros y Q. inversion Q. exact N. Qed.
Lemma step_ns s o : todo s = None -> NS s -> keeps o -> noStop o -> step s o <> Throw /\ forall x, step s o = Ok x -> NS (snd x).
Proof.
  intros T N K S. unfold step. rewrite T. destruct o as [f|f r|f| |bad| |f|f u]; try contradiction.
  - unfold start. destruct (ctx (fib s f)) eqn:C; [now apply ok_ns|]. destruct (gone (fib s f)); [now apply ok_ns|]. apply ok_ns. intros g d. cbn.
    destruct (Nat.eqb g (cur s)); cbn; [|destruct (Nat.eqb g f) eqn:G; cbn].
    + destruct (Nat.eqb (cur s) f) eqn:G; cbn; [intros Q; rewrite ?G, ?Nat.eqb_refl in Q; cbn in Q; inversion Q; discriminate|apply N].
    + rewrite ?Nat.eqb_refl. cbn. intros Q. inversion Q. discriminate.
    + rewrite ?G. apply N.
  - unfold wakeUp, wakeAt. destruct (gone (fib s f)); [now apply ok_ns|]. destruct (Nat.eqb (cur s) f); [now apply ok_ns|]. destruct (ctx (fib s f)) as [c|] eqn:C; [|now apply ok_ns].
    apply also_ns, resume_ns, plc_ns. intros g d. cbn. destruct (Nat.eqb_spec g f) as [G|G]; cbn; [|apply N]. intros Q. inversion Q. cbn. exact (N f c C).
  - unfold sleep. assert (X : forall b, switchSleep s b <> Throw /\ forall x, switchSleep s b = Ok x -> NS (snd x)).
    { intros b. unfold switchSleep. destruct (Nat.eqb (cur s) b); [destruct (ctx (fib s (cur s))); [now apply ok_ns|split; [discriminate|intros x Q; discriminate Q]]|]. apply also_ns, resume_ns, plc_ns, N. }
    destruct (caller (fib s (cur s))) as [b|]; [|apply X]. destruct (gone (fib s b)); [split; [discriminate|intros x Q; discriminate Q]|]. destruct (ctx (fib s b)); apply X.
  - unfold exit_. destruct (Nat.eqb (run s) 0); [now apply ok_ns|]. destruct (ctx (fib s (cur s))) as [c|] eqn:C; [|split; [discriminate|intros x Q; discriminate Q]].
    apply also_ns, resume_ns. intros g d. cbn. destruct (Nat.eqb_spec g (cur s)) as [G|G]; cbn.
    + intros Q. inversion Q. cbn. exact (N _ c C).
    + destruct bad; cbn; [destruct (Nat.eqb_spec g (cur s)); [contradiction|]|]; apply N.
  - now apply ok_ns.
  - unfold checkState. destruct (gone (fib s f)); [now apply ok_ns|]. destruct (exc (fib s f) && Nat.eqb (cur s) 0); apply ok_ns; auto.
    intros g d. cbn. destruct (Nat.eqb_spec g f); cbn; [subst|]; apply N.
Qed.
Lemma run_ns l : forall s h, Inv s h -> NS s -> Forall keeps l -> Forall noStop l -> runOps l h s <> Throw.
Proof.
  induction l as [|o l IH]; intros s h I N F G; cbn [runOps]; [discriminate|]. inversion F; subst. inversion G; subst.
  destruct (step_ns s o (b_todo _ _ (i_base _ _ (i_core _ _ I))) N) as [A B]; auto. destruct (step_ok s h o I) as [E|(x & E & J)]; auto; try contradiction. rewrite E. apply IH; auto.
Qed.

Definition adds (a : list ev) (x : outcome (list ev * st)) : Prop := forall y, x = Ok y -> exists t, fst y = t ++ a /\ Forall after t.
Lemma adds_ok a s : adds a (Ok (a, s)).
Proof. intros y Q. inversion Q; subst. exists []. split; [reflexivity|constructor]. Qed.
Lemma adds_also a x : adds [] x -> adds a (also a x).
Proof. intros H y Q. destruct x as [z| | |]; cbn in Q; try discriminate Q. inversion Q; subst. destruct (H z eq_refl) as (t & E & F). exists t. rewrite app_nil_r in E. cbn. now rewrite E. Qed.
Lemma adds_also2 a b x : adds b x -> adds (b ++ a) (also a x).
Proof. intros H y Q. destruct x as [z| | |]; cbn in Q; try discriminate Q. inversion Q; subst. destruct (H z eq_refl) as (t & E & F). exists t. cbn. rewrite E, app_assoc. auto. Qed.
Lemma adds_resume s to : (forall g, plc (fib s to) <> InDestr g) -> adds [] (resume s to).
Proof.
  intros P y. unfold resume. cbn [cur goto fib]. destruct (ctx (fib s (cur s))) as [c|]; [|discriminate]. destruct (termS c) as [t|]; [|discriminate].
  set (s1 := setCur _ to). assert (E : plc (fib s1 to) = plc (fib s to)).
  { unfold s1. destruct t; cbn; [|reflexivity]. destruct (Nat.eqb_spec to (cur s)) as [Q|Q]; [rewrite <- Q|]; reflexivity. }
  rewrite <- E in P. destruct (ctx (fib s1 to)) as [d|].
  - destruct (stopS d) as [[|]|]; [| |discriminate]; destruct (plc (fib s1 to)) as [| | |g]; try (exfalso; exact (P g eq_refl)); try discriminate; intros Q; inversion Q; subst; cbn [fst];
      eexists; rewrite app_nil_r; (split; [reflexivity|]); destruct t; repeat constructor.
  - destruct (plc (fib s1 to)) as [| | |g]; try (exfalso; exact (P g eq_refl)); try discriminate; intros Q; inversion Q; subst; cbn [fst];
      eexists; rewrite app_nil_r; (split; [reflexivity|]); destruct t; repeat constructor.
Qed.
Lemma adds_wake s h f r : Inv s h -> adds (if negb (Nat.eqb (ctrl h) f) && active h f then [EWake (ctrl h) f r] else [EWakeNo (ctrl h) f]) (wakeUp s f r).
Proof.
  intros I. pose proof I as [[[B1 B2 B3 B4 B5 B6 B7] I1 I2 I3 I4 I5] J1 J2 J3]. unfold wakeUp, wakeAt. rewrite B2, I1, I2.
  destruct (Nat.eqb_spec (ctrl h) f) as [Q|Q]; cbn [negb andb]; [apply adds_ok|]. rewrite I4. unfold std. destruct (active h f) eqn:A; [|apply adds_ok].
  cbn [run setCaller setCtx put]. rewrite I2. apply adds_also, adds_resume. intros g. cbn. rewrite I1. destruct (Nat.eqb_spec f (ctrl h)); [congruence|]. rewrite Nat.eqb_refl. cbn. apply B3.
Qed.
Lemma adds_step s h o : Inv s h -> keeps o -> adds (answer h o) (step s o).
Proof.
  intros I K. pose proof I as [[[B1 B2 B3 B4 B5 B6 B7] I1 I2 I3 I4 I5] J1 J2 J3]. unfold step. rewrite B1. destruct o as [f|f r|f| |bad| |f|f u]; cbn [answer].
  - unfold start. rewrite I4. unfold std. destruct (active h f) eqn:A; [apply adds_ok|]. rewrite B2. cbn [run setCur setCaller setCtx put]. rewrite I2. apply adds_ok.
  - now apply adds_wake.
  - unfold stop, stopAt. rewrite B2, I4, I2. unfold std. destruct (active h f) eqn:A; [|apply adds_ok].
    assert (X : forall z : list ev, (if Nat.eqb (ctrl h) f then EWakeNo (ctrl h) f :: z else EWake (ctrl h) f 0 :: z) = (if negb (Nat.eqb (ctrl h) f) && active h f then [EWake (ctrl h) f 0] else [EWakeNo (ctrl h) f]) ++ z)
      by (intros z; rewrite A; destruct (Nat.eqb (ctrl h) f); reflexivity).
    rewrite (X [EStop (ctrl h) f]). apply adds_also2. cbn [termS reas].
    set (s1 := setCtx s f _). unfold wakeAt. replace (gone (fib s1 f)) with false by (unfold s1; cbn; rewrite Nat.eqb_refl; cbn; now rewrite B2).
    replace (cur s1) with (ctrl h) by (rewrite <- I1; reflexivity). replace (run s1) with (ctrl h) by (rewrite <- I2; reflexivity).
    destruct (Nat.eqb_spec (ctrl h) f) as [Q|Q]; cbn [negb andb]; [apply adds_ok|]. rewrite A.
    replace (ctx (fib s1 f)) with (Some (mkC (Some true) (Some false) (Some (reasonOf h f)))) by (unfold s1; cbn; rewrite Nat.eqb_refl; reflexivity).
    cbn [run setCaller setCtx put]. replace (run s1) with (ctrl h) by (rewrite <- I2; reflexivity). apply adds_also, adds_resume. intros g. cbn. rewrite I1.
    destruct (Nat.eqb_spec f (ctrl h)); [congruence|]. rewrite ?Nat.eqb_refl. cbn. rewrite ?Nat.eqb_refl. cbn. rewrite ?Nat.eqb_refl. cbn. apply B3.
  - assert (X : forall b, b = sleepsTo h (ctrl h) -> adds (if Nat.eqb (ctrl h) (sleepsTo h (ctrl h)) then [ENoSleep (ctrl h) (Some (reasonOf h (ctrl h)))] else [ESleep (ctrl h) (sleepsTo h (ctrl h))]) (switchSleep s b)).
    { intros b ->. unfold switchSleep. rewrite I1, I2. set (b := sleepsTo h (ctrl h)). destruct (Nat.eqb_spec (ctrl h) b) as [Q|Q].
      - rewrite I4. unfold std. rewrite I3. cbn [reas]. apply adds_ok.
      - apply adds_also, adds_resume. intros g. cbn. destruct (Nat.eqb_spec b (ctrl h)); [congruence|]. apply B3. }
    unfold sleep. rewrite I1, B4. destruct (callerOf h (ctrl h)) as [b|] eqn:C.
    + rewrite B2, I4. unfold std. destruct (active h b) eqn:A; apply X; unfold sleepsTo; now rewrite C, A.
    + apply X. unfold sleepsTo. now rewrite C.
  - unfold exit_. rewrite I1, I2. destruct (Nat.eqb_spec (ctrl h) 0) as [Q|Q]; [apply adds_ok|]. rewrite I4. unfold std. rewrite I3.
    replace (run (if bad then setExc s (ctrl h) true else s)) with (ctrl h) by (destruct bad; symmetry; exact I2).
    apply adds_also, adds_resume. intros g. cbn. destruct (ctrl h) as [|c]; [congruence|]. destruct bad; cbn; apply B3.
  - rewrite I1. apply adds_ok.
  - unfold checkState. rewrite B2, B5, I1. destruct (failed h f && Nat.eqb (ctrl h) 0); [apply adds_ok|]. rewrite I4. unfold std. destruct (active h f); apply adds_ok.
  - contradiction.
Qed.
Lemma runOps_app l : forall o h s, runOps (l ++ [o]) h s = match runOps l h s with Ok x => match step (snd x) o with Ok y => Ok (fst y ++ fst x, snd y) | Throw => Throw | Undef => Undef | NoFuel => NoFuel end | Throw => Throw | Undef => Undef | NoFuel => NoFuel end.
Proof.
  induction l as [|a l IH]; intros o h s; cbn [app runOps].
  - cbn [fst snd]. destruct (step s o); reflexivity.
  - destruct (step s a); auto.
Qed.
