From Verif Require Import Common WeakRef_Spec WeakRef_Model.
Local Open Scope Z_scope.

Definition isHeld (h : hstate) : bool := match h with HHeld _ => true | _ => false end.
Definition held (l : list hstate) : Z := Z.of_nat (length (filter isHeld l)).

Lemma w64_id v : -2^63 <= v < 2^63 -> w64 v = v.
Proof. intros H. unfold w64. rewrite Z.mod_small; lia. Qed.

Lemma held_app l x : held (l ++ [x]) = held l + (if isHeld x then 1 else 0).
Proof. unfold held. rewrite filter_app, app_length. cbn. destruct (isHeld x); cbn; lia. Qed.
Lemma held_upd : forall l i x y, nth_error l i = Some x ->
  held (upd l i y) = held l - (if isHeld x then 1 else 0) + (if isHeld y then 1 else 0).
Proof.
  unfold held. induction l as [|a l IH]; intros [|i] x y H; cbn [nth_error] in H; try discriminate.
  - injection H as ->. cbn [upd filter]. destruct (isHeld x), (isHeld y); cbn [length]; lia.
  - cbn [upd filter]. specialize (IH i x y H). destruct (isHeld a); cbn [length]; lia.
Qed.
Lemma held_pos l i r : nth_error l i = Some (HHeld r) -> 1 <= held l.
Proof.
  revert i. unfold held. induction l as [|a l IH]; intros [|i] H; cbn [nth_error] in H; try discriminate.
  - injection H as ->. cbn [filter isHeld length]. lia.
  - cbn [filter]. specialize (IH i H). destruct (isHeld a); cbn [length]; lia.
Qed.
Lemma held_pos_ex l : 1 <= held l -> exists i r, nth_error l i = Some (HHeld r).
Proof.
  unfold held. induction l as [|a l IH]; cbn [filter length]; [lia|]. destruct a as [r| |]; cbn [isHeld].
  - intros _. exists 0%nat, r. reflexivity.
  - intros H. destruct (IH H) as (i & r & E). exists (S i), r. exact E.
  - intros H. destruct (IH H) as (i & r & E). exists (S i), r. exact E.
Qed.
Lemma held_le l : 0 <= held l <= Z.of_nat (length l).
Proof.
  unfold held. split; [lia|]. induction l as [|a l IH]; cbn [filter length]; [lia|].
  destruct (isHeld a); cbn [length]; lia.
Qed.

Definition base (s : sstate) : Z :=
  match s with
  | SIdle | SCas | SReg | SSub => initedFlag
  | SHalt | SRead | SLeft => 0
  | SRet | SExit => leftFlag
  end.
Definition ended (s : sstate) : Prop := s = SRet \/ s = SExit.

Record WInv (w : wst) : Prop := {
  vC : wCount w = base (wSet w) + held (wHandles w);
  vQ : wSet w = SLeft \/ ended (wSet w) -> forall i p, nth_error (wHandles w) i <> Some (HHeld (Some p));
  vN : (wSet w = SSub \/ base (wSet w) = 0 -> wNotify w = true) /\
       (forall i, nth_error (wHandles w) i = Some HNotify -> wNotify w = true);
  vW : wSet w = SHalt -> wToken w = true \/ 1 <= held (wHandles w) \/
         exists i, nth_error (wHandles w) i = Some HNotify;
  vL : forall h r, In (WLock h r) (wLog w) -> (h < length (wHandles w))%nat;
  vH : forall h s, nth_error (wHandles w) h = Some s ->
         match s with
         | HHeld r => (forall r', In (WLock h r') (wLog w) <-> r' = r) /\ ~ In (WUnlock h) (wLog w)
         | _ => (exists r, In (WLock h r) (wLog w)) /\ In (WUnlock h) (wLog w)
         end;
  vU : forall h, In (WUnlock h) (wLog w) -> (h < length (wHandles w))%nat;
  vB : In WSetBegin (wLog w) <-> wSet w <> SIdle;
  vE : In WSetEnd (wLog w) <-> ended (wSet w);
  vP : withdrawn (wLog w) /\ available (wTarget w) (wLog w) }.

Lemma WInv_init t : WInv (winit t).
Proof.
  split; unfold winit; cbn -[Z.pow]; try tauto.
  - intros _ [|i]; discriminate.
  - split; [intros [H|H]; discriminate|intros [|i]; discriminate].
  - discriminate.
  - intros [|h] s; discriminate.
  - unfold ended. split; [intros []|intros [H|H]; discriminate].
  - split.
    + intros a b E. destruct a; discriminate.
    + intros a b E. symmetry in E. apply app_eq_nil in E as [-> _]. intros _ h r [].
Qed.

Lemma withdrawn_snoc log e : withdrawn log ->
  (e = WSetEnd -> forall h p, In (WLock h (Some p)) log -> In (WUnlock h) log) ->
  (forall h r, e = WLock h r -> In WSetEnd log -> r = None) ->
  withdrawn (log ++ [e]).
Proof.
  intros W H1 H2 a b E. destruct b as [|b0 b] using rev_ind.
  - apply app_inj_tail in E as [<- ->]. split; [apply H1; auto|]. intros h r [].
  - clear IHb. replace (a ++ WSetEnd :: b ++ [b0]) with ((a ++ WSetEnd :: b) ++ [b0]) in E
      by (rewrite <- app_assoc; reflexivity).
    apply app_inj_tail in E as [E ->]. destruct (W a b E) as [A B]. split; auto.
    intros h r Hi. apply in_app_iff in Hi as [Hi|[Hi|[]]]; [eapply B; eauto|].
    eapply H2; eauto. rewrite E. apply in_or_app. cbn. auto.
Qed.

Lemma available_snoc t log e : available t log ->
  (forall h r, e = WLock h r -> ~ In WSetBegin log -> r = Some t) ->
  available t (log ++ [e]).
Proof.
  intros A H a b E N h r Hi. destruct b as [|b0 b] using rev_ind.
  - rewrite app_nil_r in E. subst a. apply in_app_iff in Hi as [Hi|[Hi|[]]].
    + apply (A log [] (eq_sym (app_nil_r _))) with h; auto. intros Q. apply N. apply in_or_app. auto.
    + apply (H h r); auto. intros Q. apply N. apply in_or_app. auto.
  - rewrite app_assoc in E. apply app_inj_tail in E as [E _]. eapply A; eauto.
Qed.

Definition bounded (w : wst) : Prop := Z.of_nat (length (wHandles w)) < 2^62.

Lemma in_snoc {A} (l : list A) x y : In x (l ++ [y]) <-> In x l \/ x = y.
Proof. rewrite in_app_iff. cbn. intuition. Qed.

Lemma nth_snoc {A} (l : list A) y i x : nth_error (l ++ [y]) i = Some x ->
  nth_error l i = Some x \/ (i = length l /\ x = y).
Proof.
  intros H. destruct (Nat.lt_ge_cases i (length l)) as [L|L].
  - rewrite nth_error_app1 in H by auto. auto.
  - rewrite nth_error_app2 in H by auto. destruct (i - length l)%nat as [|[|k]] eqn:E; cbn in H; try discriminate.
    injection H as <-. right. split; auto. lia.
Qed.

Lemma lock_inv w : WInv w -> Z.of_nat (length (wHandles w)) + 1 < 2^62 -> WInv (doLock w).
Proof.
  intros I Bd. pose proof (held_le (wHandles w)) as Hk. pose proof (vC _ I) as C.
  unfold doLock. set (k := held (wHandles w)) in *.
  assert (Cv : w64 (wCount w + 1) = wCount w + 1).
  { apply w64_id. rewrite C. destruct (wSet w); cbn [base]; unfold initedFlag, leftFlag; lia. }
  rewrite Cv.
  assert (Neg : (wCount w + 1 <? 0) = (base (wSet w) =? initedFlag)).
  { rewrite C. destruct (wSet w); cbn [base]; unfold initedFlag, leftFlag;
      match goal with |- (?a <? 0) = (?b =? ?c) => destruct (Z.ltb_spec a 0), (Z.eqb_spec b c); auto; lia end. }
  rewrite Neg. set (r := if base (wSet w) =? initedFlag then Some (wTarget w) else None).
  assert (Hr : forall p, r = Some p -> wSet w <> SLeft /\ ~ ended (wSet w)).
  { intros p. subst r. destruct (wSet w); cbn [base]; unfold initedFlag, leftFlag, ended; cbn; try discriminate;
      intros _; split; try discriminate; intros [|]; discriminate. }
  split; cbn [setCount setHandles wlog wTarget wCount wNotify wToken wSet wHandles wLog].
  - rewrite held_app. cbn [isHeld]. fold k. lia.
  - intros Q i p Hn. apply nth_snoc in Hn as [Hn|[_ Hn]].
    + apply (vQ _ I Q i p Hn).
    + injection Hn as Hn. destruct (Hr p (eq_sym Hn)) as [A B]. tauto.
  - destruct (vN _ I) as [A B]. split; auto. intros i Hn. apply nth_snoc in Hn as [Hn|[_ Hn]]; eauto. discriminate.
  - intros Q. right. left. rewrite held_app. cbn [isHeld]. fold k. lia.
  - intros h r' Hi. rewrite app_length. cbn [length]. apply in_snoc in Hi as [Hi|Hi].
    + apply (vL _ I) in Hi. lia.
    + injection Hi as -> _. lia.
  - intros h s Hn. apply nth_snoc in Hn as [Hn|[-> ->]].
    + pose proof (vH _ I h s Hn) as H.
      assert (h < length (wHandles w))%nat by (apply nth_error_Some; congruence).
      destruct s as [r0| |].
      * destruct H as [A B]. split.
        -- intros r'. rewrite in_snoc, A. split; [intros [E|E]; auto; injection E; intros; lia|auto].
        -- rewrite in_snoc. intros [E|E]; [contradiction|discriminate].
      * destruct H as [[r0 A] B]. split; [exists r0|]; rewrite in_snoc; auto.
      * destruct H as [[r0 A] B]. split; [exists r0|]; rewrite in_snoc; auto.
    + split.
      * intros r'. rewrite in_snoc. split; [intros [E|E]; [apply (vL _ I) in E; lia|congruence]|].
        intros ->. auto.
      * rewrite in_snoc. intros [E|E]; [apply (vU _ I) in E; lia|discriminate].
  - intros h Hi. rewrite app_length. cbn [length]. apply in_snoc in Hi as [Hi|Hi]; [|discriminate].
    apply (vU _ I) in Hi. lia.
  - rewrite in_snoc, (vB _ I). split; [intros [|]; [auto|discriminate]|auto].
  - rewrite in_snoc, (vE _ I). split; [intros [|]; [auto|discriminate]|auto].
  - destruct (vP _ I) as [A B]. split.
    + apply withdrawn_snoc; auto; [discriminate|]. intros h r0 E Hi. injection E as _ <-.
      apply (vE _ I) in Hi. destruct r as [p|] eqn:Er; auto. destruct (Hr p eq_refl). contradiction.
    + apply available_snoc; auto. intros h r0 E Hn. injection E as _ <-.
      assert (wSet w = SIdle) as S0. { destruct (wSet w) eqn:Es; auto; exfalso; apply Hn, (vB _ I); congruence. }
      subst r. rewrite S0. reflexivity.
Qed.

Lemma unlock_inv w h r : WInv w -> bounded w -> nth_error (wHandles w) h = Some (HHeld r) -> WInv (doUnlock w h).
Proof.
  intros I Bd Hh. pose proof (held_le (wHandles w)) as Hk. pose proof (vC _ I) as C.
  pose proof (held_pos _ _ _ Hh) as Hp. unfold bounded in Bd.
  assert (Lh : (h < length (wHandles w))%nat) by (apply nth_error_Some; congruence).
  unfold doUnlock. set (k := held (wHandles w)) in *.
  assert (Cv : w64 (wCount w - 1) = wCount w - 1).
  { apply w64_id. rewrite C. destruct (wSet w); cbn [base]; unfold initedFlag, leftFlag; lia. }
  rewrite Cv.
  set (x := if wCount w - 1 =? 0 then HNotify else HGone).
  assert (Hx : isHeld x = false) by (subst x; destruct (wCount w - 1 =? 0); auto).
  assert (X : forall i y, nth_error (upd (wHandles w) h x) i = Some y ->
             (i = h /\ y = x) \/ (i <> h /\ nth_error (wHandles w) i = Some y)).
  { intros i y Hi. destruct (Nat.eq_dec i h) as [->|N].
    - rewrite nth_error_upd_eq in Hi by auto. left. split; congruence.
    - rewrite nth_error_upd_ne in Hi by auto. auto. }
  assert (Hd : held (upd (wHandles w) h x) = k - 1).
  { rewrite (held_upd _ _ _ x Hh). rewrite Hx. cbn [isHeld]. fold k. lia. }
  assert (XN : x = HNotify -> base (wSet w) = 0).
  { subst x. destruct (Z.eqb_spec (wCount w - 1) 0) as [E|]; [|discriminate]. intros _. rewrite C in E.
    destruct (wSet w); cbn [base] in *; unfold initedFlag, leftFlag in *; lia. }
  split; cbn [setCount setHandles wlog wTarget wCount wNotify wToken wSet wHandles wLog].
  - rewrite Hd. lia.
  - intros Q i p Hn. apply X in Hn as [[_ Hn]|[_ Hn]].
    + rewrite <- Hn in Hx. discriminate.
    + apply (vQ _ I Q i p Hn).
  - destruct (vN _ I) as [A B]. split; auto. intros i Hn. apply X in Hn as [[_ Hn]|[_ Hn]]; eauto.
  - intros Q. rewrite Hd. destruct (Z.eq_dec (wCount w - 1) 0) as [E|E].
    + right. right. exists h. rewrite nth_error_upd_eq by auto. subst x.
      rewrite (proj2 (Z.eqb_eq _ _) E). reflexivity.
    + right. left. rewrite C, Q in E. cbn [base] in E. lia.
  - intros h' r' Hi. rewrite upd_length. apply in_snoc in Hi as [Hi|Hi]; [|discriminate]. eapply (vL _ I); eauto.
  - intros h' s Hn. apply X in Hn as [[-> ->]|[N Hn]].
    + pose proof (vH _ I h _ Hh) as [A _].
      assert (G : (exists r0, In (WLock h r0) (wLog w ++ [WUnlock h])) /\ In (WUnlock h) (wLog w ++ [WUnlock h])).
      { split; [exists r; rewrite in_snoc; left; apply A; auto|rewrite in_snoc; auto]. }
      destruct x; [discriminate|exact G|exact G].
    + pose proof (vH _ I h' s Hn) as H. destruct s as [r0| |].
      * destruct H as [A B]. split.
        -- intros r'. rewrite in_snoc, A. split; [intros [|E]; [auto|discriminate]|auto].
        -- rewrite in_snoc. intros [E|E]; [contradiction|congruence].
      * destruct H as [[r0 A] B]. split; [exists r0|]; rewrite in_snoc; auto.
      * destruct H as [[r0 A] B]. split; [exists r0|]; rewrite in_snoc; auto.
  - intros h' Hi. rewrite upd_length. apply in_snoc in Hi as [Hi|Hi]; [eapply (vU _ I); eauto|congruence].
  - rewrite in_snoc, (vB _ I). split; [intros [|]; [auto|discriminate]|auto].
  - rewrite in_snoc, (vE _ I). split; [intros [|]; [auto|discriminate]|auto].
  - destruct (vP _ I) as [A B]. split.
    + apply withdrawn_snoc; auto; discriminate.
    + apply available_snoc; auto; discriminate.
Qed.

Lemma notify_inv w h : WInv w -> wSet w <> SExit -> nth_error (wHandles w) h = Some HNotify ->
  exists w', doNotify w h = Ok w' /\ WInv w' /\ wHandles w' = upd (wHandles w) h HGone.
Proof.
  intros I Ne Hh. assert (Lh : (h < length (wHandles w))%nat) by (apply nth_error_Some; congruence).
  unfold doNotify. rewrite (proj2 (vN _ I) h Hh). cbn [negb].
  assert (E : match wSet w with SExit => Undef | _ => Ok (setHandles (setToken w true) (upd (wHandles w) h HGone)) end
     = Ok (setHandles (setToken w true) (upd (wHandles w) h HGone))) by (destruct (wSet w); auto; contradiction).
  rewrite E. eexists. split; [reflexivity|]. split; [|reflexivity].
  assert (X : forall i y, nth_error (upd (wHandles w) h HGone) i = Some y ->
             (i = h /\ y = HGone) \/ (i <> h /\ nth_error (wHandles w) i = Some y)).
  { intros i y Hi. destruct (Nat.eq_dec i h) as [->|N].
    - rewrite nth_error_upd_eq in Hi by auto. left. split; congruence.
    - rewrite nth_error_upd_ne in Hi by auto. auto. }
  assert (Hd : held (upd (wHandles w) h HGone) = held (wHandles w)).
  { rewrite (held_upd _ _ _ HGone Hh). cbn [isHeld]. lia. }
  destruct I as [C Q N W L H U B En P].
  split; cbn [setToken setHandles wTarget wCount wNotify wToken wSet wHandles wLog]; auto.
  - rewrite Hd. auto.
  - intros Z i p Hn. apply X in Hn as [[_ Hn]|[_ Hn]]; [discriminate|]. apply (Q Z i p Hn).
  - destruct N as [N1 N2]. split; auto. intros i Hn. apply X in Hn as [[_ Hn]|[_ Hn]]; [discriminate|eauto].
  - intros h' r Hi. rewrite upd_length. eauto.
  - intros h' s Hn. apply X in Hn as [[-> ->]|[_ Hn]]; [apply (H h _ Hh)|apply (H h' s Hn)].
  - intros h' Hi. rewrite upd_length. eauto.
Qed.

(** a step of setNull that writes nothing to the log *)
Lemma quiet_set w c n t s : WInv w -> wSet w <> SIdle -> ~ ended (wSet w) -> s <> SIdle -> ~ ended s ->
  c = base s + held (wHandles w) ->
  (s = SLeft -> forall i p, nth_error (wHandles w) i <> Some (HHeld (Some p))) ->
  (wNotify w = true -> n = true) -> (s = SSub \/ base s = 0 -> n = true) ->
  (s = SHalt -> t = true \/ 1 <= held (wHandles w) \/ exists i, nth_error (wHandles w) i = Some HNotify) ->
  WInv (mkW (wTarget w) c n t s (wHandles w) (wLog w)).
Proof.
  intros [C Q N W L H U B En P] S0 S1 S2 S3 Hc HQ Hn Hn2 HW.
  split; cbn [wTarget wCount wNotify wToken wSet wHandles wLog]; auto.
  - intros [E|E]; [auto|contradiction].
  - destruct N as [N1 N2]. split; eauto.
  - rewrite B. tauto.
  - rewrite En. tauto.
Qed.

Lemma begin_inv w : WInv w -> wSet w = SIdle -> WInv (wlog (setSet w SCas) WSetBegin).
Proof.
  intros [C Q N W L H U B En P] S0. rewrite S0 in *.
  split; cbn [wlog setSet wTarget wCount wNotify wToken wSet wHandles wLog]; auto.
  - intros [E|[E|E]]; discriminate.
  - destruct N as [N1 N2]. split; [|exact N2]. intros [E|E]; discriminate.
  - discriminate.
  - intros h r Hi. apply in_snoc in Hi as [Hi|Hi]; [eauto|discriminate].
  - intros h s Hn. specialize (H h s Hn). destruct s as [r0| |].
    + destruct H as [A D]. split.
      * intros r'. rewrite in_snoc, A. split; [intros [|E]; [auto|discriminate]|auto].
      * rewrite in_snoc. intros [E|E]; [contradiction|discriminate].
    + destruct H as [[r0 A] D]. split; [exists r0|]; rewrite in_snoc; auto.
    + destruct H as [[r0 A] D]. split; [exists r0|]; rewrite in_snoc; auto.
  - intros h Hi. apply in_snoc in Hi as [Hi|Hi]; [eauto|discriminate].
  - rewrite in_snoc. split; [intros _; discriminate|auto].
  - rewrite in_snoc, En. unfold ended. split; [intros [[|]|]; discriminate|intros [|]; discriminate].
  - destruct P as [P1 P2]. split.
    + apply withdrawn_snoc; auto; discriminate.
    + apply available_snoc; auto; discriminate.
Qed.

(** the step that ends setNull *)
Lemma end_inv w c : WInv w -> wSet w <> SIdle -> ~ ended (wSet w) ->
  c = leftFlag + held (wHandles w) ->
  (forall i p, nth_error (wHandles w) i <> Some (HHeld (Some p))) ->
  WInv (wlog (setSet (setCount w c) SRet) WSetEnd).
Proof.
  intros [C Q N W L H U B En P] S0 S1 Hc HQ.
  split; cbn [wlog setSet setCount wTarget wCount wNotify wToken wSet wHandles wLog]; auto.
  - destruct N as [N1 N2]. split; [|exact N2]. intros [E|E]; discriminate.
  - discriminate.
  - intros h r Hi. apply in_snoc in Hi as [Hi|Hi]; [eauto|discriminate].
  - intros h s Hn. specialize (H h s Hn). destruct s as [r0| |].
    + destruct H as [A D]. split.
      * intros r'. rewrite in_snoc, A. split; [intros [|E]; [auto|discriminate]|auto].
      * rewrite in_snoc. intros [E|E]; [contradiction|discriminate].
    + destruct H as [[r0 A] D]. split; [exists r0|]; rewrite in_snoc; auto.
    + destruct H as [[r0 A] D]. split; [exists r0|]; rewrite in_snoc; auto.
  - intros h Hi. apply in_snoc in Hi as [Hi|Hi]; [eauto|discriminate].
  - rewrite in_snoc, B. split; [intros _; discriminate|auto].
  - rewrite in_snoc. unfold ended. split; auto.
  - destruct P as [P1 P2]. split.
    + apply withdrawn_snoc; auto; [|discriminate]. intros _ h p Hi.
      destruct (nth_error (wHandles w) h) as [s|] eqn:Eh.
      * specialize (H h s Eh). destruct s as [r0| |]; try tauto.
        destruct H as [A _]. apply A in Hi. subst r0. exfalso. apply (HQ h p Eh).
      * apply nth_error_None in Eh. apply L in Hi. lia.
    + apply available_snoc; auto; discriminate.
Qed.

Lemma set_inv w : WInv w -> bounded w -> WInv (doSet w).
Proof.
  intros I Bd. pose proof (vC _ I) as C. pose proof (held_le (wHandles w)) as Hk. unfold bounded in Bd.
  assert (Z0 : held (wHandles w) = 0 -> forall i p, nth_error (wHandles w) i <> Some (HHeld (Some p))).
  { intros Z i p Hn. apply held_pos in Hn. lia. }
  unfold doSet. destruct (wSet w) eqn:Es; cbn [base] in C.
  - apply begin_inv; auto.
  - destruct (Z.eqb_spec (wCount w) initedFlag) as [E|E].
    + apply end_inv; auto; try congruence.
      * rewrite Es. intros [|]; discriminate.
      * lia.
      * apply Z0. lia.
    + replace (initedFlag <? wCount w) with true by (symmetry; apply Z.ltb_lt; unfold initedFlag in *; lia).
      replace (wCount w <? 0) with true by (symmetry; apply Z.ltb_lt; unfold initedFlag in *; lia).
      cbn [andb]. apply (quiet_set w); auto; try congruence; try (rewrite Es; intros [|]; discriminate);
        try (intros [|]; discriminate); try discriminate.
  - apply (quiet_set w); auto; try congruence; try (rewrite Es; intros [|]; discriminate);
      try (intros [|]; discriminate); try discriminate.
  - assert (Cv : w64 (wCount w - initedFlag) = held (wHandles w)).
    { rewrite w64_id; rewrite C; unfold initedFlag; lia. }
    rewrite Cv. pose proof (proj1 (vN _ I)) as N1. rewrite Es in N1.
    destruct (Z.eqb_spec (held (wHandles w)) 0) as [E|E];
    apply (quiet_set w); auto; try congruence; try (rewrite Es; intros [|]; discriminate);
      try (intros [|]; discriminate); try discriminate.
    intros _. right. left. lia.
  - pose proof (proj1 (vN _ I)) as N1. rewrite Es in N1. destruct (wToken w); auto.
    apply (quiet_set w); auto; try congruence; try (rewrite Es; intros [|]; discriminate);
      try (intros [|]; discriminate); try discriminate.
  - pose proof (proj1 (vN _ I)) as N1. rewrite Es in N1.
    destruct (Z.eqb_spec (wCount w) 0) as [E|E];
    apply (quiet_set w); auto; try congruence; try (rewrite Es; intros [|]; discriminate);
      try (intros [|]; discriminate); try discriminate.
    + intros _. apply Z0. lia.
    + intros _. right. left. lia.
  - apply end_inv; auto; try congruence.
    + rewrite Es. intros [|]; discriminate.
    + rewrite w64_id; rewrite C; unfold leftFlag; lia.
    + apply (vQ _ I). auto.
  - exact I.
  - exact I.
Qed.

Lemma token_inv w : WInv w -> WInv (setToken w true).
Proof.
  intros [C Q N W L H U B En P].
  split; cbn [setToken wTarget wCount wNotify wToken wSet wHandles wLog]; auto.
Qed.
Lemma exit_inv w : WInv w -> wSet w = SRet -> WInv (setSet w SExit).
Proof.
  intros [C Q N W L H U B En P] E. rewrite E in *.
  split; cbn [setSet wTarget wCount wNotify wToken wSet wHandles wLog]; auto.
  - intros _. apply Q. right. left. reflexivity.
  - destruct N as [N1 N2]. split; [|exact N2]. intros [X|X]; discriminate.
  - discriminate.
  - rewrite B. split; intros _; discriminate.
  - rewrite En. unfold ended. split; auto.
Qed.

Lemma nLocks_nonneg l : 0 <= nLocks l.
Proof. induction l as [|[]]; cbn [nLocks]; lia. Qed.

Lemma step_inv a w : WInv w -> Z.of_nat (length (wHandles w)) + nLocks [a] < 2^62 ->
  (forall w', wstep a w = Ok w' -> WInv w' /\ wTarget w' = wTarget w /\
     Z.of_nat (length (wHandles w')) = Z.of_nat (length (wHandles w)) + nLocks [a]) /\
  (wSet w <> SExit -> exists w', wstep a w = Ok w').
Proof.
  intros I Bd. destruct a as [|h|h| | |]; cbn [nLocks wstep] in *.
  - split; [|eauto]. intros w' E. injection E as <-. split; [apply lock_inv; auto; lia|]. split; [reflexivity|].
    cbn. rewrite app_length. cbn. lia.
  - destruct (nth_error (wHandles w) h) as [[r| |]|] eqn:Eh;
      (split; [|eauto]; intros w' E; injection E as <-; try (split; [exact I|split; [reflexivity|lia]])).
    split; [eapply unlock_inv; eauto; unfold bounded; lia|]. split; [reflexivity|]. cbn. rewrite upd_length. lia.
  - destruct (nth_error (wHandles w) h) as [[r| |]|] eqn:Eh;
      try (split; [|eauto]; intros w' E; injection E as <-; split; [exact I|split; [reflexivity|lia]]).
    split.
    + intros w' E. assert (wSet w <> SExit).
      { intros X. unfold doNotify in E. rewrite X in E. destruct (negb (wNotify w)); discriminate. }
      destruct (notify_inv w h I H Eh) as (w0 & E0 & I0 & H0). rewrite E in E0. injection E0 as <-.
      split; auto. split; [|rewrite H0, upd_length; lia].
      unfold doNotify in E. destruct (negb (wNotify w)); [discriminate|].
      destruct (wSet w); try discriminate; injection E as <-; reflexivity.
    + intros X. destruct (notify_inv w h I X Eh) as (w0 & E0 & _). eauto.
  - split; [|eauto]. intros w' E. injection E as <-. split; [apply set_inv; auto; unfold bounded; lia|].
    unfold doSet. destruct (wSet w); cbn [wlog setSet setCount setToken regNotify wTarget wHandles]; try (split; [reflexivity|lia]).
    + destruct (wCount w =? initedFlag); [split; [reflexivity|cbn; lia]|].
      destruct ((initedFlag <? wCount w) && (wCount w <? 0)); (split; [reflexivity|cbn; lia]).
    + destruct (wToken w); (split; [reflexivity|cbn; lia]).
  - split; [|eauto]. intros w' E. injection E as <-. split; [apply token_inv; auto|]. split; [reflexivity|cbn; lia].
  - split; [|destruct (wSet w); eauto]. intros w' E.
    destruct (wSet w) eqn:Es; injection E as <-; try (split; [exact I|split; [reflexivity|lia]]).
    split; [apply exit_inv; auto|]. split; [reflexivity|cbn; lia].
Qed.

Lemma run_inv : forall l w w', WInv w -> Z.of_nat (length (wHandles w)) + nLocks l < 2^62 ->
  wrun l w = Ok w' -> WInv w' /\ wTarget w' = wTarget w /\ bounded w'.
Proof.
  induction l as [|a l IH]; intros w w' I Bd R; cbn [wrun] in R.
  - injection R as <-. split; auto. split; auto. unfold bounded. cbn in Bd. lia.
  - apply obind_ok in R as (w1 & E & R).
    assert (Ea : nLocks (a :: l) = nLocks [a] + nLocks l) by (destruct a; cbn [nLocks]; lia).
    pose proof (nLocks_nonneg l). rewrite Ea in Bd.
    destruct (step_inv a w I) as [S1 _]; [lia|]. destruct (S1 w1 E) as (I1 & T1 & L1).
    destruct (IH w1 w' I1) as (I2 & T2 & B2); auto; [lia|]. split; auto. split; [congruence|auto].
Qed.

Lemma step_exit a w w' : wstep a w = Ok w' -> a <> AExit -> wSet w <> SExit -> wSet w' <> SExit.
Proof.
  intros E Na Ns. destruct a as [|h|h| | |]; cbn [wstep] in E; try congruence.
  - injection E as <-. exact Ns.
  - destruct (nth_error (wHandles w) h) as [[]|]; injection E as <-; exact Ns.
  - destruct (nth_error (wHandles w) h) as [[]|]; try (injection E as <-; exact Ns).
    unfold doNotify in E. destruct (negb (wNotify w)); [discriminate|].
    destruct (wSet w) eqn:Es; try discriminate; injection E as <-; cbn; congruence.
  - injection E as <-. unfold doSet. destruct (wSet w) eqn:Es; try congruence;
      repeat match goal with |- context [if ?b then _ else _] => destruct b end;
      cbn [wlog setSet setCount setToken regNotify wSet]; try discriminate; congruence.
  - injection E as <-. exact Ns.
Qed.

Lemma run_runs : forall l w, WInv w -> wSet w <> SExit -> Z.of_nat (length (wHandles w)) + nLocks l < 2^62 ->
  ~ In AExit l -> exists w', wrun l w = Ok w'.
Proof.
  induction l as [|a l IH]; intros w I Ns Bd Na; cbn [wrun]; [eauto|].
  assert (Ea : nLocks (a :: l) = nLocks [a] + nLocks l) by (destruct a; cbn [nLocks]; lia).
  pose proof (nLocks_nonneg l). rewrite Ea in Bd.
  destruct (step_inv a w I) as [S1 S2]; [lia|]. destruct (S2 Ns) as [w1 E]. rewrite E. cbn [obind].
  destruct (S1 w1 E) as (I1 & T1 & L1). apply IH; auto.
  - eapply step_exit; eauto. intros ->. apply Na. cbn. auto.
  - lia.
  - intros Hi. apply Na. cbn. auto.
Qed.
