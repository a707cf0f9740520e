From Verif Require Import Common MsgThr_Spec MsgThr_Model.

Definition crit (p : pc) : bool := match p with PIn | PStart | PUnlock => true | _ => false end.
Definition b2n (b : bool) : nat := if b then 1 else 0.
Definition cnt {X} (f : X -> bool) (l : list X) : nat := length (filter f l).
Lemma cnt_upd {X} (f : X -> bool) x y : forall l i, nth_error l i = Some x -> cnt f (upd l i y) + b2n (f x) = cnt f l + b2n (f y).
Proof.
  unfold cnt. induction l as [|z l IH]; intros [|i]; cbn; try discriminate.
  - intros E. injection E as ->. destruct (f x), (f y); cbn; lia.
  - intros E. apply IH in E. destruct (f z); cbn; lia.
Qed.
Lemma nth_upd {X} (l : list X) i j x p : nth_error (upd l i x) j = Some p -> p = x \/ nth_error l j = Some p.
Proof.
  destruct (Nat.eq_dec i j) as [->|N]; [|rewrite nth_error_upd_ne by auto; auto].
  destruct (Nat.lt_ge_cases j (length l)) as [L|L].
  - rewrite nth_error_upd_eq by auto. intros E. injection E as <-. auto.
  - rewrite (proj2 (nth_error_None _ _)); [discriminate|]. rewrite upd_length. auto.
Qed.
Lemma cnt_pos {X} (f : X -> bool) l i p : nth_error l i = Some p -> f p = true -> 0 < cnt f l.
Proof.
  intros E F. unfold cnt. assert (In p (filter f l)) by (apply filter_In; split; auto; eapply nth_error_In; eauto).
  destruct (filter f l); cbn in *; [tauto|lia].
Qed.
Lemma cnt_0 {X} (f : X -> bool) l : (forall p, In p l -> f p = false) -> cnt f l = 0.
Proof. unfold cnt. induction l as [|x l IH]; cbn; auto. intros H. rewrite (H x) by auto. auto. Qed.

Definition done (p : pc) : bool := match p with PUnlock | PMan => true | _ => false end.
Definition bad (p : pc) : bool := match p with PFail | PFailUnlock | PThrew => true | _ => false end.
Definition past (p : pc) : bool := match p with PWake | PRet => true | _ => false end.
Definition begin (p : pc) : bool := match p with PStart => true | _ => false end.
Record inv (s : st) : Prop := {
  i_lock : cnt crit (pcs s) = b2n (lock s);
  i_starts : starts s = b2n (running s);
  i_begin : 0 < cnt begin (pcs s) -> running s = false;
  i_man : man s = true -> running s = true;
  i_done : 0 < cnt done (pcs s) -> running s = true;
  i_past : 0 < cnt past (pcs s) -> running s = false -> lock s = true;
  i_run : running s = true -> man s = true \/ 0 < cnt done (pcs s);
  i_bad : cnt bad (pcs s) = 0 }.

Lemma inv_init n : inv (init n).
Proof.
  assert (C : forall f, f PTest = false -> cnt f (pcs (init n)) = 0) by (intros f F; apply cnt_0; intros p I; apply repeat_spec in I; subst; auto).
  constructor; rewrite ?C by reflexivity; cbn; auto; try lia; discriminate.
Qed.
Lemma crit_begin l : cnt begin l <= cnt crit l.
Proof. unfold cnt. induction l as [|[] l IH]; cbn; lia. Qed.
Ltac facts C y := pose proof (C crit y); pose proof (C begin y); pose proof (C done y); pose proof (C past y); pose proof (C bad y).
Ltac fin m k r :=
  match goal with C : forall f y, _ |- _ => clear C end;
  cbn [crit begin done past bad b2n] in *; destruct m, k, r; cbn [b2n] in *; try (exfalso; lia);
  cbn [stepP man lock running starts pcs goto setLock setMan]; constructor;
  cbn [stepP man lock running starts pcs goto setLock setMan b2n]; intros; lia.
Lemma inv_step e s : fine e = true -> inv s -> inv (step e s).
Proof.
  intros F H. destruct e as [i [|]|]; try discriminate. cbn [step]. destruct (nth_error (pcs s) i) as [p|] eqn:E; auto.
  destruct H as [H1 H2 H3 H4 H5 H6 H7 H8].
  assert (C : forall f y, cnt f (upd (pcs s) i y) + b2n (f p) = cnt f (pcs s) + b2n (f y)) by (intros; apply cnt_upd; auto).
  assert (B : forall f, f p = true -> 0 < cnt f (pcs s)) by (intros f Q; eapply cnt_pos; eauto).
  pose proof (crit_begin (pcs s)) as CB.
  destruct s as [m k r n l]; cbn [man lock running starts pcs] in *.
  destruct p; try (specialize (B bad eq_refl); lia); try (constructor; auto; fail).
  - facts C PWake; facts C PTry; fin m k r.
  - facts C PWake; facts C PIn; fin m k r.
  - facts C PUnlock; facts C PStart; specialize (B crit eq_refl); fin m k r.
  - facts C PUnlock; pose proof (B crit eq_refl); specialize (B begin eq_refl); fin m k r.
  - facts C PMan; pose proof (B crit eq_refl); specialize (B done eq_refl); fin m k r.
  - facts C PWake; specialize (B done eq_refl); fin m k r.
  - facts C PRet; fin m k r.
Qed.
Lemma inv_run l : forall s, forallb fine l = true -> inv s -> inv (run l s).
Proof.
  induction l as [|e l IH]; intros s F H; cbn in *; auto. apply andb_prop in F. destruct F as [F1 F2]. apply IH; auto. apply inv_step; auto.
Qed.

(** nobody can start the thread *)
Definition over (s : st) : Prop := man s = true /\ forall p, In p (pcs s) -> p = PTest \/ p = PWake \/ p = PRet \/ p = PThrew.
Lemma over_step e s : over s -> over (step e s) /\ starts (step e s) = starts s.
Proof.
  intros (M & A). destruct e as [i ok|]; cbn [step]; [|split; [split|]; auto].
  destruct (nth_error (pcs s) i) as [p|] eqn:E; [|split; [split|]; auto].
  assert (U : forall y q, y = PTest \/ y = PWake \/ y = PRet \/ y = PThrew -> In q (upd (pcs s) i y) -> q = PTest \/ q = PWake \/ q = PRet \/ q = PThrew).
  { intros y q Y I. apply In_nth_error in I. destruct I as (j & I). apply nth_upd in I. destruct I as [->|I]; auto. apply A. eapply nth_error_In; eauto. }
  destruct (A p (nth_error_In _ _ E)) as [-> | [-> | [-> | -> ]]]; cbn [stepP]; rewrite ?M; repeat split; auto; cbn [goto pcs man]; auto.
  - intros q. apply U. auto. - intros q. apply U. auto.
Qed.
Lemma over_run l : forall s, over s -> over (run l s) /\ starts (run l s) = starts s.
Proof.
  induction l as [|e l IH]; intros s H; [cbn; auto|]. change (run (e :: l) s) with (run l (step e s)). destruct (over_step e s H) as (H1 & E). destruct (IH _ H1) as (H2 & E2). split; auto. congruence.
Qed.

Definition quiet (s : st) : Prop := forall p, In p (pcs s) -> look p = Waiting \/ look p = Returned.
Lemma quiet_over s : inv s -> quiet s -> In PRet (pcs s) -> man s = true /\ running s = true /\ starts s = 1.
Proof.
  intros [H1 H2 H3 H4 H5 H6 H7 H8] Q I.
  assert (Z : forall f, f PTest = false -> f PRet = false -> cnt f (pcs s) = 0).
  { intros f F1 F2. apply cnt_0. intros p J. destruct (Q p J) as [K|K]; destruct p; cbn in K; try discriminate; auto. }
  rewrite (Z crit) in H1 by auto. rewrite (Z done) in H7 by auto.
  assert (P : 0 < cnt past (pcs s)) by (apply In_nth_error in I; destruct I as (j & I); eapply cnt_pos; eauto).
  destruct (running s) eqn:R.
  - destruct (H7 eq_refl) as [A|A]; [auto|lia]. - rewrite (H6 P eq_refl) in H1. discriminate.
Qed.
