(** Proofs about the life of a thread. *)
From Verif Require Import Common ThrLife_Spec ThrLife_Model.

(** the events of a round: 0 the function has not begun, 1 it runs, 2 it has ended;
    [sr]: start has returned *)
Inductive evs (k : nat) : nat -> bool -> list event -> Prop :=
| e1 : evs k 0 false []
| e2 : evs k 0 true [Started 0]
| e3 : evs k 1 false [Begin k]
| e4 : evs k 1 true [Begin k; Started 0]
| e5 : evs k 1 true [Started 0; Begin k]
| e6 : evs k 2 false [Begin k; End_ k]
| e7 : evs k 2 true [Begin k; End_ k; Started 0]
| e8 : evs k 2 true [Begin k; Started 0; End_ k]
| e9 : evs k 2 true [Started 0; Begin k; End_ k].
#[export] Hint Constructors evs : tl.

Lemma evs_begin k sr e : evs k 0 sr e -> evs k 1 sr (e ++ [Begin k]).
Proof. intros H. inversion H; cbn; auto with tl. Qed.
Lemma evs_end k sr e : evs k 1 sr e -> evs k 2 sr (e ++ [End_ k]).
Proof. intros H. inversion H; cbn; auto with tl. Qed.
Lemma evs_started k i e : evs k i false e -> evs k i true (e ++ [Started 0]).
Proof. intros H. inversion H; cbn; auto with tl. Qed.
Lemma evs_round k l e : orderly k l -> evs k 2 true e -> orderly (S k) ((l ++ e) ++ [Joined 0]).
Proof. intros O H. inversion H; subst; rewrite <- app_assoc; cbn; constructor; auto. Qed.
Lemma evs_more k i sr e : evs k i sr e -> exists m, evs k 2 true (e ++ m).
Proof.
  intros H. inversion H; cbn.
  - exists [Begin k; End_ k; Started 0]. cbn. auto with tl.
  - exists [Begin k; End_ k]. cbn. auto with tl.
  - exists [End_ k; Started 0]. cbn. auto with tl.
  - exists [End_ k]. cbn. auto with tl.
  - exists [End_ k]. cbn. auto with tl.
  - exists [Started 0]. cbn. auto with tl.
  - exists []. cbn. auto with tl.
  - exists []. cbn. auto with tl.
  - exists []. cbn. auto with tl.
Qed.

(** the new thread: where it is, whether it has woken the client up, the stage, the
    context and the gate *)
Inductive wst (k : nat) : wpc -> bool -> nat -> option ctxt -> bool -> Prop :=
| w1 : wst k WBoot false 0 (Some Fake) false
| w2 : wst k WClose false 0 (Some (Real k)) false
| w3 : wst k WWake false 0 (Some (Real k)) false
| w4 : wst k WFn true 0 (Some (Real k)) false
| w5 : wst k WRun true 1 (Some (Real k)) false
| w6 : wst k (WClear 0) true 2 (Some (Real k)) false
| w7 : wst k (WOpen 0) true 2 None false
| w8 : wst k WDone true 2 None true.
#[export] Hint Constructors wst : tl.

Definition ended (D : list worker) (k : nat) : Prop := length D = k /\ Forall (fun x => wp x = WDone) D.

Inductive inv (n : nat) : st -> Prop :=
| i0 k m l D : m + k = n -> orderly k l -> ended D k ->
    inv n (mkSt None true true false [mkC Idle (rounds m) false] D l)
| i1 k m l D : S m + k = n -> orderly k l -> ended D k ->
    inv n (mkSt (Some Fake) true true false [mkC SClose (Join :: rounds m) false] D l)
| i2 k m l D : S m + k = n -> orderly k l -> ended D k ->
    inv n (mkSt (Some Fake) false true false [mkC SCreate (Join :: rounds m) false] D l)
| i3 k m l D p w i c o sr e : S m + k = n -> orderly k l -> ended D k ->
    wst k p w i c o -> evs k i sr e -> (sr = true -> w = true) ->
    inv n (mkSt c o true false [if sr then mkC Idle (Join :: rounds m) false else mkC SWait (Join :: rounds m) w] (D ++ [mkW p 0]) (l ++ e))
| i4 k m l D e : S m + k = n -> orderly k l -> ended D k -> evs k 2 true e ->
    inv n (mkSt None true true false [mkC (JWrite false) (rounds m) false] (D ++ [mkW WDone 0]) (l ++ e)).
#[export] Hint Constructors inv : tl.

Lemma ended_S D k : ended D k -> ended (D ++ [mkW WDone 0]) (S k).
Proof. intros (L & F). split; [rewrite app_length; cbn; lia|]. apply Forall_app. split; auto. Qed.

Lemma upd_last {A} (D : list A) x y k : length D = k -> upd (D ++ [x]) k y = D ++ [y].
Proof. intros <-. induction D as [|a D IH]; cbn; auto. f_equal. auto. Qed.

Lemma done_no_step D k w x thr s : ended D k -> nth_error D w = Some x -> stepW thr w x s = None.
Proof.
  intros (_ & F) N. apply nth_error_In in N. rewrite Forall_forall in F. unfold stepW. rewrite (F _ N). reflexivity.
Qed.

(** nothing goes wrong in the system or in the function *)
Definition nice (a : act) : Prop := match a with C _ fail => fail = false | W _ thr => thr = false end.

Lemma step_inv n a s s' : inv n s -> nice a -> step a s = Some s' -> inv n s'.
Proof.
  intros I N E. destruct a as [c fail|w thr]; cbn [nice] in N; subst; cbn [step] in E.
  - assert (K : clients s = [nth 0 (clients s) (mkC Idle [] false)]) by (destruct I; reflexivity).
    destruct c as [|c]; [|rewrite K in E; destruct c; discriminate E].
    destruct I as [k m l D M O F|k m l D M O F|k m l D M O F|k m l D p w i c o sr e M O F Ws Es Sw|k m l D e M O F Es]; cbn in E.
    + destruct m as [|m]; cbn in E; [discriminate E|]. injection E as <-. eapply i1; eauto.
    + injection E as <-. eapply i2; eauto.
    + injection E as <-. unfold addW, setC; cbn [ctx open alive bad clients workers log upd].
      rewrite <- (app_nil_r l). apply (i3 n k m l D WBoot false 0 (Some Fake) false false []); auto with tl.
    + destruct sr; cbn in E.
      * destruct o; [|discriminate E]. inversion Ws; subst. injection E as <-. eapply i4; eauto.
      * destruct w; [|discriminate E]. injection E as <-. unfold say, setC; cbn [ctx open alive bad clients workers log upd].
        rewrite <- app_assoc. apply (i3 n k m l D p true i c o true); auto. apply evs_started; auto.
    + injection E as <-. unfold say, setC, setCtx, touch; cbn [ctx open alive bad clients workers log upd orb negb].
      eapply i0; [|apply evs_round; eauto|apply ended_S; eauto]. lia.
  - destruct I as [k m l D M O F|k m l D M O F|k m l D M O F|k m l D p w0 i c o sr e M O F Ws Es Sw|k m l D e M O F Es]; cbn [workers] in E.
    1,2,3: destruct (nth_error D w) as [x|] eqn:X; [|discriminate E]; rewrite (done_no_step _ _ _ _ _ _ F X) in E; discriminate E.
    + pose proof (proj1 F) as LD.
      destruct (Nat.lt_ge_cases w (length D)) as [L|L].
      { rewrite nth_error_app1 in E by auto. destruct (nth_error D w) as [x|] eqn:X; [|discriminate E].
        rewrite (done_no_step _ _ _ _ _ _ F X) in E. discriminate E. }
      rewrite nth_error_app2 in E by auto.
      destruct (w - length D) as [|j] eqn:Wj; [|destruct j; discriminate E]. cbn [nth_error] in E.
      assert (w = k) by lia. subst w.
      destruct Ws; cbn in E; try discriminate E.
      all: try (destruct sr; [specialize (Sw eq_refl); discriminate Sw|]).
      all: injection E as <-; unfold setW, setCtx, setOpen, setC, say, touch;
        cbn [ctx open alive bad clients workers log upd orb negb pc prog]; rewrite (upd_last D _ _ k LD).
      * eapply (i3 n k m l D WClose false 0 _ _ false); eauto with tl.
      * eapply (i3 n k m l D WWake false 0 _ _ false); eauto with tl.
      * eapply (i3 n k m l D WFn true 0 _ _ false); eauto with tl.
      * rewrite <- app_assoc. eapply (i3 n k m l D WRun true 1); eauto with tl. apply evs_begin; auto.
      * rewrite <- app_assoc. eapply (i3 n k m l D (WClear 0) true 2); eauto with tl. apply evs_end; auto.
      * eapply (i3 n k m l D (WOpen 0) true 2); eauto with tl.
      * eapply (i3 n k m l D WDone true 2); eauto with tl.
    + destruct (nth_error (D ++ [mkW WDone 0]) w) as [x|] eqn:X; [|discriminate E].
      rewrite (done_no_step _ _ _ _ _ _ (ended_S _ _ F) X) in E. discriminate E.
Qed.

Lemma run_inv n : forall sched s, inv n s -> Forall nice sched -> inv n (run sched s).
Proof.
  induction sched as [|a sched IH]; intros s I F; cbn [run]; auto. inversion F; subst.
  destruct (step a s) as [s'|] eqn:E; auto. apply IH; auto. eapply step_inv; eauto.
Qed.

Lemma inv_init n : inv n (init [rounds n]).
Proof. eapply (i0 n 0 n [] []); [lia|constructor|split; auto]. Qed.

(** somebody can go on as long as the client has not finished *)
Lemma inv_progress n s : inv n s -> clients s = [mkC Idle [] false] \/ exists a, nice a /\ step a s <> None.
Proof.
  intros I. destruct I as [k m l D M O F|k m l D M O F|k m l D M O F|k m l D p w i c o sr e M O F Ws Es Sw|k m l D e M O F Es].
  - destruct m; [left; reflexivity|right]. exists (C 0 false). split; [reflexivity|]. cbn. discriminate.
  - right. exists (C 0 false). split; [reflexivity|]. cbn. discriminate.
  - right. exists (C 0 false). split; [reflexivity|]. cbn. discriminate.
  - right. assert (X : nth_error (D ++ [mkW p 0]) (length D) = Some (mkW p 0)).
    { rewrite nth_error_app2 by lia. rewrite Nat.sub_diag. reflexivity. }
    destruct Ws.
    8:{ exists (C 0 false). split; [reflexivity|]. destruct sr; cbn; discriminate. }
    all: exists (W (length D) false); split; [reflexivity|]; cbn [step workers]; rewrite X; cbn; discriminate.
  - right. exists (C 0 false). split; [reflexivity|]. cbn. discriminate.
Qed.
