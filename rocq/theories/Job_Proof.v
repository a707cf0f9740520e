From Verif Require Import Common Job_Spec Job_Model.

Lemma eqS_spec : forall a b, eqS a b = true <-> a = b.
Proof. intros [] []; cbn; split; congruence. Qed.
Lemma chain_app : forall l1 l2 s s', chain s (l1 ++ l2) s' <-> exists m, chain s l1 m /\ chain m l2 s'.
Proof.
  induction l1 as [|[o r] l1 IH]; intros l2 s s'; cbn [app chain].
  - split; [intros H; exists s; auto|intros (m & -> & H); exact H].
  - rewrite IH. split; [intros (R & m & A & B); exists m; auto|intros (m & (R & A) & B); split; [exact R|exists m; auto]].
Qed.
Lemma chain_snoc : forall l s m o, chain s l m -> chain s (l ++ [(o, m)]) (next o m).
Proof. intros l s m o H. apply chain_app. exists m. split; [exact H|]. cbn. auto. Qed.
(** the saved pair of a waiting compare and exchange is one of the call *)
Definition pc_ok (p : pc) : Prop := match p with Cas o a new => new = next o a | _ => True end.
Definition inv (w : world) : Prop := chain NotRunning (calls w) (st w) /\ Forall pc_ok (thr w).
Lemma Forall_upd : forall (P : pc -> Prop) l i x, Forall P l -> P x -> Forall P (upd l i x).
Proof.
  intros P l. induction l as [|y l IH]; intros i x F H; [destruct i; exact F|]. inversion F as [|? ? F1 F2]. destruct i; cbn; constructor; auto.
Qed.
Lemma finish_inv : forall w i o s, inv w -> s = next o (st w) -> inv (finish w i s o (st w)).
Proof.
  intros w i o s (C & P) ->. split; [cbn; apply chain_snoc; exact C|cbn; apply Forall_upd; [exact P|exact I]].
Qed.
Lemma setT_inv : forall w i p, inv w -> pc_ok p -> inv (setT w i p).
Proof. intros w i p (C & P) H. split; [exact C|cbn; apply Forall_upd; assumption]. Qed.
Lemma step_inv : forall e w, inv w -> inv (step w e).
Proof.
  intros [i o|i] w I; cbn [step]; destruct (nth_error (thr w) i) as [[|o'|o' a new]|] eqn:N; try exact I.
  - apply setT_inv; [exact I|exact Logic.I].
  - destruct o'; cbn [pairs].
    + apply finish_inv; [exact I|]. destruct (st w); reflexivity.
    + apply finish_inv; [exact I|]. destruct (st w); reflexivity.
    + cbv zeta. destruct (st w) eqn:S; cbn [eqS].
      * rewrite <- S. apply finish_inv; [exact I|rewrite S; reflexivity].
      * apply setT_inv; [exact I|reflexivity].
      * apply setT_inv; [exact I|reflexivity].
      * rewrite <- S. apply finish_inv; [exact I|rewrite S; reflexivity].
      * rewrite <- S. apply finish_inv; [exact I|rewrite S; reflexivity].
    + cbv zeta. destruct (st w) eqn:S; cbn [eqS].
      * rewrite <- S. apply finish_inv; [exact I|rewrite S; reflexivity].
      * apply setT_inv; [exact I|reflexivity].
      * rewrite <- S. apply finish_inv; [exact I|rewrite S; reflexivity].
      * apply setT_inv; [exact I|reflexivity].
      * rewrite <- S. apply finish_inv; [exact I|rewrite S; reflexivity].
    + apply finish_inv; [exact I|]. destruct (st w); reflexivity.
  - assert (H : new = next o' a) by (destruct I as (_ & P); rewrite Forall_forall in P; exact (P _ (nth_error_In _ _ N))).
    destruct (eqS (st w) a) eqn:E.
    + apply eqS_spec in E. subst a. apply finish_inv; assumption.
    + apply setT_inv; [exact I|exact Logic.I].
Qed.
Lemma run_inv : forall n l, inv (run n l).
Proof.
  intros n l. unfold run. assert (G : forall l w, inv w -> inv (fold_left step l w)) by (induction l0; intros w I; cbn; [exact I|apply IHl0, step_inv, I]).
  apply G. split; [reflexivity|]. cbn. apply Forall_forall. intros p H. apply repeat_spec in H. subst p. exact Logic.I.
Qed.
Lemma runLoop_ready : forall fuel act n, runLoop fuel act Ready n = Ok (Running, n).
Proof. intros [|fuel] act n; reflexivity. Qed.
