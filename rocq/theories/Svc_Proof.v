From Verif Require Import Common Svc_Spec Svc_Model.
From Coq Require Import Permutation.

(** the stack of an interface in a list of registrations *)
Definition ofT (t : nat) (r : regs) : list nat := map snd (filter (isT t) r).
Definition lst (s : st) (t : nat) : list nat := match s t with None => [] | Some k => k end.
Definition R (s : st) (r : regs) : Prop := forall t, lst s t = ofT t r.

Lemma set_same s t x : set s t x t = x.
Proof. unfold set. rewrite Nat.eqb_refl. auto. Qed.
Lemma set_other s t x u : u <> t -> set s t x u = s u.
Proof. unfold set. intros. rewrite (proj2 (Nat.eqb_neq u t)); auto. Qed.
Lemma ofT_cons_same t o r : ofT t ((t, o) :: r) = o :: ofT t r.
Proof. unfold ofT, isT. cbn. rewrite Nat.eqb_refl. auto. Qed.
Lemma ofT_cons_other t u o r : t <> u -> ofT t ((u, o) :: r) = ofT t r.
Proof. unfold ofT, isT. cbn. intros. rewrite (proj2 (Nat.eqb_neq u t)); auto. Qed.

Lemma ofT_drop_same t r : ofT t (drop1 (isT t) r) = tl (ofT t r).
Proof.
  induction r as [|[u o] r IH]; auto. cbn [drop1]. unfold isT at 1. cbn [fst].
  destruct (Nat.eqb_spec u t) as [->|N].
  - rewrite ofT_cons_same. auto.
  - rewrite !ofT_cons_other by auto. auto.
Qed.
Lemma ofT_drop_other t p r : (forall x, p x = true -> fst x <> t) -> ofT t (drop1 p r) = ofT t r.
Proof.
  intros P. induction r as [|[u o] r IH]; auto. cbn [drop1]. destruct (p (u, o)) eqn:E.
  - apply P in E. cbn in E. rewrite ofT_cons_other; auto.
  - unfold ofT in *. cbn [filter]. destruct (isT t (u, o)); cbn [map]; rewrite ?IH; auto.
Qed.
Lemma ofT_drop_obj t i r : ofT t (drop1 (isTO t i) r) = eraseFound i (ofT t r).
Proof.
  induction r as [|[u o] r IH]; auto. cbn [drop1]. unfold isTO at 1. cbn [fst snd].
  destruct (Nat.eqb_spec u t) as [->|N]; cbn [andb].
  - rewrite ofT_cons_same. cbn. destruct (o =? i); auto. rewrite ofT_cons_same, IH. auto.
  - rewrite !ofT_cons_other by auto. auto.
Qed.

Lemma R_add s r t i : R s r -> R (addService t (Some i) s) ((t, i) :: r).
Proof.
  intros H u. unfold addService. destruct (Nat.eq_dec u t) as [->|N].
  - unfold lst at 1. rewrite set_same, ofT_cons_same. fold (lst s t). rewrite H. auto.
  - unfold lst. rewrite set_other, ofT_cons_other by auto. apply H.
Qed.
Lemma R_top s r t : R s r -> R (removeTop t s) (drop1 (isT t) r).
Proof.
  intros H u. destruct (Nat.eq_dec u t) as [->|N].
  - rewrite ofT_drop_same, <- H. unfold removeTop, lst. destruct (s t) as [[|x [|y k]]|] eqn:E; rewrite ?set_same, ?E; auto.
  - rewrite ofT_drop_other by (unfold isT; intros x E; apply Nat.eqb_eq in E; congruence). rewrite <- H. unfold removeTop, lst.
    destruct (s t) as [[|x [|y k]]|]; rewrite ?set_other; auto.
Qed.
Lemma R_rem s r t i : R s r -> R (removeService t (Some i) s) (drop1 (isTO t i) r).
Proof.
  intros H u. unfold removeService. destruct (Nat.eq_dec u t) as [->|N].
  - rewrite ofT_drop_obj, <- H. unfold lst. destruct (s t) as [k|] eqn:E; rewrite ?set_same, ?E; auto.
  - rewrite ofT_drop_other. 2:{ intros x E. unfold isTO in E. apply andb_prop in E. destruct E as [E _]. apply Nat.eqb_eq in E. congruence. }
    rewrite <- H. unfold lst. destruct (s t); rewrite ?set_other; auto.
Qed.

Lemma loop_list call (ts pre : list nat) s :
  loop (S (length ts)) call (nth_error (pre ++ ts)) (length pre) s = Ok (fold_left (fun s t => call t s) ts s).
Proof.
  revert pre s. induction ts as [|t ts IH]; intros pre s.
  - cbn. rewrite app_nil_r. rewrite (proj2 (nth_error_None pre (length pre))); auto.
  - cbn [length]. cbn [loop]. rewrite nth_error_app2, Nat.sub_diag by lia. cbn [nth_error].
    specialize (IH (pre ++ [t]) (call t s)). rewrite <- app_assoc, app_length in IH. cbn [app length] in IH.
    rewrite Nat.add_1_r in IH. exact IH.
Qed.
Lemma loop_all call ts s : loop (S (length ts)) call (nth_error ts) 0 s = Ok (fold_left (fun s t => call t s) ts s).
Proof. apply (loop_list call ts [] s). Qed.

Lemma R_fold (call : nat -> st -> st) (sp : regs -> nat -> regs) (Hc : forall s r t, R s r -> R (call t s) (sp r t)) ts :
  forall s r, R s r -> R (fold_left (fun s t => call t s) ts s) (fold_left sp ts r).
Proof. induction ts as [|t ts IH]; intros s r H; cbn; auto. Qed.

Lemma R_exec a s r : R s r -> exists s', exec1 a s = Ok s' /\ R s' (regs1 r a).
Proof.
  intros H. destruct a as [t [i|]|t|t [i|]|o ts|o ts]; cbn [exec1 regs1].
  - eexists; split; [reflexivity|]. apply R_add; auto.
  - eexists; split; [reflexivity|]. apply R_top; auto.
  - eexists; split; [reflexivity|]. apply R_top; auto.
  - eexists; split; [reflexivity|]. apply R_rem; auto.
  - eexists; split; [reflexivity|]. apply R_top; auto.
  - rewrite loop_all. eexists; split; [reflexivity|].
    apply (R_fold (fun t => addService t (Some o)) (fun r t => (t, o) :: r)); auto. intros; apply R_add; auto.
  - rewrite loop_all. eexists; split; [reflexivity|].
    apply (R_fold (fun t => removeService t (Some o)) (fun r t => drop1 (isTO t o) r)); auto. intros; apply R_rem; auto.
Qed.
Lemma R_run l : forall s r, R s r -> exists s', run l s = Ok s' /\ R s' (fold_left regs1 l r).
Proof.
  induction l as [|a l IH]; intros s r H; cbn; eauto.
  destruct (R_exec a s r H) as (s1 & E & H1). rewrite E. cbn [obind]. auto.
Qed.
Lemma R_init : R init [].
Proof. intros t. reflexivity. Qed.

Lemma active_ofT r t : active r t = hd_error (ofT t r).
Proof.
  unfold active, ofT. induction r as [|x r IH]; auto. cbn. destruct (isT t x); auto.
Qed.

(** without removal by pointer no empty stack stays *)
Definition tidy (s : st) : Prop := forall t, s t <> Some [].
Lemma tidy_add s t i : tidy s -> tidy (addService t (Some i) s).
Proof. intros H u. unfold addService. destruct (Nat.eq_dec u t) as [->|N]; [rewrite set_same; discriminate|rewrite set_other; auto]. Qed.
Lemma tidy_top s t : tidy s -> tidy (removeTop t s).
Proof.
  intros H u. unfold removeTop. destruct (s t) as [[|x [|y k]]|] eqn:E; auto;
    (destruct (Nat.eq_dec u t) as [->|N]; [rewrite set_same; discriminate|rewrite set_other; auto]).
Qed.
Lemma tidy_fold o ts : forall s, tidy s -> tidy (fold_left (fun s t => addService t (Some o) s) ts s).
Proof. induction ts; intros s H; cbn; auto. apply IHts. apply tidy_add; auto. Qed.
Lemma tidy_exec a s s' : noPtr a = true -> tidy s -> exec1 a s = Ok s' -> tidy s'.
Proof.
  intros N H E. destruct a as [t [i|]|t|t [i|]|o ts|o [|t0 ts]]; cbn [exec1 noPtr] in *; try discriminate;
    try (rewrite loop_all in E); injection E as <-.
  all: try (apply tidy_top; auto). - apply tidy_add; auto. - apply (tidy_fold o ts); auto. - auto.
Qed.
Lemma tidy_run l : forall s s', forallb noPtr l = true -> tidy s -> run l s = Ok s' -> tidy s'.
Proof.
  induction l as [|a l IH]; intros s s' N H E; cbn in *. - injection E as <-. auto.
  - apply andb_prop in N. destruct N as [N1 N2]. apply obind_ok in E. destruct E as (s1 & E1 & E2).
    exact (IH s1 s' N2 (tidy_exec a s s1 N1 H E1) E2).
Qed.

(** adding an object with all its interfaces and removing it leaves the registrations *)
Lemma drop_app p a b : existsb p a = true -> drop1 p (a ++ b) = drop1 p a ++ b.
Proof. induction a as [|x a IH]; cbn; [discriminate|]. destruct (p x); cbn; intros; auto. rewrite IH; auto. Qed.
Lemma add_all (o : nat) (ts : list nat) : forall r, fold_left (fun r t => (t, o) :: r) ts r = map (fun t => (t, o)) (rev ts) ++ r.
Proof. induction ts as [|t ts IH]; intros r; cbn; auto. rewrite IH, map_app, <- app_assoc. auto. Qed.
Lemma drop_map (o t : nat) (l : list nat) : In t l -> exists l', drop1 (isTO t o) (map (fun t => (t, o)) l) = map (fun t => (t, o)) l' /\ Permutation l (t :: l').
Proof.
  induction l as [|x l IH]; cbn [In]; [tauto|]. intros I. cbn [map drop1]. unfold isTO at 1. cbn [fst snd].
  rewrite Nat.eqb_refl, andb_true_r. destruct (Nat.eqb_spec x t) as [->|N].
  - exists l. auto.
  - destruct I as [I|I]; [congruence|]. destruct (IH I) as (l' & E & P). exists (x :: l'). cbn. rewrite E. split; auto.
    eapply perm_trans; [apply perm_skip; exact P|apply perm_swap].
Qed.
Lemma rem_all (o : nat) (ts : list nat) : forall l r, Permutation l ts ->
  fold_left (fun r t => drop1 (isTO t o) r) ts (map (fun t => (t, o)) l ++ r) = r.
Proof.
  induction ts as [|t ts IH]; intros l r P.
  - apply Permutation_sym, Permutation_nil in P. subst. auto.
  - assert (I : In t l) by (eapply Permutation_in; [apply Permutation_sym; exact P|left; auto]).
    cbn [fold_left]. rewrite drop_app.
    + destruct (drop_map o t l I) as (l' & E & P'). rewrite E. apply IH.
      apply Permutation_cons_inv with t. rewrite <- P'. auto.
    + apply existsb_exists. exists (t, o). split; [apply in_map_iff; eauto|]. unfold isTO. cbn. rewrite !Nat.eqb_refl. auto.
Qed.
Lemma add_rem_regs o ts r : regs1 (regs1 r (AddAll o ts)) (RemAll o ts) = r.
Proof. cbn. rewrite add_all. apply rem_all. apply Permutation_sym, Permutation_rev. Qed.

Lemma active_add_all o ts r t : In t ts -> active (regs1 r (AddAll o ts)) t = Some o.
Proof.
  intros I. cbn. rewrite add_all, active_ofT. unfold ofT. rewrite filter_app, map_app.
  assert (H : In t (rev ts)) by (apply in_rev in I; auto). revert H. generalize (rev ts) as l. clear.
  induction l as [|x l IH]; cbn [In]; [tauto|]. cbn [map filter]. unfold isT at 1. cbn [fst].
  destruct (Nat.eqb_spec x t); auto. intros [|]; [congruence|auto].
Qed.
