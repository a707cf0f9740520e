(** Invariant of the recursive lock. *)
From Verif Require Import Common FastLockR_Model.

Definition plain (c : rcmd) : Prop :=
  match c with CLock | CTry | CUnlock => True | CSave | CRestore _ _ => False end.

Definition plainX (x : ctx) : Prop := match x with XRestore _ => False | _ => True end.

(** a thread that does not own the lock *)
Definition outside (s : rstate) (t : nat) : Prop :=
  depth s t = 0 /\
  match rpcs s t with
  | RIdle => True
  | RTry x | RTest x | RSlow x => plainX x
  | _ => False
  end.

(** the thread that owns it *)
Definition inside (s : rstate) (t : nat) : Prop :=
  let o := ownerThread s in let n := recursiveCount s in let d := depth s t in
  match rpcs s t with
  | RIdle => o = S t /\ n = d /\ 0 < d
  | RTry x | RTest x | RInc x => plainX x /\ o = S t /\ n = d /\ 0 < d
  | RTryCount x => plainX x /\ o = 0 /\ n = 0 /\ d = 0
  | RTryOwner x => plainX x /\ o = 0 /\ n = 1 /\ d = 0
  | RSlowOwner x => plainX x /\ o = 0 /\ n = 0 /\ d = 0
  | RSlowCount x => plainX x /\ o = S t /\ n = 0 /\ d = 0
  | RUn1 | RUn2 | RUn3 => o = S t /\ n = S d
  | RUn4 => o = S t /\ n = 0 /\ d = 0
  | RUn5 => o = 0 /\ n = 0 /\ d = 0
  | _ => False
  end.

Definition rinv (s : rstate) : Prop :=
  (forall t, held s <> Some t -> outside s t) /\
  match held s with
  | None => ownerThread s = 0 /\ recursiveCount s = 0
  | Some h => inside s h
  end.

Lemma rinv_init : rinv rinit.
Proof. split; cbn; auto. intros t _. red; cbn; auto. Qed.

Lemma exec_rinv : forall t c s s', plain c -> rinv s -> rexec (t, c) s = Some s' -> rinv s'.
Proof.
  intros t c s s' Hp [Ho Hi] H.
  destruct s as [h o n pcs d].
  unfold rinv, outside, inside in *. cbn in *.
  assert (Q : forall (P : nat -> Prop) h', (forall u, u <> t -> h' <> Some u -> P u) -> (h' <> Some t -> P t) -> forall u, h' <> Some u -> P u).
  { intros P h' A B u. destruct (Nat.eq_dec u t); subst; auto. }
  assert (Ht : h = Some t \/ h <> Some t) by (destruct h as [u|]; [destruct (Nat.eq_dec u t)|]; [left|right|right]; congruence).
  destruct Ht as [->|Ht].
  - destruct (pcs t) eqn:Ep; try contradiction; unfold got in H; cbn in H;
      repeat match goal with
      | H : context [match ?c with CLock => _ | _ => _ end] |- _ => destruct c; cbn in *; try contradiction
      | H : context [match ?c with XLock => _ | _ => _ end] |- _ => destruct c; cbn in *; try contradiction
      | H : context [match d t with O => _ | _ => _ end] |- _ => destruct (d t) eqn:?; cbn in *
      | H : _ /\ _ |- _ => destruct H
      end; subst; try lia; try discriminate;
      rewrite ?Nat.eqb_refl in H; cbn in H; try (injection H as <-); cbn; rewrite ?Nat.eqb_refl;
      (split;
       [ apply (Q (fun u => _)); intros; rewrite ?Nat.eqb_refl; try congruence;
         try (destruct (Nat.eqb_spec u t); [congruence|]; apply Ho; congruence); cbn; auto
       | cbn; repeat match goal with |- context [if ?b then _ else _] => destruct b eqn:? end; auto;
         rewrite ?Nat.eqb_eq, ?Nat.eqb_neq in *; repeat split; auto; try lia ]).
  - pose proof (Ho t Ht) as [Hd Hpc].
    destruct (pcs t) eqn:Ep; try contradiction; cbn in H.
    + destruct c; try contradiction; rewrite ?Hd in H; try discriminate; injection H as <-; cbn;
      (split; [ apply (Q (fun u => _)); intros; rewrite ?Nat.eqb_refl; cbn; auto;
         destruct (Nat.eqb_spec u t); [congruence|]; apply Ho; congruence
       | destruct h as [h|]; auto; destruct (Nat.eqb_spec h t); [congruence|auto] ]).
    + destruct h as [h|]; injection H as <-; cbn.
      * split; [ apply (Q (fun u => _)); intros; rewrite ?Nat.eqb_refl; cbn; auto;
         destruct (Nat.eqb_spec u t); [congruence|]; apply Ho; congruence
         | destruct (Nat.eqb_spec h t); [congruence|auto] ].
      * destruct Hi; subst. rewrite Nat.eqb_refl. split; auto.
        apply (Q (fun u => _)); intros; try congruence.
         destruct (Nat.eqb_spec u t); [congruence|]; apply Ho; congruence.
    + assert (o <> S t).
      { destruct h as [h|]; [|lia]. intros ->.
        destruct (pcs h); try contradiction; repeat match goal with H : _ /\ _ |- _ => destruct H end; try lia;
        try congruence. }
      destruct (o =? S t) eqn:E; [apply Nat.eqb_eq in E; contradiction|].
      injection H as <-; cbn.
      split; [ apply (Q (fun u => _)); intros; rewrite ?Nat.eqb_refl; cbn; auto;
         try (destruct x; cbn; auto; fail);
         destruct (Nat.eqb_spec u t); [congruence|]; apply Ho; congruence
       | destruct h as [h|]; auto; destruct (Nat.eqb_spec h t); [congruence|auto] ].
    + destruct h as [h|]; [discriminate|]. injection H as <-; cbn. destruct Hi; subst. rewrite Nat.eqb_refl. split; auto.
        apply (Q (fun u => _)); intros; try congruence.
         destruct (Nat.eqb_spec u t); [congruence|]; apply Ho; congruence.
Qed.

Lemma run_rinv : forall sched s, Forall (fun tc => plain (snd tc)) sched -> rinv s -> rinv (rrun sched s).
Proof.
  induction sched as [|[t c] sched IH]; cbn [rrun]; intros s Hp Hi; auto.
  inversion Hp; subst.
  apply IH; [assumption|].
  destruct (rexec (t, c) s) eqn:E; [|assumption]. eapply exec_rinv; eassumption.
Qed.
