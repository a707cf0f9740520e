(** Proofs about asynchronous procedure calls. *)
From Verif Require Import Common Apc_Spec Apc_Model.

Definition inv (s : st) : Prop :=
  ran (log s) = [] /\ (forall k, cons_ s <> ELast k) /\ length (queued (log s)) <= 1 /\
  (queue s = None -> queued (log s) = [] /\ forall m n, nth_error (prod s) m = Some (PLoop n) -> n = None).

Lemma ran_app a b : ran (a ++ b) = ran a ++ ran b.
Proof. apply flat_map_app. Qed.
Lemma queued_app a b : queued (a ++ b) = queued a ++ queued b.
Proof. apply flat_map_app. Qed.

Lemma inv_init n : inv (init n).
Proof.
  repeat split; cbn; auto; try discriminate. intros m k E. apply nth_error_In in E. apply repeat_spec in E. discriminate E.
Qed.

Lemma upd_nth {A} (l : list A) i x j y : nth_error (upd l i x) j = Some y -> y = x \/ nth_error l j = Some y.
Proof.
  revert i j. induction l as [|a l IH]; intros [|i] [|j] H; cbn in *; auto; try discriminate.
  - left. congruence.
  - destruct (IH i j H); auto.
Qed.

Lemma Some_inj {A} (x y : A) : Some x = Some y -> x = y.
Proof. congruence. Qed.

(** steps that say nothing the invariant is about *)
Lemma inv_same s s' : inv s -> ran (log s') = ran (log s) -> queued (log s') = queued (log s) ->
  (forall k, cons_ s' <> ELast k) ->
  (queue s' = None -> queue s = None /\ forall m n, nth_error (prod s') m = Some (PLoop n) -> n = None \/ nth_error (prod s) m = Some (PLoop n)) -> inv s'.
Proof.
  intros (R & _ & L & Q) A B C D. refine (conj _ (conj C (conj _ _))); [congruence|congruence|].
  intros X. destruct (D X) as (Y & Z). destruct (Q Y) as (U & V). split; [congruence|].
  intros m n H. destruct (Z m n H); eauto.
Qed.

Lemma step_inv a s s' : inv s -> step a s = Some s' -> inv s'.
Proof.
  intros I S. pose proof I as (R & E & L & Q). destruct a as [m|r]; cbn [step] in S.
  - destruct (nth_error (prod s) m) as [p|] eqn:N; [|discriminate S]. destruct p as [|n|]; cbn [stepP] in S; [| |discriminate S].
    + injection S as <-. apply (inv_same s); auto. cbn. intros X. split; auto. intros j k Hj.
      destruct (upd_nth _ _ _ _ _ Hj) as [Y|Y]; auto. left. congruence.
    + unfold cas in S. cbn [fst snd setNext queue] in S. destruct (queue s) as [q|] eqn:Eq.
      * apply Some_inj in S. subst s'. destruct (oeqb (Some q) n); (apply (inv_same s); [auto|reflexivity|reflexivity|exact E|cbn; intros X; congruence]).
      * destruct (Q eq_refl) as (A & B). pose proof (B _ _ N). subst n. cbn [oeqb] in S. injection S as <-.
        refine (conj _ (conj E (conj _ _))); cbn [say setP setQ setNext log cons_ queue prod].
        -- rewrite ran_app, R. reflexivity.
        -- rewrite queued_app, A. cbn. lia.
        -- intros X. discriminate X.
  - unfold stepC, getNext in S. destruct (cons_ s) as [ |k|k|k|[k|]| ] eqn:Ec; cbn [oeqb] in S.
    + destruct (queue s) eqn:Eq; injection S as <-; (apply (inv_same s); [auto|reflexivity|reflexivity|discriminate|cbn; intros X; split; auto; congruence]).
    + injection S as <-. apply (inv_same s); [auto|reflexivity|reflexivity|discriminate|cbn; auto].
    + injection S as <-. apply (inv_same s); [auto|reflexivity|reflexivity|discriminate|cbn; auto].
    + destruct (E k eq_refl).
    + injection S as <-. apply (inv_same s); [auto| | |discriminate|cbn; auto]; cbn [say setE log]; rewrite ?ran_app, ?queued_app; cbn; apply app_nil_r.
    + injection S as <-. apply (inv_same s); [auto|reflexivity|reflexivity|discriminate|cbn; auto].
    + injection S as <-. destruct r; (apply (inv_same s); [auto|reflexivity|reflexivity|discriminate|cbn; auto]).
Qed.

Lemma run_inv : forall sched s, inv s -> inv (run sched s).
Proof.
  induction sched as [|a sched IH]; intros s I; cbn [run]; auto.
  destruct (step a s) eqn:E; auto. apply IH. eapply step_inv; eauto.
Qed.

(** one message only *)
Definition one (s : st) (c : nat) : Prop :=
  (c = 0 /\ prod s = [P0] /\ queue s = None /\ queued (log s) = [] /\ (forall m b, ~ In (Queued m b) (log s)) /\ (cons_ s = CRet \/ cons_ s = E0 \/ cons_ s = RLoop None)) \/
  (c = 1 /\ prod s = [PLoop None] /\ queue s = None /\ queued (log s) = [] /\ (forall m b, ~ In (Queued m b) (log s)) /\ (cons_ s = CRet \/ cons_ s = E0 \/ cons_ s = RLoop None)) \/
  (2 <= c /\ prod s = [PRet] /\ queue s = Some 0 /\ In (Queued 0 true) (log s)).

Definition isP (a : act) : bool := match a with P 0 => true | _ => false end.

Lemma one_srv s r s' c : one s c -> stepC r s = Some s' -> one s' c.
Proof.
  intros O S. unfold stepC, getNext in S. destruct O as [O|[O|O]].
  - left. destruct O as (-> & A & B & C & D & [E|[E|E]]); rewrite E in S; rewrite ?B in S; injection S as <-; cbn; rewrite ?B; destruct r; auto 10.
  - right. left. destruct O as (-> & A & B & C & D & [E|[E|E]]); rewrite E in S; rewrite ?B in S; injection S as <-; cbn; rewrite ?B; destruct r; auto 10.
  - right. right. destruct O as (L & A & B & C). destruct (cons_ s) as [ |k|k|k|[k|]| ]; rewrite ?B in S; cbn [oeqb] in S;
      injection S as <-; cbn; repeat split; auto; apply in_app_iff; auto.
Qed.

Lemma one_p s c : one s c -> one (match step (P 0) s with Some s' => s' | None => s end) (S c).
Proof.
  intros O. cbn [step]. destruct O as [O|[O|O]].
  - destruct O as (-> & A & B & C & D & E). rewrite A. cbn. right. left. cbn. rewrite A, B. auto 10.
  - destruct O as (-> & A & B & C & D & E). rewrite A. cbn. unfold cas. cbn. rewrite B. cbn. right. right. cbn.
    rewrite A. repeat split; auto. apply in_app_iff. right. left. auto.
  - destruct O as (L & A & B & C). rewrite A. cbn. right. right. repeat split; auto.
Qed.

Lemma one_run : forall sched s c, one s c -> one (run sched s) (length (filter isP sched) + c).
Proof.
  induction sched as [|a sched IH]; intros s c O; cbn [run filter length]; auto.
  destruct a as [[|m]|r]; cbn [isP].
  - pose proof (IH _ _ (one_p s c O)) as H. cbn [length]. rewrite <- plus_n_Sm in H. exact H.
  - assert (E : step (P (S m)) s = None).
    { cbn [step]. destruct O as [(_ & A & _)|[(_ & A & _)|(_ & A & _)]]; rewrite A; destruct m; reflexivity. }
    rewrite E. auto.
  - cbn [step]. destruct (stepC r s) eqn:E; auto. apply IH. eapply one_srv; eauto.
Qed.
