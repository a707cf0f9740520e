(** Lemmas about the resource pool. *)
From Coq Require Import ZArith Lia.
From Verif Require Import Common ResPool_Spec ResPool_Model.
Import ListNotations.
Local Open Scope Z_scope.

(** sums over the clients *)
Fixpoint zsum (f : pc -> Z) (l : list pc) : Z := match l with [] => 0 | p :: l => f p + zsum f l end.
Lemma zsum_upd f l : forall c p q, nth_error l c = Some p -> zsum f (upd l c q) = zsum f l - f p + f q.
Proof.
  induction l as [|x l IH]; intros [|c] p q H; cbn [nth_error upd zsum] in *; try discriminate.
  - injection H as ->. lia.
  - rewrite (IH c p q H). lia.
Qed.
Lemma zsum_repeat f n p : zsum f (repeat p n) = Z.of_nat n * f p.
Proof. induction n as [|n IH]; cbn [repeat zsum]; [reflexivity|]. rewrite IH. lia. Qed.
Lemma zsum_le f l : forall c p, (forall p, 0 <= f p) -> nth_error l c = Some p -> f p <= zsum f l.
Proof.
  induction l as [|x l IH]; intros [|c] p F H; cbn [nth_error zsum] in *; try discriminate.
  - injection H as ->. assert (0 <= zsum f l) by (clear - F; induction l as [|y l IH]; cbn [zsum]; [lia|]; specialize (F y); lia). lia.
  - specialize (IH c p F H). specialize (F x). lia.
Qed.
Lemma zsum_two f l : forall c p c' p', (forall p, 0 <= f p) -> nth_error l c = Some p -> nth_error l c' = Some p' -> c <> c' -> f p + f p' <= zsum f l.
Proof.
  induction l as [|x l IH]; intros [|c] p [|c'] p' F H H' N; cbn [nth_error zsum] in *; try discriminate; [congruence| | |].
  - injection H as ->. pose proof (zsum_le f l c' p' F H'). lia.
  - injection H' as ->. pose proof (zsum_le f l c p F H). lia.
  - assert (c <> c') by congruence. specialize (IH c p c' p' F H H' H0). specialize (F x). lia.
Qed.
Definition isown (r : nat) (p : pc) : Z :=
  match p with
  | Made x | Got x | Doomed x | Has x | Giving x | Killing x => if Nat.eqb x r then 1 else 0
  | _ => 0
  end.
Lemma isown_pos r p : 0 <= isown r p.
Proof. destruct p; cbn [isown]; try destruct (_ =? _)%nat; lia. Qed.
(** what is between the number of living resources and curLimit *)
Definition owe (p : pc) : Z := match p with Made _ => -1 | Freed | Killed => 1 | _ => 0 end.
Definition cnt (r : nat) (l : list nat) : Z := Z.of_nat (count_occ Nat.eq_dec l r).
Lemma cnt_cons r x l : cnt r (x :: l) = (if (x =? r)%nat then 1 else 0) + cnt r l.
Proof. unfold cnt. cbn [count_occ]. destruct (Nat.eq_dec x r) as [E|E], (Nat.eqb_spec x r); try contradiction; lia. Qed.
Lemma cnt_pos r l : 0 <= cnt r l.
Proof. unfold cnt. lia. Qed.
Lemma cnt_in r l : 0 < cnt r l <-> In r l.
Proof. unfold cnt. rewrite (count_occ_In Nat.eq_dec). lia. Qed.
Lemma cnt_remove r x l : cnt r (remove Nat.eq_dec x l) = if (x =? r)%nat then 0 else cnt r l.
Proof.
  induction l as [|y l IH]; cbn [remove]; [destruct (_ =? _)%nat; reflexivity|]. destruct (Nat.eq_dec x y) as [E|E].
  - subst y. rewrite IH, cnt_cons. destruct (x =? r)%nat; lia.
  - rewrite !cnt_cons, IH. destruct (Nat.eqb_spec y r), (Nat.eqb_spec x r); subst; try contradiction; lia.
Qed.
Lemma len_remove x l : (forall r, cnt r l <= 1) -> In x l -> Z.of_nat (length (remove Nat.eq_dec x l)) = Z.of_nat (length l) - 1.
Proof.
  induction l as [|y l IH]; intros N I; [destruct I|]. cbn [remove]. assert (N' : forall r, cnt r l <= 1).
  { intros r. specialize (N r). rewrite cnt_cons in N. destruct (_ =? _)%nat; lia. }
  destruct (Nat.eq_dec x y) as [E|E].
  - subst y. assert (J : ~ In x l). { intros J. apply cnt_in in J. specialize (N x). rewrite cnt_cons, Nat.eqb_refl in N. lia. }
    rewrite notin_remove by exact J. cbn [length]. lia.
  - cbn [length]. destruct I as [I|I]; [congruence|]. specialize (IH N' I). lia.
Qed.
Record inv (limit : Z) (s : st) : Prop := {
  i_own : forall r, cnt r (pool s) + zsum (isown r) (pcs s) = cnt r (live s);
  i_one : forall r, cnt r (live s) <= 1;
  i_new : forall r, In r (live s) -> (r < fresh s)%nat;
  i_wait : forall c, In c (waiters s) <-> nth_error (pcs s) c = Some Wait;
  i_once : NoDup (waiters s);
  i_idle : waiters s <> [] -> pool s = [];
  i_sum : Z.of_nat (length (live s)) + cur s + zsum owe (pcs s) = limit }.
Lemma init_inv n limit : inv limit (init n limit).
Proof.
  constructor; cbn [init pool cur waiters live fresh pcs].
  - intros r. rewrite zsum_repeat. cbn. lia.
  - intros r. cbn. lia.
  - intros r [].
  - intros c. split; [intros []|]. intros H. apply nth_error_In, repeat_spec in H. discriminate.
  - constructor.
  - congruence.
  - rewrite zsum_repeat. cbn. lia.
Qed.
Lemma owned_alive limit s r : inv limit s -> 0 < cnt r (pool s) + zsum (isown r) (pcs s) -> alive r s = true /\ In r (live s).
Proof. intros V H. rewrite (i_own _ _ V) in H. apply cnt_in in H. split; [|exact H]. unfold alive. destruct (in_dec _ _ _); [reflexivity|contradiction]. Qed.
Lemma held_alive limit s c p r : inv limit s -> nth_error (pcs s) c = Some p -> isown r p = 1 -> alive r s = true /\ In r (live s).
Proof. intros V H O. apply (owned_alive limit s r V). pose proof (zsum_le (isown r) (pcs s) c p (isown_pos r) H). pose proof (cnt_pos r (pool s)). lia. Qed.
(** a client that does not wait changes its place *)
Lemma wait_upd s c p q : (forall c, In c (waiters s) <-> nth_error (pcs s) c = Some Wait) -> nth_error (pcs s) c = Some p -> p <> Wait -> q <> Wait ->
  forall x, In x (waiters s) <-> nth_error (upd (pcs s) c q) x = Some Wait.
Proof.
  intros W H P Q x. rewrite W. destruct (Nat.eq_dec x c) as [E|E].
  - subst x. rewrite nth_error_upd_eq by (apply nth_error_Some; congruence). rewrite H. split; congruence.
  - rewrite nth_error_upd_ne by congruence. reflexivity.
Qed.
Ltac usimp := unfold setPc, addCur; cbn [pool cur waiters live fresh pcs].
Lemma step_ok limit c b s : inv limit s -> exists s', step c b s = Ok s' /\ inv limit s' /\ length (pcs s') = length (pcs s).
Proof.
  intros V. unfold step. destruct (nth_error (pcs s) c) as [p|] eqn:H; [|eauto].
  pose proof V as [V1 V2 V3 V4 V5 V6 V7].
  assert (U : forall f q, zsum f (upd (pcs s) c q) = zsum f (pcs s) - f p + f q) by (intros; apply zsum_upd; exact H).
  destruct p as [| | |r| |r|r| |r|r|r|].
  - (* Out *) eexists. split; [reflexivity|]. split; [|apply upd_length]. constructor; usimp; auto.
    + intros r. rewrite U. cbn [isown]. specialize (V1 r). lia.
    + apply (wait_upd s c Out Enter V4 H); discriminate.
    + rewrite U. cbn [owe]. lia.
  - (* Enter *) destruct (pool s) as [|r l] eqn:P.
    + destruct (0 <? cur s) eqn:C.
      * eexists. split; [reflexivity|]. split; [|apply upd_length]. constructor; usimp; auto; rewrite ?P.
        -- intros r. rewrite U. cbn [isown]. specialize (V1 r). lia.
        -- apply (wait_upd s c Enter Create V4 H); discriminate.
        -- rewrite U. cbn [owe]. lia.
      * eexists. split; [reflexivity|]. split; [|apply upd_length]. constructor; usimp; auto.
        -- intros r. rewrite U. cbn [isown]. specialize (V1 r). lia.
        -- intros x. rewrite in_app_iff, V4. cbn [In]. destruct (Nat.eq_dec x c) as [E|E].
           ++ subst x. rewrite nth_error_upd_eq by (apply nth_error_Some; congruence). split; auto.
           ++ rewrite nth_error_upd_ne by congruence. split; [intros [?|[?|[]]]; congruence|auto].
        -- assert (N : ~ In c (waiters s)) by (rewrite V4, H; discriminate). clear - V5 N.
           induction (waiters s) as [|y l IH]; cbn [app]; [constructor; [intros []|constructor]|]. apply NoDup_cons_iff in V5 as (A & B). constructor.
           ++ rewrite in_app_iff. intros [J|[J|[]]]; [contradiction|]. subst. apply N. left. reflexivity.
           ++ apply IH; [exact B|]. intros J. apply N. right. exact J.
        -- rewrite U. cbn [owe]. lia.
    + unfold check. assert (A : alive r (mkSt l (cur s) (waiters s) (live s) (fresh s) (pcs s)) = alive r s) by reflexivity. rewrite A.
      destruct (owned_alive limit s r V) as (-> & L).
      { rewrite P, cnt_cons, Nat.eqb_refl. pose proof (cnt_pos r l). assert (0 <= zsum (isown r) (pcs s)) by (clear; induction (pcs s) as [|y t IH]; cbn [zsum]; [lia|]; pose proof (isown_pos r y); lia). lia. }
      eexists. split; [reflexivity|]. split; [|apply upd_length]. constructor; usimp; auto.
      * intros x. rewrite U. specialize (V1 x). rewrite cnt_cons in V1. cbn [isown]. destruct b; cbn [isown]; lia.
      * apply (wait_upd s c Enter _ V4 H); [discriminate|destruct b; discriminate].
      * intros N. specialize (V6 N). discriminate.
      * rewrite U. destruct b; cbn [owe]; lia.
  - (* Create *) destruct b.
    + eexists. split; [reflexivity|]. split; [|apply upd_length]. constructor; usimp; auto.
      * intros r. rewrite U. cbn [isown]. specialize (V1 r). lia.
      * apply (wait_upd s c Create Out V4 H); discriminate.
      * rewrite U. cbn [owe]. lia.
    + assert (F : cnt (fresh s) (live s) = 0).
      { pose proof (cnt_pos (fresh s) (live s)). destruct (Z.eq_dec (cnt (fresh s) (live s)) 0) as [E|E]; [exact E|]. assert (I : In (fresh s) (live s)) by (apply cnt_in; lia). specialize (V3 _ I). lia. }
      eexists. split; [reflexivity|]. split; [|apply upd_length]. constructor; usimp; auto.
      * intros r. rewrite U, cnt_cons. cbn [isown]. specialize (V1 r). lia.
      * intros r. rewrite cnt_cons. destruct (Nat.eqb_spec (fresh s) r) as [E|E]; [subst r; lia|]. specialize (V2 r). lia.
      * intros r [E|I]; [lia|]. specialize (V3 r I). lia.
      * apply (wait_upd s c Create _ V4 H); discriminate.
      * rewrite U. cbn [owe length]. lia.
  - (* Made *) eexists. split; [reflexivity|]. split; [|apply upd_length]. constructor; usimp; auto.
    + intros x. rewrite U. cbn [isown]. specialize (V1 x). lia.
    + apply (wait_upd s c (Made r) _ V4 H); discriminate.
    + rewrite U. cbn [owe]. lia.
  - (* Wait *) destruct b; [|eauto].
    eexists. split; [reflexivity|]. split; [|apply upd_length]. constructor; usimp; auto.
    + intros x. rewrite U. cbn [isown]. specialize (V1 x). lia.
    + intros x. destruct (Nat.eq_dec x c) as [E|E].
      * subst x. rewrite nth_error_upd_eq by (apply nth_error_Some; congruence). split; [intros I; exfalso; exact (remove_In _ _ _ I)|discriminate].
      * rewrite nth_error_upd_ne by congruence. rewrite <- V4. split; [intros I; exact (proj1 (in_remove _ _ _ _ I))|intros I; apply in_in_remove; assumption].
    + clear - V5. induction (waiters s) as [|y l IH]; cbn [remove]; [constructor|]. apply NoDup_cons_iff in V5 as (A & B). destruct (Nat.eq_dec c y); [exact (IH B)|].
      constructor; [intros I; apply in_remove in I; tauto|exact (IH B)].
    + intros N. apply V6. intros E. rewrite E in N. apply N. reflexivity.
    + rewrite U. cbn [owe]. lia.
  - (* Got *) unfold check. destruct (held_alive limit s c (Got r) r V H) as (-> & L); [cbn [isown]; rewrite Nat.eqb_refl; reflexivity|].
    eexists. split; [reflexivity|]. split; [|apply upd_length]. constructor; usimp; auto.
    + intros x. rewrite U. specialize (V1 x). destruct b; cbn [isown]; lia.
    + apply (wait_upd s c (Got r) _ V4 H); [discriminate|destruct b; discriminate].
    + rewrite U. destruct b; cbn [owe]; lia.
  - (* Doomed *) unfold destroy. destruct (held_alive limit s c (Doomed r) r V H) as (-> & L); [cbn [isown]; rewrite Nat.eqb_refl; reflexivity|]. cbn [obind].
    eexists. split; [reflexivity|]. split; [|apply upd_length]. constructor; usimp; auto.
    + intros x. rewrite U, cnt_remove. specialize (V1 x). specialize (V2 x). cbn [isown]. destruct (Nat.eqb_spec r x) as [E|E]; [|lia].
      subst x. apply cnt_in in L. pose proof (cnt_pos r (pool s)). pose proof (zsum_le (isown r) (pcs s) c _ (isown_pos r) H) as Z. cbn [isown] in Z. rewrite Nat.eqb_refl in Z. lia.
    + intros x. rewrite cnt_remove. specialize (V2 x). destruct (_ =? _)%nat; lia.
    + intros x I. apply in_remove in I. apply V3. tauto.
    + apply (wait_upd s c (Doomed r) _ V4 H); discriminate.
    + rewrite U. rewrite len_remove by assumption. cbn [owe]. lia.
  - (* Freed *) eexists. split; [reflexivity|]. split; [|apply upd_length]. constructor; usimp; auto.
    + intros x. rewrite U. cbn [isown]. specialize (V1 x). lia.
    + apply (wait_upd s c Freed _ V4 H); discriminate.
    + rewrite U. cbn [owe]. lia.
  - (* Has *) eexists. split; [reflexivity|]. split; [|apply upd_length]. constructor; usimp; auto.
    + intros x. rewrite U. specialize (V1 x). destruct (cur s <? 0); cbn [isown]; lia.
    + apply (wait_upd s c (Has r) _ V4 H); [discriminate|destruct (cur s <? 0); discriminate].
    + rewrite U. destruct (cur s <? 0); cbn [owe]; lia.
  - (* Giving *) destruct (waiters s) as [|w ws] eqn:W.
    + eexists. split; [reflexivity|]. split; [|apply upd_length]. constructor; usimp; auto.
      * intros x. rewrite U, cnt_cons. cbn [isown]. specialize (V1 x). lia.
      * rewrite <- W in *. apply (wait_upd s c (Giving r) _ V4 H); discriminate.
      * congruence.
      * rewrite U. cbn [owe]. lia.
    + assert (HW : nth_error (pcs s) w = Some Wait) by (apply V4; left; reflexivity).
      assert (NE : w <> c) by (intros ->; congruence).
      assert (HC : nth_error (upd (pcs s) w (Got r)) c = Some (Giving r)) by (rewrite nth_error_upd_ne by congruence; exact H).
      assert (U2 : forall f, zsum f (upd (upd (pcs s) w (Got r)) c Out) = zsum f (pcs s) - f Wait + f (Got r) - f (Giving r) + f Out).
      { intros f. rewrite (zsum_upd f _ c _ Out HC). rewrite (zsum_upd f _ w _ _ HW). lia. }
      apply NoDup_cons_iff in V5 as (V5a & V5b).
      eexists. split; [reflexivity|]. split; [|usimp; rewrite !upd_length; reflexivity]. constructor; usimp; auto.
      * intros x. rewrite U2. cbn [isown]. specialize (V1 x). lia.
      * intros x. destruct (Nat.eq_dec x c) as [E|E]; [subst x|destruct (Nat.eq_dec x w) as [E'|E']; [subst x|]].
        -- rewrite nth_error_upd_eq by (rewrite upd_length; apply nth_error_Some; congruence). split; [|discriminate]. intros I.
           assert (J : In c (w :: ws)) by (right; exact I). apply V4 in J. congruence.
        -- rewrite nth_error_upd_ne by congruence. rewrite nth_error_upd_eq by (apply nth_error_Some; congruence). split; [contradiction|discriminate].
        -- rewrite !nth_error_upd_ne by congruence. rewrite <- V4. cbn [In]. split; [auto|intros [?|?]; [congruence|assumption]].
      * intros _. apply V6. discriminate.
      * rewrite U2. cbn [owe]. lia.
  - (* Killing *) unfold destroy. destruct (held_alive limit s c (Killing r) r V H) as (-> & L); [cbn [isown]; rewrite Nat.eqb_refl; reflexivity|]. cbn [obind].
    eexists. split; [reflexivity|]. split; [|apply upd_length]. constructor; usimp; auto.
    + intros x. rewrite U, cnt_remove. specialize (V1 x). specialize (V2 x). cbn [isown]. destruct (Nat.eqb_spec r x) as [E|E]; [|lia].
      subst x. apply cnt_in in L. pose proof (cnt_pos r (pool s)). pose proof (zsum_le (isown r) (pcs s) c _ (isown_pos r) H) as Z. cbn [isown] in Z. rewrite Nat.eqb_refl in Z. lia.
    + intros x. rewrite cnt_remove. specialize (V2 x). destruct (_ =? _)%nat; lia.
    + intros x I. apply in_remove in I. apply V3. tauto.
    + apply (wait_upd s c (Killing r) _ V4 H); discriminate.
    + rewrite U. rewrite len_remove by assumption. cbn [owe]. lia.
  - (* Killed *) eexists. split; [reflexivity|]. split; [|apply upd_length]. constructor; usimp; auto.
    + intros x. rewrite U. cbn [isown]. specialize (V1 x). lia.
    + apply (wait_upd s c Killed _ V4 H); discriminate.
    + rewrite U. cbn [owe]. lia.
Qed.
Lemma run_ok limit l : forall s, inv limit s -> exists s', run l s = Ok s' /\ inv limit s' /\ length (pcs s') = length (pcs s).
Proof.
  induction l as [|[c b] l IH]; intros s V; cbn [run]; [eauto|]. destruct (step_ok limit c b s V) as (s1 & -> & V1 & L1). cbn [obind].
  destruct (IH s1 V1) as (s2 & E & V2 & L2). exists s2. split; [exact E|]. split; [exact V2|congruence].
Qed.

(** ** one creation at a time *)
Definition creating (p : pc) : Z := match p with Create | Made _ => 1 | _ => 0 end.
Lemma serial_step limit c b s s' : inv limit s -> zsum creating (pcs s) <= cur s -> step c b s = Ok s' -> zsum creating (pcs s') <= 1 -> zsum creating (pcs s') <= cur s'.
Proof.
  intros V K E O. revert E O. unfold step. destruct (nth_error (pcs s) c) as [p|] eqn:H; [|intros E; injection E as <-; auto].
  assert (U : forall q, zsum creating (upd (pcs s) c q) = zsum creating (pcs s) - creating p + creating q) by (intros; apply zsum_upd; exact H).
  destruct p as [| | |r| |r|r| |r|r|r|].
  - intros E _. injection E as <-. usimp. rewrite U. cbn [creating]. lia.
  - destruct (pool s) as [|r l].
    + destruct (0 <? cur s) eqn:C; intros E O; injection E as <-; revert O; usimp; [lia|]. rewrite U. cbn [creating]. lia.
    + unfold check. destruct (alive _ _); intros E _; [|discriminate]. injection E as <-. usimp. rewrite U. destruct b; cbn [creating]; lia.
  - destruct b; intros E _; injection E as <-; usimp; rewrite U; cbn [creating]; lia.
  - intros E _. injection E as <-. usimp. rewrite U. cbn [creating]. lia.
  - destruct b; intros E _; injection E as <-; usimp; [rewrite U; cbn [creating]; lia|exact K].
  - unfold check. destruct (alive _ _); intros E _; [|discriminate]. injection E as <-. usimp. rewrite U. destruct b; cbn [creating]; lia.
  - unfold destroy. destruct (alive _ _); intros E _; [|discriminate]. injection E as <-. usimp. rewrite U. cbn [creating]. lia.
  - intros E _. injection E as <-. usimp. rewrite U. cbn [creating]. lia.
  - intros E _. injection E as <-. usimp. rewrite U. destruct (cur s <? 0); cbn [creating]; lia.
  - destruct (waiters s) as [|w ws] eqn:W; intros E _; injection E as <-; usimp; [rewrite U; cbn [creating]; lia|].
    assert (HW : nth_error (pcs s) w = Some Wait) by (apply (i_wait _ _ V); rewrite W; left; reflexivity).
    assert (HC : nth_error (upd (pcs s) w (Got r)) c = Some (Giving r)) by (rewrite nth_error_upd_ne by congruence; exact H).
    rewrite (zsum_upd creating _ c _ Out HC), (zsum_upd creating _ w _ _ HW). cbn [creating]. lia.
  - unfold destroy. destruct (alive _ _); intros E _; [|discriminate]. injection E as <-. usimp. rewrite U. cbn [creating]. lia.
  - intros E _. injection E as <-. usimp. rewrite U. cbn [creating]. lia.
Qed.
(** at every moment at most one client is between the check of the limit and its decrement *)
Fixpoint serial (l : list (nat * bool)) (s : st) : Prop :=
  match l with
  | [] => True
  | (c, b) :: l => match step c b s with Ok s' => zsum creating (pcs s') <= 1 /\ serial l s' | _ => True end
  end.
Lemma serial_run limit l : forall s s', inv limit s -> zsum creating (pcs s) <= cur s -> serial l s -> run l s = Ok s' -> zsum creating (pcs s') <= cur s'.
Proof.
  induction l as [|[c b] l IH]; intros s s' V K S E; cbn [run serial] in *; [injection E as <-; exact K|].
  destruct (step_ok limit c b s V) as (s1 & Q & V1 & _). rewrite Q in *. cbn [obind] in E. destruct S as (S1 & S2).
  apply (IH s1 s' V1); [|exact S2|exact E]. exact (serial_step limit c b s s1 V K Q S1).
Qed.
Lemma owe_creating l : - zsum creating l <= zsum owe l.
Proof. induction l as [|p l IH]; cbn [zsum]; [lia|]. destruct p; cbn [creating owe]; lia. Qed.

(** ** any number of resources beyond the limit *)
Lemma upd_mid {A} (a : list A) x b y : upd (a ++ x :: b) (length a) y = a ++ y :: b.
Proof. induction a as [|z a IH]; cbn [app length upd]; [reflexivity|]. rewrite IH. reflexivity. Qed.
Lemma nth_mid {A} (a : list A) x b : nth_error (a ++ x :: b) (length a) = Some x.
Proof. rewrite nth_error_app2, Nat.sub_diag by lia. reflexivity. Qed.
Lemma upd_at {A} (a : list A) x b y c : length a = c -> upd (a ++ x :: b) c y = a ++ y :: b.
Proof. intros <-. apply upd_mid. Qed.
Lemma nth_at {A} (a : list A) x b c : length a = c -> nth_error (a ++ x :: b) c = Some x.
Proof. intros <-. apply nth_mid. Qed.
Definition twice (cs : list nat) : list (nat * bool) := flat_map (fun c => [(c, false); (c, false)]) cs.
Lemma run_app l1 l2 : forall s, run (l1 ++ l2) s = let! s := run l1 s in run l2 s.
Proof. induction l1 as [|[c b] l1 IH]; intros s; cbn [app run]; [reflexivity|]. destruct (step c b s); cbn [obind]; auto. Qed.
Lemma rush1 k : forall i limit, 0 < limit ->
  run (twice (seq i k)) (mkSt [] limit [] [] 0 (repeat Create i ++ repeat Out k)) = Ok (mkSt [] limit [] [] 0 (repeat Create (i + k))).
Proof.
  induction k as [|k IH]; intros i limit L; cbn [seq twice flat_map app run repeat]; [rewrite Nat.add_0_r, app_nil_r; reflexivity|].
  assert (R : length (repeat Create i) = i) by apply repeat_length.
  assert (E1 : step i false (mkSt [] limit [] [] 0 (repeat Create i ++ Out :: repeat Out k)) = Ok (mkSt [] limit [] [] 0 (repeat Create i ++ Enter :: repeat Out k))).
  { unfold step. cbn [pcs]. rewrite (nth_at _ _ _ i R). unfold setPc. cbn [pool cur waiters live fresh pcs]. rewrite (upd_at _ _ _ _ i R). reflexivity. }
  assert (E2 : step i false (mkSt [] limit [] [] 0 (repeat Create i ++ Enter :: repeat Out k)) = Ok (mkSt [] limit [] [] 0 (repeat Create (S i) ++ repeat Out k))).
  { unfold step. cbn [pcs pool cur]. rewrite (nth_at _ _ _ i R). destruct (Z.ltb_spec 0 limit); [|lia]. unfold setPc. cbn [pool cur waiters live fresh pcs].
    rewrite (upd_at _ _ _ _ i R). do 2 f_equal. change (Create :: repeat Out k) with ([Create] ++ repeat Out k). rewrite app_assoc. f_equal.
    replace (S i) with (i + 1)%nat by lia. rewrite repeat_app. reflexivity. }
  rewrite E1. cbn [obind]. rewrite E2. cbn [obind]. specialize (IH (S i) limit L). unfold twice in IH. rewrite IH. do 3 f_equal. lia.
Qed.
Lemma rush2 k : forall i limit l, length l = i -> l = map Has (seq 0 i) -> 
  run (twice (seq i k)) (mkSt [] (limit - Z.of_nat i) [] (rev (seq 0 i)) i (l ++ repeat Create k)) =
  Ok (mkSt [] (limit - Z.of_nat (i + k)) [] (rev (seq 0 (i + k))) (i + k) (map Has (seq 0 (i + k)))).
Proof.
  induction k as [|k IH]; intros i limit l L M; cbn [seq twice flat_map app run repeat]; [rewrite Nat.add_0_r, app_nil_r, M; reflexivity|].
  assert (E1 : step i false (mkSt [] (limit - Z.of_nat i) [] (rev (seq 0 i)) i (l ++ Create :: repeat Create k)) =
    Ok (mkSt [] (limit - Z.of_nat i) [] (i :: rev (seq 0 i)) (S i) (l ++ Made i :: repeat Create k))).
  { unfold step. cbn [pcs]. rewrite (nth_at _ _ _ i L). unfold setPc. cbn [pool cur waiters live fresh pcs]. rewrite (upd_at _ _ _ _ i L). reflexivity. }
  assert (E2 : step i false (mkSt [] (limit - Z.of_nat i) [] (i :: rev (seq 0 i)) (S i) (l ++ Made i :: repeat Create k)) =
    Ok (mkSt [] (limit - Z.of_nat (S i)) [] (rev (seq 0 (S i))) (S i) ((l ++ [Has i]) ++ repeat Create k))).
  { unfold step. cbn [pcs]. rewrite (nth_at _ _ _ i L).
    unfold setPc, addCur. cbn [pool cur waiters live fresh pcs]. rewrite (upd_at _ _ _ _ i L).
    rewrite seq_S, rev_app_distr. cbn [rev app Nat.add]. rewrite <- app_assoc. cbn [app]. do 2 f_equal. lia. }
  rewrite E1. cbn [obind]. rewrite E2. cbn [obind]. specialize (IH (S i) limit (l ++ [Has i])). unfold twice in IH. rewrite IH.
  - replace (S i + k)%nat with (i + S k)%nat by lia. reflexivity.
  - rewrite app_length. cbn [length]. lia.
  - rewrite M, seq_S, map_app. reflexivity.
Qed.
