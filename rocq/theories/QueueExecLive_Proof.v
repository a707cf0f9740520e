(** Lemmas about the progress of the queue executor. *)
From Coq Require Import ZArith Lia Permutation Sorted.
From Verif Require Import Common QueueExec_Spec QueueExec_Model QueueExec_Proof.
Import ListNotations.
Local Open Scope Z_scope.

Definition live (s : st) : Prop :=
  fin s = Some false -> queue s <> [] -> (0 < threadsIn s)%nat -> 0 < Z.of_nat (counter s) + zsum active (ws s).
Lemma wake_live s : sem s -> live (wakeThread s).
Proof.
  intros S _ _ _. destruct (wake_sum s active S) as (z & E & B & C). rewrite E. cbn [active]. pose proof (zsum_pos active (ws s) active_pos). lia.
Qed.
Lemma next_live s w p : nth_error (ws s) w = Some p -> live (next_action w s).
Proof.
  intros E. unfold next_action. destruct (queue s) as [|a q] eqn:Q; intros _ N _; [cb; cbn in N; congruence|]. cb. sm E.
  pose proof (zsum_le active _ _ _ active_pos E). lia.
Qed.
Lemma live_step e s s' : inv s -> live s -> (forall w, e <> Step w CanFinish) -> step e s = Ok s' -> live s'.
Proof.
  intros [S F T O L Q K D R] V NC E. destruct e as [| | | |w h]; cbn [step] in E.
  - unfold execute in E. cb. destruct (fin (setNext _ s)) as [[]|] eqn:FE; [| |discriminate]; injection E as <-.
    + intros A. cbn in A, FE. congruence.
    + apply wake_live. apply (sem_ext _ _ S); reflexivity.
  - injection E as <-. apply wake_live. apply (sem_ext _ _ S); reflexivity.
  - injection E as <-. intros _ N B. unfold reset in *. cbn in N, B. cb. destruct (fin s) as [[]|] eqn:FE; [| |congruence].
    + specialize (Q eq_refl). congruence.
    + apply V; auto.
  - injection E as <-. intros A N B. cbn in A, N, B. cb. sm E. specialize (V A N B). lia.
  - unfold wstep in E. destruct (nth_error (ws s) w) as [p|] eqn:W; [|injection E as <-; exact V].
    pose proof (zsum_pos active (ws s) active_pos) as AP. pose proof (zsum_le active _ _ _ active_pos W) as AL.
    destruct p as [| |a| |v| | | | | |]; cbn [active] in AL.
    + injection E as <-. intros _ _ _. cb. sm W. lia.
    + destruct (fin s) as [[]|] eqn:FE; [injection E as <-; intros A; cbn in A; congruence| |discriminate].
      destruct h; injection E as <-; try (apply (next_live s w Head); exact W). destruct (NC w eq_refl).
    + destruct h; injection E as <-; intros _ _ _; cb; sm W; lia.
    + injection E as <-. intros _ _ _. cb. sm W. lia.
    + injection E as <-. intros _ _ _. cb. sm W. lia.
    + destruct (fin s) as [[]|] eqn:FE; [injection E as <-; intros A; cbn in A; congruence| |discriminate].
      destruct h; injection E as <-; try (apply (next_live s w Inner); exact W). destruct (NC w eq_refl).
    + injection E as <-. intros _ _ _. cb. sm W. lia.
    + destruct (counter s) as [|n] eqn:C; injection E as <-; intros A N B; cbn in A, N, B; cb; sm W.
      * specialize (V A N B). rewrite C in V. lia.
      * lia.
    + injection E as <-. exact V.
    + cb. destruct (threadsIn (setPc w Gone _) =? 0)%nat eqn:Z0; injection E as <-.
      * intros _ _ B. cbn in B, Z0. apply Nat.eqb_eq in Z0. lia.
      * apply wake_live. eapply (sem_to _ _ _ _ Gone S W); try reflexivity; discriminate.
    + injection E as <-. exact V.
Qed.
Lemma live_run l : forall s s', inv s -> live s -> Forall (fun e => forall w, e <> Step w CanFinish) l -> run l s = Ok s' -> live s'.
Proof.
  induction l as [|e l IH]; intros s s' I V N E; cbn [run] in E; [injection E as <-; exact V|].
  inversion N; subst. destruct (step_inv e s I) as (s1 & E1 & I1). rewrite E1 in E. cbn [obind] in E.
  apply (IH s1); auto. apply (live_step e s); auto.
Qed.

(** how far a thread is from the end *)
Definition rank (p : qpc) : Z :=
  match p with
  | Gone => 0 | Leave => 1 | Head | Catch => 2 | Start | Asleep => 3 | Wait => 4 | Inner => 5 | DecW _ => 6 | Dec => 7 | Run _ => 8
  end.
Definition busy (p : qpc) : Z := match p with Gone | Asleep => 0 | _ => 1 end.
Lemma rank_pos p : 0 <= rank p. Proof. destruct p; cbn; lia. Qed.
Lemma busy_pos p : 0 <= busy p. Proof. destruct p; cbn; lia. Qed.
Definition good (p : qpc) : Z := match p with Leave | Catch | Gone => 0 | _ => 1 end.
Lemma good_pos p : 0 <= good p. Proof. destruct p; cbn; lia. Qed.

Definition plain (e : ev) : Prop := exists w, e = Step w Plain.

(** a thread that can move moves: it takes an action, or comes closer to its end *)
Lemma move s w p : inv s -> nth_error (ws s) w = Some p -> 0 < busy p -> (fin s = Some true \/ queue s <> []) ->
  exists s', step (Step w Plain) s = Ok s' /\ inv s' /\ fin s' = fin s /\ length (ws s') = length (ws s) /\
   ((exists a q, fin s = Some false /\ queue s = a :: q /\ started s' = started s ++ [a]) \/
    (started s' = started s /\ queue s' = queue s /\ zsum rank (ws s') < zsum rank (ws s) /\ (fin s = Some false -> zsum good (ws s) <= zsum good (ws s')))).
Proof.
  intros V W B H. destruct (step_inv (Step w Plain) s V) as (s' & E & V'). exists s'. split; [exact E|]. split; [exact V'|].
  clear V'. cbn [step] in E. unfold wstep in E. rewrite W in E. destruct V as [S F T O L Q K D R].
  assert (X : forall q s1, s1 = setPc w q s \/ (exists x, s1 = setPc w q (setRunning x s)) \/ (exists x y, s1 = setPc w q (setThreads x (setGate y s))) \/ (exists x, s1 = setPc w q (setEnded x s)) \/ (exists n, s1 = setPc w q (setCounter n s)) \/ (exists x, s1 = setPc w q (setWaiters x s)) ->
    rank q < rank p -> (fin s = Some false -> good p <= good q) -> 
    fin s1 = fin s /\ length (ws s1) = length (ws s) /\
   ((exists a q, fin s = Some false /\ queue s = a :: q /\ started s1 = started s ++ [a]) \/
    (started s1 = started s /\ queue s1 = queue s /\ zsum rank (ws s1) < zsum rank (ws s) /\ (fin s = Some false -> zsum good (ws s) <= zsum good (ws s1))))).
  { intros q s1 C RK GD. assert (Y : fin s1 = fin s /\ ws s1 = upd (ws s) w q /\ started s1 = started s /\ queue s1 = queue s).
    { destruct C as [->|[(x & ->)|[(x & y & ->)|[(x & ->)|[(x & ->)|(x & ->)]]]]]; cb; auto. }
    destruct Y as (-> & -> & -> & ->). rewrite upd_length. split; [reflexivity|]. split; [reflexivity|]. right. sm W. split; [reflexivity|]. split; [reflexivity|]. split; [lia|]. intros FF. specialize (GD FF). lia. }
  assert (NX : fin s = Some false -> s' = next_action w s -> fin s' = fin s /\ length (ws s') = length (ws s) /\
    ((exists a q, fin s = Some false /\ queue s = a :: q /\ started s' = started s ++ [a]))).
  { intros FF ->. destruct H as [H|H]; [congruence|]. unfold next_action. destruct (queue s) as [|a q] eqn:QE; [congruence|]. cb. rewrite upd_length. eauto 10. }
  destruct p as [| |a| |v| | | | | |]; cbn [busy] in B; try lia.
  - injection E as <-. eapply X; [eauto 10|cbn; lia|cbn; lia].
  - destruct (fin s) as [[]|] eqn:FE; [| |congruence]; injection E as <-.
    + eapply X; [eauto 10|cbn; lia|discriminate].
    + destruct (NX eq_refl eq_refl) as (N1 & N2 & N3). auto.
  - injection E as <-. eapply X; [eauto 10|cbn; lia|cbn; lia].
  - injection E as <-. eapply X; [eauto 10|cbn; lia|cbn; lia].
  - injection E as <-. eapply X; [eauto 10|cbn; lia|cbn; lia].
  - destruct (fin s) as [[]|] eqn:FE; [| |congruence]; injection E as <-.
    + eapply X; [eauto 10|cbn; lia|discriminate].
    + destruct (NX eq_refl eq_refl) as (N1 & N2 & N3). auto.
  - injection E as <-. eapply X; [eauto 10|cbn; lia|cbn; lia].
  - destruct (counter s) as [|n] eqn:C; injection E as <-; (eapply X; [eauto 10|cbn; lia|cbn; lia]).
  - cb. destruct (threadsIn (setPc w Gone _) =? 0)%nat; injection E as <-.
    + cb. rewrite upd_length. split; [reflexivity|]. split; [reflexivity|]. right. sm W. cbn [rank good]. repeat split; lia.
    + assert (SS : sem (setPc w Gone (setThreads (pred (threadsIn s)) s))) by (eapply (sem_to _ _ _ _ Gone S W); try reflexivity; discriminate).
      destruct (wake_same (setPc w Gone (setThreads (pred (threadsIn s)) s))) as (E1 & E2 & E3 & E4 & E5 & E6 & E7 & E8 & E9 & E10).
      rewrite E1, E5, E7, E10. cb. rewrite upd_length. split; [reflexivity|]. split; [reflexivity|]. right. split; [reflexivity|]. split; [reflexivity|].
      destruct (wake_sum _ rank SS) as (z & -> & Z1 & _). destruct (wake_sum _ good SS) as (z' & -> & Z2 & _). cb. sm W. cbn [rank good]. lia.
Qed.

Lemma all_quiet s w p : inv s -> (fin s = Some true \/ live s /\ fin s = Some false /\ queue s <> []) -> zsum busy (ws s) <= 0 -> nth_error (ws s) w = Some p -> p = Gone.
Proof.
  intros [S F T O L Q K D R] H B W. pose proof (zsum_le busy _ _ _ busy_pos W) as BP.
  destruct p; cbn [busy] in BP; try lia; [|reflexivity]. exfalso.
  destruct S as [I N Z]. assert (NE : waiters s <> []). { intros X. apply I in W. rewrite X in W. destruct W. }
  specialize (Z NE). pose proof (zsum_le inside _ _ _ inside_pos W) as LI. cbn [inside] in LI.
  assert (zsum active (ws s) <= zsum busy (ws s)) by (apply zsum_mono; intros []; cbn; lia).
  assert (zsum carrier (ws s) <= zsum busy (ws s)) by (apply zsum_mono; intros []; cbn; lia).
  destruct H as [H|(V & H & QN)]; [specialize (K H ltac:(lia))|specialize (V H QN ltac:(lia))]; lia.
Qed.

Lemma stop_all n : forall s, inv s -> fin s = Some true -> zsum rank (ws s) <= Z.of_nat n ->
  exists l s', Forall plain l /\ run l s = Ok s' /\ inv s' /\ (forall w p, nth_error (ws s') w = Some p -> p = Gone) /\
    started s' = started s /\ length (ws s') = length (ws s).
Proof.
  induction n as [|n IH]; intros s V F M.
  - exists [], s. split; [constructor|]. split; [reflexivity|]. split; [exact V|]. split; [|auto]. intros w p W.
    pose proof (zsum_le rank _ _ _ rank_pos W). destruct p; cbn [rank] in *; try lia. reflexivity.
  - destruct (Z_lt_le_dec 0 (zsum busy (ws s))) as [B|B].
    + destruct (pick _ _ B) as (w & p & W & BP). destruct (move s w p V W BP (or_introl F)) as (s1 & E & V1 & F1 & L1 & [(a & q & X & _)|(S1 & Q1 & R1 & _)]); [congruence|].
      destruct (IH s1 V1 ltac:(congruence) ltac:(lia)) as (l & s2 & A & E2 & V2 & G & S2 & L2).
      exists (Step w Plain :: l), s2. split; [constructor; [exists w; reflexivity|exact A]|]. cbn [run]. rewrite E. cbn [obind].
      split; [exact E2|]. split; [exact V2|]. split; [exact G|]. split; congruence.
    + exists [], s. split; [constructor|]. split; [reflexivity|]. split; [exact V|]. split; [|auto]. intros w p W. apply (all_quiet s w p V); auto.
Qed.

Lemma start_next n : forall s a q, inv s -> live s -> fin s = Some false -> queue s = a :: q -> 0 < zsum good (ws s) -> zsum rank (ws s) <= Z.of_nat n ->
  exists l s', Forall plain l /\ run l s = Ok s' /\ started s' = started s ++ [a].
Proof.
  induction n as [|n IH]; intros s a q V LV F Q G M.
  - destruct (pick _ _ G) as (w & p & W & GP). pose proof (zsum_le rank _ _ _ rank_pos W). destruct p; cbn [rank good] in *; lia.
  - assert (QN : queue s <> []) by congruence. destruct (Z_lt_le_dec 0 (zsum busy (ws s))) as [B|B].
    + destruct (pick _ _ B) as (w & p & W & BP). destruct (move s w p V W BP (or_intror QN)) as (s1 & E & V1 & F1 & L1 & [(b & q' & X & Y & Z)|(S1 & Q1 & R1 & G1)]).
      * exists [Step w Plain], s1. split; [repeat constructor; exists w; reflexivity|]. cbn [run]. rewrite E. cbn [obind]. split; [reflexivity|]. congruence.
      * assert (LV1 : live s1) by (apply (live_step (Step w Plain) s s1 V LV); [discriminate|exact E]).
        specialize (G1 F). destruct (IH s1 a q V1 LV1 ltac:(congruence) ltac:(congruence) ltac:(lia) ltac:(lia)) as (l & s2 & A & E2 & S2).
        exists (Step w Plain :: l), s2. split; [constructor; [exists w; reflexivity|exact A]|]. cbn [run]. rewrite E. cbn [obind]. split; [exact E2|]. congruence.
    + exfalso. destruct (pick _ _ G) as (w & p & W & GP). assert (p = Gone) by (apply (all_quiet s w p V); auto). subst p. cbn in GP. lia.
Qed.

Lemma stopped_run l : forall s s', inv s -> fin s = Some true -> ~ In Reset l -> run l s = Ok s' -> started s' = started s.
Proof.
  induction l as [|e l IH]; intros s s' V F N R; cbn [run] in R; [injection R as <-; reflexivity|].
  destruct (step_inv e s V) as (s1 & E1 & V1). rewrite E1 in R. cbn [obind] in R.
  assert (X : fin s1 = Some true /\ started s1 = started s).
  { clear IH R. destruct e as [| | | |w h]; cbn [step] in E1.
    - unfold execute in E1. cbn in E1. rewrite F in E1. injection E1 as <-. auto.
    - injection E1 as <-. unfold finish. destruct (wake_same (setFin (Some true) (setQueue [] (setRefused (queue s ++ refused s) s)))) as (_ & _ & _ & _ & -> & _ & -> & _). auto.
    - destruct N. left. reflexivity.
    - injection E1 as <-. auto.
    - unfold wstep in E1. destruct (nth_error (ws s) w) as [p|] eqn:W; [|injection E1 as <-; auto].
      destruct p; rewrite ?F in E1.
      all: try (injection E1 as <-; auto; fail).
      + destruct h; injection E1 as <-; auto.
      + destruct (counter s); injection E1 as <-; auto.
      + destruct (_ =? _)%nat; injection E1 as <-; [auto|].
        match goal with |- fin (wakeThread ?x) = _ /\ _ => destruct (wake_same x) as (_ & _ & _ & _ & -> & _ & -> & _) end. auto. }
  destruct X as (F1 & S1). rewrite <- S1. apply (IH s1); auto. intros I. apply N. right. exact I.
Qed.
