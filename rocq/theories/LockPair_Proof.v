(** Lemmas for LockPair_Props.v *)
From Verif Require Import Common LockPair_Spec LockPair_Model.

Definition held (x : thread) : list nat :=
  match pc x with
  | L2 | L3 | E1 | T2 | T3 => [lk1 x]
  | L5 | L6 | E2 | U2 => [lk2 x]
  | Inside | U1 => [lk1 x; lk2 x]
  | _ => []
  end.
(** the call that is not finished *)
Definition pend (x : thread) : list call :=
  match pc x with Idle | Inside | U1 | U2 => [] | _ => [cur x] end.
Definition calls (x : thread) : list call := map fst (finished x) ++ pend x ++ todo x.
Record good (n : nat) (x : thread) : Prop := {
  g1 : lk1 x < n; g2 : lk2 x < n; g3 : lk1 x <> lk2 x;
  g4 : forall c r, In (c, r) (finished x) -> may_give c r;
  g5 : match pc x with T1 | T2 | T3 => cur x = TryLock | L1 | L2 | L3 | L4 | L5 | L6 => cur x <> TryLock | _ => True end;
}.
Record Inv (s : st) : Prop := {
  i_good : forall t x, nth_error (ths s) t = Some x -> good (length (owner s)) x;
  i_own : forall t l, owns (owner s) t l <-> exists x, nth_error (ths s) t = Some x /\ In l (held x);
}.
Lemma nth_upd {A} (l : list A) i j x y : nth_error (upd l i x) j = Some y -> (j = i /\ y = x /\ i < length l) \/ (j <> i /\ nth_error l j = Some y).
Proof.
  intros H. destruct (Nat.eq_dec j i) as [->|N].
  - left. destruct (Nat.lt_ge_cases i (length l)) as [L|L]; [rewrite nth_error_upd_eq in H by exact L; injection H as <-; auto|].
    assert (Q : nth_error (upd l i x) i = None) by (apply nth_error_None; rewrite upd_length; exact L). congruence.
  - right. rewrite nth_error_upd_ne in H by congruence. auto.
Qed.
(** a change of one thread *)
Lemma Inv_upd s t x x' ow : Inv s -> nth_error (ths s) t = Some x -> length ow = length (owner s) -> good (length (owner s)) x' ->
  (forall u l, u <> t -> (owns ow u l <-> owns (owner s) u l)) -> (forall l, owns ow t l <-> In l (held x')) -> Inv (mkS ow (upd (ths s) t x')).
Proof.
  intros [G O] N L G' H1 H2. assert (T : t < length (ths s)) by (apply nth_error_Some; congruence). constructor; cbn [owner ths].
  - intros u y U. rewrite L. apply nth_upd in U. destruct U as [(-> & -> & _)|(_ & U)]; [exact G'|apply (G u y U)].
  - intros u l. destruct (Nat.eq_dec u t) as [->|NE].
    + rewrite H2. rewrite nth_error_upd_eq by exact T. split; [eauto|]. intros (y & E & I). injection E as <-. exact I.
    + rewrite H1 by exact NE. rewrite nth_error_upd_ne by congruence. apply O.
Qed.
Lemma own_held s t x : Inv s -> nth_error (ths s) t = Some x -> forall l, owns (owner s) t l <-> In l (held x).
Proof. intros W N l. rewrite (i_own _ W). split; [intros (y & E & I); congruence|eauto]. Qed.
Lemma put_ok s t x x' : Inv s -> nth_error (ths s) t = Some x -> good (length (owner s)) x' -> (forall l, In l (held x') <-> In l (held x)) -> Inv (mkS (owner s) (upd (ths s) t x')).
Proof. intros W N G H. apply (Inv_upd s t x x'); auto; [tauto|]. intros l. rewrite H. apply (own_held _ _ _ W N). Qed.
Lemma acq_ok s t x x' l : Inv s -> nth_error (ths s) t = Some x -> good (length (owner s)) x' -> nth_error (owner s) l = Some None -> (forall k, In k (held x') <-> k = l \/ In k (held x)) ->
  Inv (mkS (upd (owner s) l (Some t)) (upd (ths s) t x')).
Proof.
  intros W N G F H. assert (L : l < length (owner s)) by (apply nth_error_Some; congruence). apply (Inv_upd s t x x'); auto; [apply upd_length|..].
  - intros u k NE. unfold owns. destruct (Nat.eq_dec k l) as [->|K]; [rewrite nth_error_upd_eq by exact L; rewrite F; split; congruence|rewrite nth_error_upd_ne by congruence; tauto].
  - intros k. rewrite H. unfold owns. destruct (Nat.eq_dec k l) as [->|K]; [rewrite nth_error_upd_eq by exact L; tauto|]. rewrite nth_error_upd_ne by congruence. rewrite <- (own_held _ _ _ W N). unfold owns. intuition congruence.
Qed.
Lemma rel_ok s t x x' l : Inv s -> nth_error (ths s) t = Some x -> good (length (owner s)) x' -> In l (held x) -> (forall k, In k (held x') <-> k <> l /\ In k (held x)) ->
  nth_error (owner s) l = Some (Some t) /\ Inv (mkS (upd (owner s) l None) (upd (ths s) t x')).
Proof.
  intros W N G I H. assert (F : nth_error (owner s) l = Some (Some t)) by (apply (own_held _ _ _ W N); exact I). split; [exact F|].
  assert (L : l < length (owner s)) by (apply nth_error_Some; congruence). apply (Inv_upd s t x x'); auto; [apply upd_length|..].
  - intros u k NE. unfold owns. destruct (Nat.eq_dec k l) as [->|K]; [rewrite nth_error_upd_eq by exact L; rewrite F; split; congruence|rewrite nth_error_upd_ne by congruence; tauto].
  - intros k. rewrite H. unfold owns. destruct (Nat.eq_dec k l) as [->|K]; [rewrite nth_error_upd_eq by exact L; intuition congruence|]. rewrite nth_error_upd_ne by congruence. rewrite <- (own_held _ _ _ W N). unfold owns. intuition congruence.
Qed.
Lemma good_goto n x p : good n x -> (match p with T1 | T2 | T3 => cur x = TryLock | L1 | L2 | L3 | L4 | L5 | L6 => cur x <> TryLock | _ => True end) -> good n (goto x p).
Proof. intros [A B C D E] H. constructor; cbn; auto. Qed.
Lemma good_give n x r p : good n x -> may_give (cur x) r -> (match p with T1 | T2 | T3 => cur x = TryLock | L1 | L2 | L3 | L4 | L5 | L6 => cur x <> TryLock | _ => True end) -> good n (give x r p).
Proof. intros [A B C D E] M H. constructor; cbn; auto. intros c r' I. apply in_app_or in I. destruct I as [I|[I|[]]]; [eauto|]. injection I as <- <-. exact M. Qed.
Lemma thrown_ok c : may_give c Thrown. Proof. destruct c; exact I. Qed.
Lemma got_ok c : may_give c Got. Proof. destruct c; exact I. Qed.

(** what a step does *)
Definition outcome_ok (x x' : thread) (ow : list (option nat)) (t : nat) : Prop :=
  finished x' = finished x \/ exists r, finished x' = finished x ++ [(cur x, r)] /\
    match r with Got => owns ow t (lk1 x) /\ owns ow t (lk2 x) | _ => forall l, ~ owns ow t l end.
Lemma step_ok t e s : Inv s -> match step t e s with
  | Moved s' => Inv s' /\ exists x x', nth_error (ths s) t = Some x /\ ths s' = upd (ths s) t x' /\ length (owner s') = length (owner s) /\ calls x' = calls x /\ lk1 x' = lk1 x /\ lk2 x' = lk2 x /\
      outcome_ok x x' (owner s') t /\ (e <> Raise -> pc x <> E1 -> pc x <> E2 -> forall c, In (c, Thrown) (finished x') -> In (c, Thrown) (finished x)) /\
      (pc x' = E1 \/ pc x' = E2 -> e = Raise)
  | Blocked => True
  | Broken => False
  end.
Proof.
  intros W. unfold step. destruct (nth_error (ths s) t) as [x|] eqn:N; [|exact I]. pose proof (i_good _ W t x N) as G. pose proof (g3 _ _ G) as AB.
  assert (FO : forall s' x', Inv s' -> nth_error (ths s') t = Some x' -> forall l, owns (owner s') t l <-> In l (held x')) by (intros; eapply own_held; eassumption).
  assert (TL : t < length (ths s)) by (apply nth_error_Some; congruence).
  assert (C1 : forall x', calls x' = calls x -> lk1 x' = lk1 x -> lk2 x' = lk2 x -> forall s', Inv s' -> ths s' = upd (ths s) t x' -> length (owner s') = length (owner s) ->
     (finished x' = finished x \/ exists r, finished x' = finished x ++ [(cur x, r)] /\ (r = Thrown -> e = Raise \/ pc x = E1 \/ pc x = E2) /\ match r with Got => held x' = [lk1 x; lk2 x] | _ => held x' = [] end) -> (pc x' = E1 \/ pc x' = E2 -> e = Raise) ->
     Inv s' /\ exists x0 x1, Some x = Some x0 /\ ths s' = upd (ths s) t x1 /\ length (owner s') = length (owner s) /\ calls x1 = calls x0 /\ lk1 x1 = lk1 x0 /\ lk2 x1 = lk2 x0 /\
      outcome_ok x0 x1 (owner s') t /\ (e <> Raise -> pc x0 <> E1 -> pc x0 <> E2 -> forall c, In (c, Thrown) (finished x1) -> In (c, Thrown) (finished x0)) /\ (pc x1 = E1 \/ pc x1 = E2 -> e = Raise)).
  { intros x' Q1 Q2 Q3 s' W' T' LO F' EE. split; [exact W'|]. exists x, x'. split; [reflexivity|]. split; [exact T'|]. split; [exact LO|]. split; [exact Q1|]. split; [exact Q2|]. split; [exact Q3|].
    assert (NT : nth_error (ths s') t = Some x') by (rewrite T'; apply nth_error_upd_eq; exact TL). pose proof (own_held _ _ _ W' NT) as OH. split; [|split; [|exact EE]].
    - destruct F' as [F'|(r & F' & _ & H)]; [left; exact F'|]. right. exists r. split; [exact F'|]. destruct r; [rewrite !OH, H; cbn; auto|intros l; rewrite OH, H; auto|intros l; rewrite OH, H; auto].
    - intros E1' N1 N2 c. destruct F' as [->|(r & -> & HT & _)]; [auto|]. intros I. apply in_app_or in I. destruct I as [I|[I|[]]]; [exact I|]. injection I as _ ->. destruct (HT eq_refl) as [?|[?|?]]; congruence. }
  assert (PUT : forall x', calls x' = calls x -> lk1 x' = lk1 x -> lk2 x' = lk2 x -> good (length (owner s)) x' -> (forall l, In l (held x') <-> In l (held x)) ->
     (finished x' = finished x \/ exists r, finished x' = finished x ++ [(cur x, r)] /\ (r = Thrown -> e = Raise \/ pc x = E1 \/ pc x = E2) /\ match r with Got => held x' = [lk1 x; lk2 x] | _ => held x' = [] end) -> (pc x' = E1 \/ pc x' = E2 -> e = Raise) ->
     match put s t x' with Moved s' => Inv s' /\ exists x0 x1, Some x = Some x0 /\ ths s' = upd (ths s) t x1 /\ length (owner s') = length (owner s) /\ calls x1 = calls x0 /\ lk1 x1 = lk1 x0 /\ lk2 x1 = lk2 x0 /\
      outcome_ok x0 x1 (owner s') t /\ (e <> Raise -> pc x0 <> E1 -> pc x0 <> E2 -> forall c, In (c, Thrown) (finished x1) -> In (c, Thrown) (finished x0)) /\ (pc x1 = E1 \/ pc x1 = E2 -> e = Raise) | Blocked => True | Broken => False end).
  { intros x' Q1 Q2 Q3 G' H F' EE. unfold put. apply (C1 x'); auto. apply (put_ok _ _ x); assumption. }
  assert (ACQ : forall x' l, calls x' = calls x -> lk1 x' = lk1 x -> lk2 x' = lk2 x -> good (length (owner s)) x' -> (forall k, In k (held x') <-> k = l \/ In k (held x)) ->
     (finished x' = finished x \/ exists r, finished x' = finished x ++ [(cur x, r)] /\ (r = Thrown -> e = Raise \/ pc x = E1 \/ pc x = E2) /\ match r with Got => held x' = [lk1 x; lk2 x] | _ => held x' = [] end) -> (pc x' = E1 \/ pc x' = E2 -> e = Raise) ->
     match acquire s t l x' with Moved s' => Inv s' /\ exists x0 x1, Some x = Some x0 /\ ths s' = upd (ths s) t x1 /\ length (owner s') = length (owner s) /\ calls x1 = calls x0 /\ lk1 x1 = lk1 x0 /\ lk2 x1 = lk2 x0 /\
      outcome_ok x0 x1 (owner s') t /\ (e <> Raise -> pc x0 <> E1 -> pc x0 <> E2 -> forall c, In (c, Thrown) (finished x1) -> In (c, Thrown) (finished x0)) /\ (pc x1 = E1 \/ pc x1 = E2 -> e = Raise) | Blocked => True | Broken => False end).
  { intros x' l Q1 Q2 Q3 G' H F' EE. unfold acquire. destruct (nth_error (owner s) l) as [[u|]|] eqn:NL; try exact I. apply (C1 x'); auto; [apply (acq_ok _ _ x); assumption|cbn; apply upd_length]. }
  assert (REL : forall x' l, calls x' = calls x -> lk1 x' = lk1 x -> lk2 x' = lk2 x -> good (length (owner s)) x' -> In l (held x) -> (forall k, In k (held x') <-> k <> l /\ In k (held x)) ->
     (finished x' = finished x \/ exists r, finished x' = finished x ++ [(cur x, r)] /\ (r = Thrown -> e = Raise \/ pc x = E1 \/ pc x = E2) /\ match r with Got => held x' = [lk1 x; lk2 x] | _ => held x' = [] end) -> (pc x' = E1 \/ pc x' = E2 -> e = Raise) ->
     match release s t l x' with Moved s' => Inv s' /\ exists x0 x1, Some x = Some x0 /\ ths s' = upd (ths s) t x1 /\ length (owner s') = length (owner s) /\ calls x1 = calls x0 /\ lk1 x1 = lk1 x0 /\ lk2 x1 = lk2 x0 /\
      outcome_ok x0 x1 (owner s') t /\ (e <> Raise -> pc x0 <> E1 -> pc x0 <> E2 -> forall c, In (c, Thrown) (finished x1) -> In (c, Thrown) (finished x0)) /\ (pc x1 = E1 \/ pc x1 = E2 -> e = Raise) | Blocked => True | Broken => False end).
  { intros x' l Q1 Q2 Q3 G' IL H F' EE. unfold release. destruct (rel_ok s t x x' l W N G' IL H) as [NL W']. rewrite NL, Nat.eqb_refl. apply (C1 x'); auto. cbn. apply upd_length. }
  assert (TRY : forall x' y' l, match acquire s t l x' with Moved s' => Inv s' /\ exists x0 x1, Some x = Some x0 /\ ths s' = upd (ths s) t x1 /\ length (owner s') = length (owner s) /\ calls x1 = calls x0 /\ lk1 x1 = lk1 x0 /\ lk2 x1 = lk2 x0 /\
      outcome_ok x0 x1 (owner s') t /\ (e <> Raise -> pc x0 <> E1 -> pc x0 <> E2 -> forall c, In (c, Thrown) (finished x1) -> In (c, Thrown) (finished x0)) /\ (pc x1 = E1 \/ pc x1 = E2 -> e = Raise) | Blocked => True | Broken => False end ->
    match put s t y' with Moved s' => Inv s' /\ exists x0 x1, Some x = Some x0 /\ ths s' = upd (ths s) t x1 /\ length (owner s') = length (owner s) /\ calls x1 = calls x0 /\ lk1 x1 = lk1 x0 /\ lk2 x1 = lk2 x0 /\
      outcome_ok x0 x1 (owner s') t /\ (e <> Raise -> pc x0 <> E1 -> pc x0 <> E2 -> forall c, In (c, Thrown) (finished x1) -> In (c, Thrown) (finished x0)) /\ (pc x1 = E1 \/ pc x1 = E2 -> e = Raise) | Blocked => True | Broken => False end ->
    match try_ s t l x' y' with Moved s' => Inv s' /\ exists x0 x1, Some x = Some x0 /\ ths s' = upd (ths s) t x1 /\ length (owner s') = length (owner s) /\ calls x1 = calls x0 /\ lk1 x1 = lk1 x0 /\ lk2 x1 = lk2 x0 /\
      outcome_ok x0 x1 (owner s') t /\ (e <> Raise -> pc x0 <> E1 -> pc x0 <> E2 -> forall c, In (c, Thrown) (finished x1) -> In (c, Thrown) (finished x0)) /\ (pc x1 = E1 \/ pc x1 = E2 -> e = Raise) | Blocked => True | Broken => False end).
  { intros x' y' l. unfold acquire, try_. destruct (nth_error (owner s) l) as [[u|]|]; auto. }
  pose proof (g5 _ _ G) as G5.
  destruct (pc x) eqn:P; destruct e; try exact I.
  all: try (destruct (todo x) as [|c r] eqn:TD; [exact I|]).
  all: try (destruct (cur x) eqn:CU; [exact I|exact I|]).
  all: try (apply TRY; [apply ACQ|apply PUT]).
  all: try apply PUT; try apply ACQ; try apply REL.
  all: try reflexivity.
  all: try (apply good_goto; [exact G|]; first [exact I|exact G5]).
  all: try (apply good_give; [exact G| |exact I]; try apply thrown_ok; try apply got_ok; try (rewrite ?CU, ?G5; exact I)).
  all: try (unfold calls, pend; cbn [goto give enter pc cur finished todo map app]; rewrite ?P, ?map_app, <- ?app_assoc; reflexivity).
  all: try (unfold held; cbn [goto give enter pc lk1 lk2]; rewrite ?P; cbn; intuition congruence).
  all: try (left; reflexivity).
  all: try (right; eexists; split; [reflexivity|]; split; [try discriminate; auto|reflexivity]).
  all: try (cbn; intros [?|?]; congruence).
  - unfold calls, pend. cbn [enter pc cur finished todo]. rewrite P, TD. destruct c; reflexivity.
  - destruct G as [A B C D E]. constructor; cbn; auto. destruct c; cbn; congruence.
  - unfold held. cbn [enter pc]. rewrite P. destruct c; tauto.
  - cbn. destruct c; intros [?|?]; discriminate.
  - right. exists NotGot. cbn. rewrite CU. repeat split. discriminate.
  - right. exists NotGot. cbn. rewrite CU. repeat split. discriminate.
Qed.

Lemma run_app a b s : run (a ++ b) s = match run a s with Moved s1 => run b s1 | x => x end.
Proof. revert s. induction a as [|[t e] a IH]; intros s; [reflexivity|]. cbn [app run]. destruct (step t e s); auto. Qed.
Lemma run_ok l : forall s, Inv s -> match run l s with Moved s' => Inv s' | Blocked => True | Broken => False end.
Proof.
  induction l as [|[t e] l IH]; intros s W; [exact W|]. cbn [run]. pose proof (step_ok t e s W) as Q. destruct (step t e s) as [s1| |]; [|exact I|exact Q]. apply IH. apply Q.
Qed.
Lemma init_ok n cs : wf n cs -> Inv (init n cs).
Proof.
  intros W. constructor; cbn [init owner ths].
  - intros t x N. rewrite repeat_length. rewrite nth_error_map in N. destruct (nth_error cs t) as [[[a b] c]|] eqn:E; [|discriminate]. injection N as <-. apply nth_error_In in E. destruct (W _ _ _ E) as (A & B & C).
    constructor; cbn; auto. intros ? ? [].
  - intros t l. unfold owns. split.
    + intros H. apply nth_error_In in H. apply repeat_spec in H. discriminate.
    + intros (x & N & I). rewrite nth_error_map in N. destruct (nth_error cs t); [|discriminate]. injection N as <-. destruct I.
Qed.
(** what stays over a run *)
Definition same (s s' : st) : Prop := length (owner s') = length (owner s) /\ length (ths s') = length (ths s) /\
  forall t x', nth_error (ths s') t = Some x' -> exists x, nth_error (ths s) t = Some x /\ calls x' = calls x /\ lk1 x' = lk1 x /\ lk2 x' = lk2 x.
Lemma same_refl s : same s s.
Proof. repeat split; eauto. Qed.
Lemma same_trans a b c : same a b -> same b c -> same a c.
Proof.
  intros (A1 & A2 & A3) (B1 & B2 & B3). split; [congruence|]. split; [congruence|]. intros t x N. destruct (B3 t x N) as (y & Y & C1 & C2 & C3). destruct (A3 t y Y) as (z & Z & D1 & D2 & D3). exists z. split; [exact Z|]. split; [congruence|]. split; congruence.
Qed.
Lemma step_same t e s s' : Inv s -> step t e s = Moved s' -> same s s'.
Proof.
  intros W E. pose proof (step_ok t e s W) as Q. rewrite E in Q. destruct Q as (_ & x & x' & N & T & LO & C & A & B & _). split; [exact LO|]. rewrite T. split; [apply upd_length|].
  intros u y U. apply nth_upd in U. destruct U as [(-> & -> & _)|(_ & U)]; [exists x|exists y]; auto.
Qed.
Lemma run_same l : forall s s', Inv s -> run l s = Moved s' -> same s s'.
Proof.
  induction l as [|[t e] l IH]; intros s s' W E; cbn [run] in E; [injection E as <-; apply same_refl|]. destruct (step t e s) as [s1| |] eqn:E1; try discriminate.
  apply (same_trans _ s1); [apply (step_same t e); assumption|]. apply IH; [|exact E]. pose proof (step_ok t e s W) as Q. rewrite E1 in Q. apply Q.
Qed.

(** * Progress *)
Definition free (p : pcs) : Prop := match p with Idle | L1 | L4 | T1 => True | _ => False end.
(** a run of one thread *)
Definition goes (t k : nat) (s s' : st) (x' : thread) : Prop :=
  run (repeat (t, Go) k) s = Moved s' /\ ths s' = upd (ths s) t x' /\ Inv s'.
Lemma goes_0 t s x : Inv s -> nth_error (ths s) t = Some x -> goes t 0 s s x.
Proof. intros W N. split; [reflexivity|]. split; [|exact W]. clear W. revert t N. induction (ths s) as [|y l IH]; intros [|t] N; cbn in *; try congruence. rewrite <- IH by exact N. reflexivity. Qed.
Lemma goes_S t k s s1 s' x1 x' : goes t 1 s s1 x1 -> goes t k s1 s' x' -> goes t (S k) s s' x'.
Proof.
  intros (A1 & A2 & A3) (B1 & B2 & B3). split; [|split; [|exact B3]].
  - cbn [repeat run] in *. destruct (step t Go s) as [s2| |]; try discriminate. injection A1 as ->. exact B1.
  - rewrite B2, A2. generalize (ths s). clear. intros l. revert t. induction l as [|y l IH]; intros [|t]; cbn; try reflexivity. rewrite IH. reflexivity.
Qed.
Lemma goes_nth t k s s' x x' : nth_error (ths s) t = Some x -> goes t k s s' x' -> nth_error (ths s') t = Some x'.
Proof. intros N (_ & E & _). rewrite E. apply nth_error_upd_eq. apply nth_error_Some. congruence. Qed.
Lemma one t s s' x' : Inv s -> step t Go s = Moved s' -> ths s' = upd (ths s) t x' -> goes t 1 s s' x'.
Proof. intros W E T. split; [cbn [repeat run]; rewrite E; reflexivity|]. split; [exact T|]. pose proof (step_ok t Go s W) as Q. rewrite E in Q. apply Q. Qed.
Lemma go_rel s t x l y : Inv s -> nth_error (ths s) t = Some x -> In l (held x) -> step t Go s = release s t l y -> exists s', goes t 1 s s' y.
Proof.
  intros W N I E. assert (F : nth_error (owner s) l = Some (Some t)) by (apply (own_held _ _ _ W N); exact I). unfold release in E. rewrite F, Nat.eqb_refl in E. eexists. apply one; [exact W|exact E|reflexivity].
Qed.
Lemma go_try s t x l y z : Inv s -> nth_error (ths s) t = Some x -> l < length (owner s) -> step t Go s = try_ s t l y z ->
  (exists s', goes t 1 s s' y) \/ (exists s', goes t 1 s s' z /\ nth_error (owner s) l <> Some None).
Proof.
  intros W N L E. unfold try_, put in E. destruct (nth_error (owner s) l) as [[u|]|] eqn:NL.
  - right. eexists. split; [|discriminate]. apply one; [exact W|exact E|reflexivity].
  - left. eexists. apply one; [exact W|exact E|reflexivity].
  - apply nth_error_None in NL. lia.
Qed.
Ltac st_ N P := unfold step; rewrite N, P; reflexivity.
(** from the end backwards *)
Lemma from_U2 s t x : Inv s -> nth_error (ths s) t = Some x -> pc x = U2 -> exists k s' x', goes t k s s' x' /\ pc x' = Idle /\ todo x' = todo x.
Proof. intros W N P. destruct (go_rel s t x (lk2 x) (goto x Idle) W N) as (s1 & G1); [unfold held; rewrite P; cbn; auto|st_ N P|]. exists 1, s1, (goto x Idle). auto. Qed.
Lemma from_U1 s t x : Inv s -> nth_error (ths s) t = Some x -> pc x = U1 -> exists k s' x', goes t k s s' x' /\ pc x' = Idle /\ todo x' = todo x.
Proof.
  intros W N P. destruct (go_rel s t x (lk1 x) (goto x U2) W N) as (s1 & G1); [unfold held; rewrite P; cbn; auto|st_ N P|].
  destruct (from_U2 s1 t _ (proj2 (proj2 G1)) (goes_nth _ _ _ _ _ _ N G1) eq_refl) as (k & s2 & x2 & G2 & R). exists (S k), s2, x2. split; [apply (goes_S _ _ _ _ _ _ _ G1 G2)|exact R].
Qed.
Lemma from_In s t x : Inv s -> nth_error (ths s) t = Some x -> pc x = Inside -> exists k s' x', goes t k s s' x' /\ pc x' = Idle /\ todo x' = todo x.
Proof.
  intros W N P. assert (G1 : goes t 1 s (mkS (owner s) (upd (ths s) t (goto x U1))) (goto x U1)) by (apply one; [exact W|st_ N P|reflexivity]).
  destruct (from_U1 _ t _ (proj2 (proj2 G1)) (goes_nth _ _ _ _ _ _ N G1) eq_refl) as (k & s2 & x2 & G2 & R). exists (S k), s2, x2. split; [apply (goes_S _ _ _ _ _ _ _ G1 G2)|exact R].
Qed.
Definition settles (s : st) (t : nat) (x : thread) : Prop := exists k s' x', goes t k s s' x' /\ free (pc x') /\ todo x' = todo x.
Lemma settles_step s s1 t x y : nth_error (ths s) t = Some x -> goes t 1 s s1 y -> todo y = todo x -> (Inv s1 -> nth_error (ths s1) t = Some y -> settles s1 t y) -> settles s t x.
Proof.
  intros N G T H. destruct (H (proj2 (proj2 G)) (goes_nth _ _ _ _ _ _ N G)) as (k & s2 & x2 & G2 & F & T2). exists (S k), s2, x2. split; [apply (goes_S _ _ _ _ _ _ _ G G2)|]. split; [exact F|congruence].
Qed.
Lemma settles_free s t x : Inv s -> nth_error (ths s) t = Some x -> free (pc x) -> settles s t x.
Proof. intros W N F. exists 0, s, x. split; [apply goes_0; assumption|auto]. Qed.
Lemma settles_idle s t x : (exists k s' x', goes t k s s' x' /\ pc x' = Idle /\ todo x' = todo x) -> settles s t x.
Proof. intros (k & s' & x' & G & P & T). exists k, s', x'. rewrite P. cbn. auto. Qed.
Lemma settle s t x : Inv s -> nth_error (ths s) t = Some x -> settles s t x.
Proof.
  intros W N. pose proof (i_good _ W t x N) as G.
  assert (REL : forall l y, In l (held x) -> step t Go s = release s t l y -> todo y = todo x -> free (pc y) -> settles s t x).
  { intros l y I E T F. destruct (go_rel s t x l y W N I E) as (s1 & G1). apply (settles_step s s1 t x y N G1 T). intros W1 N1. apply settles_free; assumption. }
  destruct (pc x) eqn:P.
  - apply settles_free; auto. rewrite P. exact I.
  - apply settles_free; auto. rewrite P. exact I.
  - destruct (go_try s t x (lk2 x) (give x Got Inside) (goto x L3) W N (g2 _ _ G)) as [(s1 & G1)|(s1 & G1 & _)]; [st_ N P|..].
    + apply (settles_step s s1 t x _ N G1 eq_refl). intros W1 N1. apply settles_idle, from_In; auto.
    + apply (settles_step s s1 t x _ N G1 eq_refl). intros W1 N1. destruct (go_rel s1 t _ (lk1 x) (goto (goto x L3) L4) W1 N1) as (s2 & G2); [cbn; auto|unfold step; rewrite N1; reflexivity|].
      apply (settles_step s1 s2 t _ _ N1 G2 eq_refl). intros W2 N2. apply settles_free; auto. exact I.
  - apply (REL (lk1 x) (goto x L4)); [unfold held; rewrite P; cbn; auto|st_ N P|reflexivity|exact I].
  - apply settles_free; auto. rewrite P. exact I.
  - destruct (go_try s t x (lk1 x) (give x Got Inside) (goto x L6) W N (g1 _ _ G)) as [(s1 & G1)|(s1 & G1 & _)]; [st_ N P|..].
    + apply (settles_step s s1 t x _ N G1 eq_refl). intros W1 N1. apply settles_idle, from_In; auto.
    + apply (settles_step s s1 t x _ N G1 eq_refl). intros W1 N1. destruct (go_rel s1 t _ (lk2 x) (goto (goto x L6) L1) W1 N1) as (s2 & G2); [cbn; auto|unfold step; rewrite N1; reflexivity|].
      apply (settles_step s1 s2 t _ _ N1 G2 eq_refl). intros W2 N2. apply settles_free; auto. exact I.
  - apply (REL (lk2 x) (goto x L1)); [unfold held; rewrite P; cbn; auto|st_ N P|reflexivity|exact I].
  - apply (REL (lk1 x) (give x Thrown Idle)); [unfold held; rewrite P; cbn; auto|st_ N P|reflexivity|exact I].
  - apply (REL (lk2 x) (give x Thrown Idle)); [unfold held; rewrite P; cbn; auto|st_ N P|reflexivity|exact I].
  - apply settles_free; auto. rewrite P. exact I.
  - destruct (go_try s t x (lk2 x) (give x Got Inside) (goto x T3) W N (g2 _ _ G)) as [(s1 & G1)|(s1 & G1 & _)]; [st_ N P|..].
    + apply (settles_step s s1 t x _ N G1 eq_refl). intros W1 N1. apply settles_idle, from_In; auto.
    + apply (settles_step s s1 t x _ N G1 eq_refl). intros W1 N1. destruct (go_rel s1 t _ (lk1 x) (give (goto x T3) NotGot Idle) W1 N1) as (s2 & G2); [cbn; auto|unfold step; rewrite N1; reflexivity|].
      apply (settles_step s1 s2 t _ _ N1 G2 eq_refl). intros W2 N2. apply settles_free; auto. exact I.
  - apply (REL (lk1 x) (give x NotGot Idle)); [unfold held; rewrite P; cbn; auto|st_ N P|reflexivity|exact I].
  - apply settles_idle, from_In; auto.
  - apply settles_idle, from_U1; auto.
  - apply settles_idle, from_U2; auto.
Qed.
Definition only_go (l : list (nat * event)) : Prop := forall t e, In (t, e) l -> e = Go.
Lemma only_go_rep t k : only_go (repeat (t, Go) k).
Proof. intros u e I. apply repeat_spec in I. congruence. Qed.
Lemma only_go_app a b : only_go a -> only_go b -> only_go (a ++ b).
Proof. intros A B t e I. apply in_app_or in I. destruct I; eauto. Qed.
Lemma settle_all k : forall s, Inv s -> k <= length (ths s) -> exists l s', only_go l /\ run l s = Moved s' /\ Inv s' /\ length (ths s') = length (ths s) /\
  (forall t x, t < k -> nth_error (ths s') t = Some x -> free (pc x)).
Proof.
  induction k as [|k IH]; intros s W K; [exists [], s; split; [intros ? ? []|]; split; [reflexivity|]; split; [exact W|]; split; [reflexivity|]; intros; lia|].
  destruct (IH s W ltac:(lia)) as (l & s1 & O & R & W1 & LN & F). destruct (nth_error (ths s1) k) as [x|] eqn:N; [|apply nth_error_None in N; lia].
  destruct (settle s1 k x W1 N) as (j & s2 & x2 & (G1 & G2 & G3) & F2 & _). exists (l ++ repeat (k, Go) j), s2. split; [apply only_go_app; [exact O|apply only_go_rep]|]. split; [rewrite run_app, R; exact G1|].
  split; [exact G3|]. split; [rewrite G2, upd_length; exact LN|]. intros t y T NT. rewrite G2 in NT. apply nth_upd in NT. destruct NT as [(-> & -> & _)|(NE & NT)]; [exact F2|]. apply (F t y); [lia|exact NT].
Qed.
Definition all_free (s : st) : Prop := forall t x, nth_error (ths s) t = Some x -> free (pc x).
Lemma free_held x : free (pc x) -> held x = [].
Proof. unfold held. destruct (pc x); cbn; intros []; reflexivity. Qed.
Lemma unowned s l : Inv s -> all_free s -> l < length (owner s) -> nth_error (owner s) l = Some None.
Proof.
  intros W A L. destruct (nth_error (owner s) l) as [[u|]|] eqn:E; [|reflexivity|apply nth_error_None in E; lia]. assert (O : owns (owner s) u l) by exact E. apply (i_own _ W) in O.
  destruct O as (x & N & I). rewrite (free_held x (A u x N)) in I. destruct I.
Qed.
Lemma goes_trans t a b s s1 s2 x1 x2 : goes t a s s1 x1 -> goes t b s1 s2 x2 -> goes t (a + b) s s2 x2.
Proof.
  intros (A1 & A2 & A3) (B1 & B2 & B3). split; [|split; [|exact B3]].
  - rewrite repeat_app, run_app, A1. exact B1.
  - rewrite B2, A2. generalize (ths s). clear. intros l. revert t. induction l as [|y l IH]; intros [|t]; cbn; try reflexivity. rewrite IH. reflexivity.
Qed.
Lemma acq_go s t x l y : Inv s -> nth_error (ths s) t = Some x -> nth_error (owner s) l = Some None -> step t Go s = acquire s t l y \/ (exists z, step t Go s = try_ s t l y z) ->
  exists s', goes t 1 s s' y /\ (forall k, k <> l -> nth_error (owner s') k = nth_error (owner s) k).
Proof.
  intros W N F E. exists (mkS (upd (owner s) l (Some t)) (upd (ths s) t y)). split.
  - apply one; [exact W| |reflexivity]. destruct E as [E|(z & E)]; rewrite E; unfold acquire, try_; rewrite F; reflexivity.
  - intros k K. cbn [owner]. apply nth_error_upd_ne. congruence.
Qed.
(** a call runs to its end *)
Lemma finish_call s t x : Inv s -> all_free s -> nth_error (ths s) t = Some x -> exists k s' x', goes t k s s' x' /\ pc x' = Idle /\ todo x' = todo x.
Proof.
  intros W A N. pose proof (A t x N) as F. pose proof (i_good _ W t x N) as G. pose proof (unowned s _ W A (g1 _ _ G)) as U1. pose proof (unowned s _ W A (g2 _ _ G)) as U2. pose proof (g3 _ _ G) as AB.
  assert (TWO : forall l1 l2 y z, {l1 = lk1 x /\ l2 = lk2 x} + {l1 = lk2 x /\ l2 = lk1 x} -> (step t Go s = acquire s t l1 y \/ exists w, step t Go s = try_ s t l1 y w) ->
     (forall s1, nth_error (ths s1) t = Some y -> step t Go s1 = acquire s1 t l2 z \/ exists w, step t Go s1 = try_ s1 t l2 z w) -> pc z = Inside -> todo z = todo x ->
     exists k s' x', goes t k s s' x' /\ pc x' = Idle /\ todo x' = todo x).
  { intros l1 l2 y z LL E1 E2 P T. assert (U1' : nth_error (owner s) l1 = Some None) by (destruct LL as [[-> ->]|[-> ->]]; assumption). assert (U2' : nth_error (owner s) l2 = Some None) by (destruct LL as [[-> ->]|[-> ->]]; assumption).
    assert (NE : l2 <> l1) by (destruct LL as [[-> ->]|[-> ->]]; congruence).
    destruct (acq_go s t x l1 y W N U1' E1) as (s1 & G1 & O1). pose proof (goes_nth _ _ _ _ _ _ N G1) as N1. pose proof (proj2 (proj2 G1)) as W1.
    destruct (acq_go s1 t y l2 z W1 N1) as (s2 & G2 & _); [rewrite O1 by exact NE; exact U2'|apply E2; exact N1|]. pose proof (goes_nth _ _ _ _ _ _ N1 G2) as N2.
    destruct (from_In s2 t z (proj2 (proj2 G2)) N2 P) as (k & s3 & x3 & G3 & P3 & T3). exists (1 + (1 + k)), s3, x3. split; [apply (goes_trans _ _ _ _ _ _ _ _ G1), (goes_trans _ _ _ _ _ _ _ _ G2 G3)|]. split; [exact P3|congruence]. }
  destruct (pc x) eqn:P; try destruct F.
  - exists 0, s, x. split; [apply goes_0; assumption|auto].
  - apply (TWO (lk1 x) (lk2 x) (goto x L2) (give (goto x L2) Got Inside)); auto; [left; st_ N P|]. intros s1 N1. right. exists (goto (goto x L2) L3). unfold step. rewrite N1. reflexivity.
  - apply (TWO (lk2 x) (lk1 x) (goto x L5) (give (goto x L5) Got Inside)); auto; [left; st_ N P|]. intros s1 N1. right. exists (goto (goto x L5) L6). unfold step. rewrite N1. reflexivity.
  - apply (TWO (lk1 x) (lk2 x) (goto x T2) (give (goto x T2) Got Inside)); auto; [right; exists (give x NotGot Idle); st_ N P|]. intros s1 N1. right. exists (goto (goto x T2) T3). unfold step. rewrite N1. reflexivity.
Qed.
Lemma free_upd s t k s' x' : all_free s -> goes t k s s' x' -> free (pc x') -> all_free s'.
Proof. intros A (_ & E & _) F u y N. rewrite E in N. apply nth_upd in N. destruct N as [(-> & -> & _)|(_ & N)]; [exact F|apply (A u y N)]. Qed.
Lemma finish_calls n : forall s t x, Inv s -> all_free s -> nth_error (ths s) t = Some x -> length (todo x) <= n -> exists k s' x', goes t k s s' x' /\ pc x' = Idle /\ todo x' = [].
Proof.
  induction n as [|n IH]; intros s t x W A N L; destruct (finish_call s t x W A N) as (k & s1 & x1 & G1 & P1 & T1).
  - exists k, s1, x1. split; [exact G1|]. split; [exact P1|]. destruct (todo x); [exact T1|cbn in L; lia].
  - assert (A1 : all_free s1) by (apply (free_upd s t k s1 x1 A G1); rewrite P1; exact I). pose proof (goes_nth _ _ _ _ _ _ N G1) as N1. pose proof (proj2 (proj2 G1)) as W1.
    destruct (todo x1) as [|c r] eqn:TD; [exists k, s1, x1; auto|].
    assert (G2 : goes t 1 s1 (mkS (owner s1) (upd (ths s1) t (enter x1 c r))) (enter x1 c r)) by (apply one; [exact W1|unfold step; rewrite N1, P1, TD; reflexivity|reflexivity]).
    pose proof (goes_nth _ _ _ _ _ _ N1 G2) as N2. assert (A2 : all_free (mkS (owner s1) (upd (ths s1) t (enter x1 c r)))) by (apply (free_upd s1 t 1 _ _ A1 G2); destruct c; exact I).
    destruct (IH _ t _ (proj2 (proj2 G2)) A2 N2) as (j & s3 & x3 & G3 & P3 & T3); [cbn; rewrite <- T1 in L; cbn in L; lia|].
    exists (k + (1 + j)), s3, x3. split; [apply (goes_trans _ _ _ _ _ _ _ _ G1), (goes_trans _ _ _ _ _ _ _ _ G2 G3)|auto].
Qed.
Lemma finish_all k : forall s, Inv s -> all_free s -> k <= length (ths s) -> exists l s', only_go l /\ run l s = Moved s' /\ Inv s' /\ all_free s' /\ length (ths s') = length (ths s) /\
  (forall t x, t < k -> nth_error (ths s') t = Some x -> pc x = Idle /\ todo x = []).
Proof.
  induction k as [|k IH]; intros s W A K; [exists [], s; split; [intros ? ? []|]; split; [reflexivity|]; split; [exact W|]; split; [exact A|]; split; [reflexivity|]; intros; lia|].
  destruct (IH s W A ltac:(lia)) as (l & s1 & O & R & W1 & A1 & LN & F). destruct (nth_error (ths s1) k) as [x|] eqn:N; [|apply nth_error_None in N; lia].
  destruct (finish_calls _ s1 k x W1 A1 N (le_n _)) as (j & s2 & x2 & G & P2 & T2). pose proof G as (G1 & G2 & G3). exists (l ++ repeat (k, Go) j), s2. split; [apply only_go_app; [exact O|apply only_go_rep]|]. split; [rewrite run_app, R; exact G1|].
  split; [exact G3|]. split; [apply (free_upd s1 k j s2 x2 A1 G); rewrite P2; exact I|]. split; [rewrite G2, upd_length; exact LN|].
  intros t y T NT. rewrite G2 in NT. apply nth_upd in NT. destruct NT as [(-> & -> & _)|(NE & NT)]; [auto|]. apply (F t y); [lia|exact NT].
Qed.
Lemma complete s : Inv s -> exists l s', only_go l /\ run l s = Moved s' /\ Inv s' /\ forall t x, nth_error (ths s') t = Some x -> pc x = Idle /\ todo x = [].
Proof.
  intros W. destruct (settle_all _ s W (le_n _)) as (l1 & s1 & O1 & R1 & W1 & L1 & F1). assert (A1 : all_free s1) by (intros t x N; apply (F1 t x); [rewrite <- L1; apply nth_error_Some; congruence|exact N]).
  destruct (finish_all _ s1 W1 A1 (le_n _)) as (l2 & s2 & O2 & R2 & W2 & A2 & L2 & F2). exists (l1 ++ l2), s2. split; [apply only_go_app; assumption|]. split; [rewrite run_app, R1; exact R2|]. split; [exact W2|].
  intros t x N. apply (F2 t x); [rewrite <- L2; apply nth_error_Some; congruence|exact N].
Qed.
(** exceptions come from the locks only *)
Lemma run_thrown l : forall s s', Inv s -> run l s = Moved s' ->
  (forall t x, nth_error (ths s) t = Some x -> pc x <> E1 /\ pc x <> E2 /\ forall c, ~ In (c, Thrown) (finished x)) -> (forall t, ~ In (t, Raise) l) ->
  forall t x c, nth_error (ths s') t = Some x -> ~ In (c, Thrown) (finished x).
Proof.
  induction l as [|[t e] l IH]; intros s s' W E H NR; cbn [run] in E; [injection E as <-; intros t x c N; apply (H t x N)|].
  pose proof (step_ok t e s W) as Q. destruct (step t e s) as [s1| |]; try discriminate. destruct Q as (W1 & x & x' & N & T & _ & _ & _ & _ & _ & F & EE).
  assert (NE : e <> Raise) by (intros ->; apply (NR t); left; reflexivity). apply (IH s1 s' W1 E); [|intros u I; apply (NR u); right; exact I].
  intros u y U. rewrite T in U. apply nth_upd in U. destruct U as [(-> & -> & _)|(_ & U)]; [|apply (H u y U)]. destruct (H t x N) as (H1 & H2 & H3). split; [intros P; apply NE, EE; auto|]. split; [intros P; apply NE, EE; auto|].
  intros c I. apply (H3 c). apply F; auto.
Qed.
