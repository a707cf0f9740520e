(** Lemmas about the parallel executor. *)
From Coq Require Import ZArith Lia.
From Verif Require Import Common ParExec_Model.
Import ListNotations.
Local Open Scope Z_scope.

Fixpoint zsum (f : wpc -> Z) (l : list wpc) : Z := match l with [] => 0 | p :: l => f p + zsum f l end.
Lemma zsum_upd f l : forall c p q, nth_error l c = Some p -> zsum f (upd l c q) = zsum f l - f p + f q.
Proof.
  induction l as [|x l IH]; intros [|c] p q H; cbn [nth_error upd zsum] in *; try discriminate.
  - injection H as ->. lia.
  - rewrite (IH c p q H). lia.
Qed.
Lemma zsum_app f a b : zsum f (a ++ b) = zsum f a + zsum f b.
Proof. induction a as [|x a IH]; cbn [app zsum]; [reflexivity|]. rewrite IH. lia. Qed.
Lemma zsum_map f g l : (forall p, f (g p) = f p) -> zsum f (map g l) = zsum f l.
Proof. intros E. induction l as [|x l IH]; cbn [map zsum]; [reflexivity|]. rewrite IH, E. reflexivity. Qed.
Lemma zsum_pos f l : (forall p, 0 <= f p) -> 0 <= zsum f l.
Proof. intros F. induction l as [|y l IH]; cbn [zsum]; [lia|]. specialize (F y). lia. Qed.
Lemma zsum_le f l : forall c p, (forall p, 0 <= f p) -> nth_error l c = Some p -> f p <= zsum f l.
Proof.
  induction l as [|x l IH]; intros [|c] p F H; cbn [nth_error zsum] in *; try discriminate.
  - injection H as ->. pose proof (zsum_pos f l F). lia.
  - specialize (IH c p F H). specialize (F x). lia.
Qed.
Lemma zsum_mono f g l : (forall p, f p <= g p) -> zsum f l <= zsum g l.
Proof. intros F. induction l as [|y l IH]; cbn [zsum]; [lia|]. specialize (F y). lia. Qed.

Definition one (a b : nat) : Z := if Nat.eqb a b then 1 else 0.
(** the worker has the action of the caller, who still waits *)
Definition early (a : nat) (p : wpc) : Z :=
  match p with Rem b | Inc b | Clone _ b | Notify _ b => one a b | _ => 0 end.
(** the worker is about to execute the action *)
Definition works (a : nat) (p : wpc) : Z := match p with Work _ b => one a b | _ => 0 end.
Definition actZ (a : nat) (o : option nat) : Z := match o with Some b => one a b | None => 0 end.
Definition cnt (a : nat) (l : list nat) : Z := Z.of_nat (count_occ Nat.eq_dec l a).
Lemma cnt_cons a x l : cnt a (x :: l) = one a x + cnt a l.
Proof. unfold cnt, one. cbn [count_occ]. destruct (Nat.eq_dec x a) as [E|E], (Nat.eqb_spec a x); try congruence; lia. Qed.
Lemma cnt_pos a l : 0 <= cnt a l.
Proof. unfold cnt. lia. Qed.
Lemma one_pos a b : 0 <= one a b <= 1.
Proof. unfold one. destruct (_ =? _)%nat; lia. Qed.
Lemma one_refl a : one a a = 1.
Proof. unfold one. rewrite Nat.eqb_refl. reflexivity. Qed.
Lemma one_ne a b : a <> b -> one a b = 0.
Proof. intros N. unfold one. destruct (Nat.eqb_spec a b); [contradiction|reflexivity]. Qed.
Lemma early_pos a p : 0 <= early a p.
Proof. destruct p; cbn [early]; try lia; apply one_pos. Qed.
Lemma works_pos a p : 0 <= works a p.
Proof. destruct p; cbn [works]; try lia; apply one_pos. Qed.
Lemma actZ_pos a o : 0 <= actZ a o.
Proof. destruct o; cbn [actZ]; [apply one_pos|lia]. Qed.

(** actions that were given to the workers and not withdrawn *)
Definition pre (a : nat) (c : cpc) : bool := match c with SetNtf b | SetAct b => Nat.eqb a b | _ => false end.
Definition withdrawn (a : nat) (d : list (nat * bool)) : bool := existsb (fun x => Nat.eqb a (fst x) && negb (snd x)) d.
Definition want (a n : nat) (c : cpc) (d : list (nat * bool)) : Z :=
  if ((a <? n)%nat && negb (pre a c) && negb (withdrawn a d))%bool then 1 else 0.
Lemma valid_one a b c : valid a c = true -> valid b c = true -> a = b.
Proof. destruct c; cbn [valid]; try discriminate; rewrite !Nat.eqb_eq; congruence. Qed.

Record inv (s : st) : Prop := {
  i_tok : forall a, actZ a (act s) + zsum (early a) (ws s) + zsum (works a) (ws s) + cnt a (ran s) = want a (next s) (call s) (done s);
  i_hold : forall a, 0 < actZ a (act s) + zsum (early a) (ws s) -> valid a (call s) = true /\ ntf s = Some false;
  i_conv : forall a, valid a (call s) = true -> ntf s = Some false -> 0 < actZ a (act s) + zsum (early a) (ws s);
  i_open : forall a, valid a (call s) = true -> ntf s <> None;
  i_fresh : forall a, call s = SetAct a -> ntf s = Some false;
  i_low : forall a, valid a (call s) = true \/ pre a (call s) = true -> (a < next s)%nat;
  i_done : forall a r, In (a, r) (done s) -> (a < next s)%nat /\ valid a (call s) = false /\ pre a (call s) = false;
  i_uniq : NoDup (map fst (done s)) }.

Lemma init_inv : inv init.
Proof. split; cbn; try (intros; lia); try easy; try (intros ? [?|?]; discriminate); constructor. Qed.

Ltac sums E := repeat rewrite (zsum_upd _ _ _ _ _ E); cbn [early works actZ]; rewrite ?cnt_cons.
Lemma wstep_ok k w b s : inv s -> exists s', wstep k w b s = Ok s' /\ inv s' /\
  call s' = call s /\ next s' = next s /\ done s' = done s /\ stop s' = stop s /\ fin s' = fin s.
Proof.
  intros V. unfold wstep. destruct (nth_error (ws s) w) as [p|] eqn:E; [|exists s; auto 10].
  assert (EE : forall a, early a p <= zsum (early a) (ws s)) by (intros a; apply (zsum_le _ _ w p); [apply early_pos|exact E]).
  pose proof (i_tok _ V) as T. pose proof (i_hold _ V) as H. pose proof (i_conv _ V) as CV. pose proof (i_open _ V) as O. pose proof (i_fresh _ V) as F. pose proof (i_low _ V) as L. pose proof (i_done _ V) as D. pose proof (i_uniq _ V) as U.
  assert (HH : forall a, 0 < early a p -> valid a (call s) = true /\ ntf s = Some false).
  { intros a P. apply H. pose proof (EE a). pose proof (actZ_pos a (act s)). lia. }
  destruct p; cbn [early] in *;
  try (eexists; split; [reflexivity|]; split; [|repeat split]; split; cbn; auto; intros a0; sums E; specialize (T a0); specialize (H a0); pose proof (one_pos a0); rewrite ?Z.add_0_r, ?Z.sub_0_r; first [lia|intros; apply H; lia|intros X Y; specialize (CV _ X Y); cbn [actZ] in *; lia]).
  - (* Top *) eexists; split; [reflexivity|]; split; [|repeat split]. destruct (fin s || stop s); (split; cbn; auto; intros a0; sums E; specialize (T a0); specialize (H a0); [lia|intros; apply H; lia|intros X Y; specialize (CV _ X Y); cbn [actZ] in *; lia]).
  - (* Take *) destruct (act s) as [a1|] eqn:A; (eexists; split; [reflexivity|]; split; [|repeat split]; split; cbn; auto; rewrite ?A; intros a0; sums E; specialize (T a0); specialize (H a0); cbn [actZ] in *; [lia|intros; apply H; lia|intros X Y; specialize (CV _ X Y); cbn [actZ] in *; lia]).
  - destruct (act s) as [a1|] eqn:A; (eexists; split; [reflexivity|]; split; [|repeat split]; split; cbn; auto; rewrite ?A; intros a0; sums E; specialize (T a0); specialize (H a0); cbn [actZ] in *; destruct ntfd; sums E; first [lia|intros; apply H; lia|intros X Y; specialize (CV _ X Y); cbn [actZ] in *; lia]).
  - (* Asleep *) destruct (b && _); [|exists s; auto 10]. eexists; split; [reflexivity|]; split; [|repeat split]. split; cbn; auto; intros a0; sums E; specialize (T a0); specialize (H a0); [lia|intros; apply H; lia|intros X Y; specialize (CV _ X Y); cbn [actZ] in *; lia].
  - (* Take3 *) destruct (act s) as [a1|] eqn:A; (eexists; split; [reflexivity|]; split; [|repeat split]; split; cbn; auto; rewrite ?A; intros a0; sums E; specialize (T a0); specialize (H a0); cbn [actZ] in *; [lia|intros; apply H; lia|intros X Y; specialize (CV _ X Y); cbn [actZ] in *; lia]).
  - (* Clone *) destruct (HH a) as [Q _]; [rewrite one_refl; lia|]. rewrite Q. eexists; split; [reflexivity|]; split; [|repeat split]. split; cbn; auto; intros a0; sums E; specialize (T a0); specialize (H a0); [lia|intros; apply H; lia|intros X Y; specialize (CV _ X Y); cbn [actZ] in *; lia].
  - (* Notify *) destruct (HH a) as [Q N]; [rewrite one_refl; lia|]. rewrite N. eexists; split; [reflexivity|]; split; [|repeat split].
    split; cbn; auto.
    + intros a0. sums E. specialize (T a0). lia.
    + intros a0. sums E. intros P. exfalso. destruct (Nat.eq_dec a0 a) as [->|NE].
      * specialize (T a). rewrite one_refl in P. pose proof (EE a). rewrite one_refl in H0. unfold want in T. pose proof (cnt_pos a (ran s)). pose proof (zsum_pos (works a) (ws s) (works_pos a)).
        destruct (_ && _)%bool in T; lia.
      * rewrite (one_ne _ _ NE) in P. destruct (H a0) as [Q' _]; [lia|]. apply NE. apply (valid_one _ _ _ Q' Q).
    + intros a0 _ X. discriminate X.
    + intros a0 _. discriminate.
    + intros a0 X. rewrite X in Q. discriminate Q.
  - (* End *) destruct (_ <? _); (eexists; split; [reflexivity|]; split; [|repeat split]; split; cbn; auto; intros a0; sums E; specialize (T a0); specialize (H a0); [lia|intros; apply H; lia|intros X Y; specialize (CV _ X Y); cbn [actZ] in *; lia]).
  - destruct (_ <? _); (eexists; split; [reflexivity|]; split; [|repeat split]; split; cbn; auto; intros a0; sums E; specialize (T a0); specialize (H a0); [lia|intros; apply H; lia|intros X Y; specialize (CV _ X Y); cbn [actZ] in *; lia]).
Qed.

(** the caller goes on without touching the action *)
Lemma move_ok s c' sl w' cu : inv s -> 
  (forall a, valid a c' = valid a (call s)) -> (forall a, pre a c' = pre a (call s)) -> (forall a, c' <> SetAct a) ->
  (forall a, zsum (early a) w' = zsum (early a) (ws s)) -> (forall a, zsum (works a) w' = zsum (works a) (ws s)) ->
  inv (mkSt (act s) (ntf s) sl cu (stop s) (fin s) w' c' (next s) (ran s) (done s)).
Proof.
  intros V EV EP EN E1 E2. destruct V as [T H CV O F L D U]. split; cbn [act ntf slots cur stop fin ws call next ran done]; auto.
  - intros a. rewrite E1, E2, T. unfold want. rewrite EP. reflexivity.
  - intros a. rewrite E1, EV. apply H.
  - intros a. rewrite E1, EV. apply CV.
  - intros a. rewrite EV. apply O.
  - intros a Q. destruct (EN a Q).
  - intros a. rewrite EV, EP. apply L.
  - intros a r. rewrite EV, EP. apply D.
Qed.
Lemma early_notify a p : early a (notify p) = early a p.
Proof. destruct p; reflexivity. Qed.
Lemma works_notify a p : works a (notify p) = works a p.
Proof. destruct p; reflexivity. Qed.
Lemma leave_ok s a (r : bool) : inv s -> valid a (call s) = true -> (forall b, 0 < zsum (early b) (ws s) + (if r then actZ b (act s) else 0) -> False) ->
  (r = false -> act s <> None) ->
  inv (leave a r (if r then s else setAct None s)).
Proof.
  intros [T H CV O F L D U] Q N A. 
  assert (ND : forall x, ~ In (a, x) (done s)). { intros x I. destruct (D a x I) as (_ & X & _). congruence. }
  assert (W : withdrawn a (done s) = false).
  { unfold withdrawn. destruct (existsb _ _) eqn:X; [|reflexivity]. apply existsb_exists in X. destruct X as ((x, y) & I & X). cbn [fst snd] in X. apply andb_prop in X. destruct X as [X _]. apply Nat.eqb_eq in X. subst x. destruct (ND _ I). }
  assert (P : forall b, pre b (call s) = false) by (intros b; destruct (call s); cbn [valid pre] in *; congruence).
  assert (LA : (a < next s)%nat) by (apply L; auto).
  unfold leave. destruct r; split; cbn [act ntf slots cur stop fin ws call next ran done setCall setNtf setDone setAct setCur valid pre map fst].
  - intros b. rewrite T. unfold want. rewrite P. cbn [pre withdrawn existsb fst snd negb]. rewrite andb_false_r. reflexivity.
  - intros b B. destruct (N b). lia.
  - intros b X; discriminate.
  - intros b X; discriminate.
  - intros b X; discriminate.
  - intros b [X|X]; discriminate.
  - intros b x [I|I]; [injection I as <- <-; auto|destruct (D _ _ I) as (X & _); auto].
  - constructor; [|exact U]. intros I. apply in_map_iff in I. destruct I as ((x, y) & E & I). cbn [fst] in E. subst x. destruct (ND _ I).
  - intros b. specialize (T b). unfold want in *. rewrite P in T. cbn [pre withdrawn existsb fst snd negb]. rewrite andb_true_r.
    destruct (act s) as [a'|] eqn:AE; [|destruct (A eq_refl eq_refl)]. destruct (H a') as [Q' _]; [cbn [actZ]; rewrite one_refl; pose proof (zsum_pos (early a') (ws s) (early_pos a')); lia|].
    pose proof (valid_one _ _ _ Q' Q). subst a'. cbn [actZ negb] in *. destruct (Nat.eqb_spec b a) as [->|NE].
    + rewrite one_refl in T. rewrite W in T. apply Nat.ltb_lt in LA. rewrite LA in *. cbn [andb orb negb] in *. lia.
    + rewrite (one_ne _ _ NE) in T. rewrite andb_true_r in T. cbn [orb andb]. exact T.
  - intros b B. cbn [actZ] in B. destruct (N b). lia.
  - intros b X; discriminate.
  - intros b X; discriminate.
  - intros b X; discriminate.
  - intros b [X|X]; discriminate.
  - intros b x [I|I]; [injection I as <- <-; auto|destruct (D _ _ I) as (X & _); auto].
  - constructor; [|exact U]. intros I. apply in_map_iff in I. destruct I as ((x, y) & E & I). cbn [fst] in E. subst x. destruct (ND _ I).
Qed.
Ltac mv V C := apply (move_ok _ _ _ _ _ V); cbn [setCall setNtf setDone setAct setCur setWs setSlots setFin setPc ws]; [intros; rewrite ?C; reflexivity|intros; rewrite ?C; reflexivity|intros; discriminate|intros; rewrite ?zsum_app; cbn [zsum early]; lia|intros; rewrite ?zsum_app; cbn [zsum works]; lia].
Lemma cstep_ok k b s : inv s -> exists s', cstep k b s = Ok s' /\ inv s'.
Proof.
  intros V. unfold cstep. pose proof V as V0. destruct V0 as [T H CV O F L D U]. destruct (call s) as [|a|a|a|a ct inf|a ct inf|a|a|a ct inf| | |] eqn:C.
  - exists s; auto.
  - eexists; split; [reflexivity|]. split; cbn; auto.
    all: try (intros; discriminate).
    intros a0 P. destruct (H a0 P) as [X _]. discriminate X.
  - eexists; split; [reflexivity|]. assert (LA : (a < next s)%nat) by (apply L; right; cbn; apply Nat.eqb_refl).
    assert (Z : forall a0, actZ a0 (act s) + zsum (early a0) (ws s) = 0).
    { intros a0. destruct (Z_lt_le_dec 0 (actZ a0 (act s) + zsum (early a0) (ws s))) as [P|P]; [destruct (H a0 P); discriminate|].
      pose proof (actZ_pos a0 (act s)). pose proof (zsum_pos (early a0) (ws s) (early_pos a0)). lia. }
    assert (W : withdrawn a (done s) = false).
    { unfold withdrawn. destruct (existsb _ _) eqn:X; [|reflexivity]. apply existsb_exists in X. destruct X as ((x, y) & I & X). cbn [fst snd] in X. apply andb_prop in X. destruct X as [X _]. apply Nat.eqb_eq in X. subst x.
      destruct (D _ _ I) as (_ & _ & Y). cbn [pre] in Y. rewrite Nat.eqb_refl in Y. discriminate. }
    split; cbn [act ntf slots cur stop fin ws call next ran done setCall setNtf setDone setAct setCur actZ].
    + intros a0. specialize (T a0). specialize (Z a0). unfold want in *. cbn [pre negb] in *. destruct (Nat.eqb_spec a0 a) as [X|NE].
      * subst a0. rewrite one_refl, W. apply Nat.ltb_lt in LA. rewrite LA in *. cbn [andb negb] in *. pose proof (actZ_pos a (act s)). pose proof (zsum_pos (early a) (ws s) (early_pos a)). lia.
      * rewrite (one_ne _ _ NE). cbn [negb] in T. pose proof (actZ_pos a0 (act s)). pose proof (zsum_pos (early a0) (ws s) (early_pos a0)). lia.
    + intros a0 P. split; [|apply (F a eq_refl)]. cbn [valid]. specialize (Z a0). pose proof (actZ_pos a0 (act s)). unfold one in P. destruct (a0 =? a)%nat; [reflexivity|lia].
    + intros a0 X _. cbn [valid] in X. apply Nat.eqb_eq in X. subst a0. rewrite one_refl. pose proof (zsum_pos (early a) (ws s) (early_pos a)). lia.
    + intros a0 _. rewrite (F a eq_refl). discriminate.
    + intros; discriminate.
    + intros a0 [X|X]; [cbn [valid] in X; apply Nat.eqb_eq in X; subst; exact LA|discriminate].
    + intros a0 r I. destruct (D _ _ I) as (X & _ & Y). cbn [valid pre] in *. auto.
    + exact U.
  - destruct (slots s) as [|w l] eqn:S; (eexists; split; [reflexivity|]).
    + mv V C.
    + cbn [setSlots ws]. destruct (nth_error (ws s) w) as [p|] eqn:E.
      * apply (move_ok _ _ _ _ _ V); cbn [setCall setNtf setDone setAct setCur setWs setSlots setFin setPc ws]; [intros; rewrite ?C; reflexivity|intros; rewrite ?C; reflexivity|intros; discriminate|intros; rewrite (zsum_upd _ _ _ _ _ E), early_notify; lia|intros; rewrite (zsum_upd _ _ _ _ _ E), works_notify; lia].
      * mv V C.
  - destruct ct; [destruct b; [destruct (canStart k s)|]|destruct (b && _ && _); [destruct (act s) as [a'|] eqn:A|]]; (eexists; split; [reflexivity|]); try mv V C.
    apply (leave_ok s a false V); [rewrite C; apply Nat.eqb_refl| |rewrite A; discriminate].
    intros b0 P. rewrite Z.add_0_r in P. destruct (H b0) as [Q _]; [pose proof (actZ_pos b0 (Some a')); lia|].
    destruct (H a') as [Q' _]; [cbn [actZ]; rewrite one_refl; pose proof (zsum_pos (early a') (ws s) (early_pos a')); lia|].
    pose proof (valid_one _ _ _ Q Q'). subst b0. specialize (T a'). cbn [actZ] in T. rewrite one_refl in T. unfold want in T.
    pose proof (cnt_pos a' (ran s)). pose proof (zsum_pos (works a') (ws s) (works_pos a')). destruct (_ && _)%bool in T; lia.
  - destruct (_ || _); [destruct (canStart k s)|]; (eexists; split; [reflexivity|]); mv V C.
  - eexists; split; [reflexivity|]; mv V C.
  - eexists; split; [reflexivity|]; mv V C.
  - destruct (ntf s) as [[]|] eqn:N.
    + eexists; split; [reflexivity|]. apply (leave_ok s a true V); [rewrite C; apply Nat.eqb_refl| |discriminate].
      intros b0 P. destruct (H b0) as [_ X]; [lia|]. discriminate.
    + destruct b; [|exists s; auto]. eexists; split; [reflexivity|]; mv V C.
    + destruct b; [|exists s; auto]. eexists; split; [reflexivity|]; mv V C.
  - eexists; split; [reflexivity|]. apply (move_ok _ _ _ _ _ V); cbn [setCall setNtf setDone setAct setCur setWs setSlots setFin setPc ws]; [intros; rewrite ?C; reflexivity|intros; rewrite ?C; reflexivity|intros; discriminate|intros; apply zsum_map; intros; apply early_notify|intros; apply zsum_map; intros; apply works_notify].
  - eexists; split; [reflexivity|]. split; cbn; auto. intros; discriminate.
  - destruct (forallb _ _); [|exists s; auto]. eexists; split; [reflexivity|]. split; cbn; auto. intros; discriminate.
Qed.
Lemma step_ok k e s : inv s -> exists s', step k e s = Ok s' /\ inv s'.
Proof.
  intros V. destruct e as [| |b|w b]; cbn [step].
  - destruct (call s) eqn:C; try (exists s; auto; fail). destruct V as [T H CV O F L D U]. eexists; split; [reflexivity|]. rewrite C in *. split; cbn [act ntf slots cur stop fin ws call next ran done setCall setNtf setDone setAct setCur setStop setNext valid pre].
    + intros a. rewrite T. unfold want. cbn [pre negb]. rewrite andb_true_r. destruct (Nat.eqb_spec a (next s)) as [->|NE]; cbn [negb andb]; rewrite ?andb_true_r, ?andb_false_r.
      * destruct (Nat.ltb_spec (next s) (next s)); [lia|reflexivity].
      * destruct (Nat.ltb_spec a (next s)), (Nat.ltb_spec a (S (next s))); try lia; reflexivity.
    + intros a P. destruct (H a P). discriminate.
    + intros; discriminate.
    + intros; discriminate.
    + intros; discriminate.
    + intros a [X|X]; [discriminate|]. apply Nat.eqb_eq in X. lia.
    + intros a r I. destruct (D _ _ I) as (X & _). repeat split; [lia|]. destruct (Nat.eqb_spec a (next s)); [lia|reflexivity].
    + exact U.
  - destruct (call s) eqn:C; try (exists s; auto; fail). destruct V as [T H CV O F L D U]. eexists; split; [reflexivity|]. rewrite C in *. split; cbn; auto. intros; discriminate.
  - apply cstep_ok, V.
  - destruct (wstep_ok k w b s V) as (s' & E & V' & _). exists s'. auto.
Qed.
Lemma run_ok k l : forall s, inv s -> exists s', run k l s = Ok s' /\ inv s'.
Proof.
  induction l as [|e l IH]; intros s V; cbn [run]; [exists s; auto|]. destruct (step_ok k e s V) as (s1 & E & V1). rewrite E. cbn [obind]. apply IH, V1.
Qed.
