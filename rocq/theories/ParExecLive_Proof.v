(** Lemmas about the parallel executor whose idle workers never end. *)
From Coq Require Import ZArith Lia ZifyBool.
From Verif Require Import Common ParExec_Model ParExec_Proof.
Import ListNotations.
Local Open Scope Z_scope.

Definition living (p : wpc) : Z := match p with Dead => 0 | _ => 1 end.
(** no longer counted *)
Definition gone (p : wpc) : Z := match p with Take3 | Inc _ | Quit => 1 | _ => 0 end.
Definition going (p : wpc) : Z := match p with Dec | Take3 | Inc _ | Quit => 1 | _ => 0 end.
Definition pend (c : cpc) : Z := match c with CountA _ | CountB _ => 1 | _ => 0 end.
Lemma living_pos p : 0 <= living p. Proof. destruct p; cbn; lia. Qed.
Lemma gone_pos p : 0 <= gone p. Proof. destruct p; cbn; lia. Qed.
Lemma going_pos p : 0 <= going p. Proof. destruct p; cbn; lia. Qed.
Lemma gone_living p : gone p <= living p. Proof. destruct p; cbn; lia. Qed.
Lemma gone_going p : gone p <= going p. Proof. destruct p; cbn; lia. Qed.

Record few (k : conf) (s : st) : Prop := {
  j_cnt : zsum living (ws s) - zsum gone (ws s) <= cur s + pend (call s);
  j_max : cur s + pend (call s) <= maxT k;
  j_live : zsum living (ws s) <= maxT k;
  j_fin : fin s = false -> zsum going (ws s) = 0;
  j_call : fin s = true -> call s = StopJoin }.
Lemma all_dead l : forallb isDead l = true -> zsum living l = 0 /\ zsum going l = 0.
Proof.
  induction l as [|x l IH]; cbn [forallb zsum]; [auto|]. intros H. apply andb_prop in H. destruct H as [H1 H2]. destruct x; try discriminate.
  destruct (IH H2). cbn [living going]. lia.
Qed.
Lemma init_few k : 0 <= maxT k -> few k init.
Proof. intros. split; cbn; auto; try lia; discriminate. Qed.
Ltac sm E := repeat rewrite (zsum_upd _ _ _ _ _ E); rewrite ?zsum_app; cbn [living gone going zsum pend].
Ltac cb := cbn [act ntf slots cur stop fin ws call next ran done setCall setNtf setDone setAct setCur setWs setSlots setFin setPc setStop setNext setRan leave pend].
Lemma few_step k e s s' : idleInf k = true -> inv s -> few k s -> step k e s = Ok s' -> few k s'.
Proof.
  intros K V [J1 J2 J3 J4 J5] E. pose proof (zsum_pos gone (ws s) gone_pos) as G0. pose proof (zsum_mono gone living (ws s) gone_living) as G1. pose proof (zsum_mono gone going (ws s) gone_going) as G2.
  destruct e as [| |b|w b]; cbn [step] in E.
  - destruct (call s) eqn:C; injection E as <-; try (split; rewrite ?C; assumption). cbn [pend] in *. split; cb; auto; intros F; specialize (J5 F); congruence.
  - destruct (call s) eqn:C; injection E as <-; try (split; rewrite ?C; assumption). cbn [pend] in *. split; cb; auto; intros F; specialize (J5 F); congruence.
  - unfold cstep in E. destruct (call s) as [|a|a|a|a ct inf|a ct inf|a|a|a ct inf| | |] eqn:C; cbn [pend] in *;
    try (assert (FF : fin s = false) by (destruct (fin s); [specialize (J5 eq_refl); congruence|reflexivity]); specialize (J4 FF)).
    + injection E as <-. split; rewrite ?C; auto; intros F; specialize (J5 F); congruence.
    + injection E as <-. split; cb; auto; intros; congruence.
    + injection E as <-. split; cb; auto; intros; congruence.
    + destruct (slots s) as [|w l]; injection E as <-; [split; cb; auto; intros; congruence|].
      cb. destruct (nth_error (ws s) w) as [p|] eqn:W; [|split; cb; auto; intros; congruence].
      assert (X : living (notify p) = living p /\ gone (notify p) = gone p /\ going (notify p) = going p) by (destruct p; auto). destruct X as (X1 & X2 & X3).
      split; cb; sm W; rewrite ?X1, ?X2, ?X3; try lia; intros; try congruence; lia.
    + destruct ct; [destruct b; [destruct (canStart k s) eqn:CS|]|destruct (b && _ && _); [destruct (act s)|]]; injection E as <-; try (split; cb; auto; intros; congruence).
      unfold canStart in CS. split; cb; sm CS; try lia; intros; try congruence; lia.
    + destruct (_ || _); [destruct (canStart k s) eqn:CS|]; injection E as <-; try (split; cb; auto; intros; congruence).
      unfold canStart in CS. split; cb; sm CS; try lia; intros; try congruence; lia.
    + injection E as <-. split; cb; try lia; intros; try congruence; lia.
    + injection E as <-. split; cb; try lia; intros; try congruence; lia.
    + destruct (ntf s) as [[]|]; [|destruct b|destruct b]; injection E as <-; split; cb; rewrite ?C; cbn [pend]; auto; intros; congruence.
    + injection E as <-. split; cb; rewrite ?(zsum_map living), ?(zsum_map gone), ?(zsum_map going) by (intros []; reflexivity); auto; intros; congruence.
    + injection E as <-. split; cb; auto; discriminate.
    + destruct (forallb isDead (ws s)) eqn:A; injection E as <-; [|split; rewrite ?C; auto]. apply all_dead in A. destruct A. split; cb; auto; discriminate.
  - assert (PP : 0 <= pend (call s)) by (destruct (call s); cbn; lia). unfold wstep in E. destruct (nth_error (ws s) w) as [p|] eqn:W; [|injection E as <-; split; assumption].
    assert (GW : going p <= zsum going (ws s)) by (apply (zsum_le _ _ w); [apply going_pos|exact W]).
    assert (GF : going p = 1 -> fin s = true) by (intros X; destruct (fin s); [reflexivity|]; specialize (J4 eq_refl); lia).
    rewrite K in E. cbn [negb orb] in E.
    destruct p as [| | |n|a| | | | |a|h a|h a|h a| | |].
    all: try (injection E as <-; split; cb; sm W; auto; try lia; intros F; specialize (J4 F); lia).
    + destruct (fin s || stop s); injection E as <-; split; cb; sm W; auto; try lia; intros F; specialize (J4 F); lia.
    + destruct (act s); injection E as <-; split; cb; sm W; auto; try lia; intros F; specialize (J4 F); lia.
    + destruct (act s); [|destruct n]; injection E as <-; split; cb; sm W; auto; try lia; intros F; specialize (J4 F); lia.
    + destruct (b && fin s) eqn:F; injection E as <-; [|split; assumption]. apply andb_prop in F. destruct F as [_ F].
      split; cb; sm W; auto; try lia; intros; congruence.
    + (* Take3 *) specialize (GF eq_refl). specialize (J5 GF). destruct (act s) as [a|] eqn:A; injection E as <-.
      * destruct (i_hold _ V a) as [Q _]; [rewrite A; cbn [actZ]; rewrite one_refl; pose proof (zsum_pos (early a) (ws s) (early_pos a)); lia|]. rewrite J5 in Q. discriminate.
      * split; cb; sm W; auto; try lia; intros; congruence.
    + (* Inc *) specialize (GF eq_refl). specialize (J5 GF). destruct (i_hold _ V a) as [Q _].
      { pose proof (zsum_le (early a) (ws s) w _ (early_pos a) W) as X. cbn [early] in X. rewrite one_refl in X. pose proof (actZ_pos a (act s)). lia. }
      rewrite J5 in Q. discriminate.
    + destruct (valid a (call s)); [|discriminate]. injection E as <-; split; cb; sm W; auto; try lia; intros F; specialize (J4 F); lia.
    + destruct (ntf s); [|discriminate]. injection E as <-; split; cb; sm W; auto; try lia; intros F; specialize (J4 F); lia.
    + destruct (_ <? _) eqn:X; injection E as <-; split; cb; sm W; auto; try lia; intros F; specialize (J4 F); lia.
    + specialize (GF eq_refl). specialize (J5 GF). destruct (_ <? _) eqn:X; injection E as <-; split; cb; sm W; auto; try lia; intros; congruence.
Qed.

(** without stopAll: workers are always counted, and one is awake when the caller waits *)
Definition awake (p : wpc) : Z := match p with Asleep => 0 | _ => 1 end.
Definition bad (p : wpc) : Z := match p with Dead => 1 | _ => 0 end.
Definition slp (p : wpc) : Z := match p with Asleep => 1 | _ => 0 end.
Lemma awake_pos p : 0 <= awake p. Proof. destruct p; cbn; lia. Qed.
Lemma slp_pos p : 0 <= slp p. Proof. destruct p; cbn; lia. Qed.
Lemma bad_pos p : 0 <= bad p. Proof. destruct p; cbn; lia. Qed.
Lemma awake_slp l : zsum awake l = Z.of_nat (length l) - zsum slp l.
Proof. induction l as [|x l IH]; cbn [zsum length]; [reflexivity|]. rewrite IH. destruct x; cbn [awake slp]; lia. Qed.
Lemma living_bad l : zsum living l = Z.of_nat (length l) - zsum bad l.
Proof. induction l as [|x l IH]; cbn [zsum length]; [reflexivity|]. rewrite IH. destruct x; cbn [living bad]; lia. Qed.
Definition inslot (p : wpc) : Prop := p = Asleep \/ p = Take2 false \/ exists a, p = Rem a.
Definition notstop (c : cpc) : Prop := match c with StopNotify | StopFinish | StopJoin => False | _ => True end.
Record ready (k : conf) (s : st) : Prop := {
  r_run : stop s = false /\ fin s = false /\ notstop (call s);
  r_bad : zsum bad (ws s) = 0;
  r_len : Z.of_nat (length (ws s)) = cur s + pend (call s);
  r_reg : forall w p, nth_error (ws s) w = Some p -> p = Asleep \/ p = Take2 false -> In w (slots s);
  r_slot : forall w, In w (slots s) -> exists p, nth_error (ws s) w = Some p /\ inslot p;
  r_nodup : NoDup (slots s);
  r_awake : act s <> None ->
    match call s with
    | Wake _ => True
    | Loop _ true _ | Check _ true _ | Sleep _ true _ => zsum slp (ws s) = 0
    | _ => 0 < zsum awake (ws s)
    end }.
Lemma init_ready k : ready k init.
Proof. split; cbn; auto; try easy; try (intros [] ? H; discriminate); constructor. Qed.
Lemma nodup_remove (x : nat) l : NoDup l -> NoDup (remove Nat.eq_dec x l).
Proof.
  induction 1 as [|y l N U IH]; cbn [remove]; [constructor|]. destruct (Nat.eq_dec x y); [exact IH|]. constructor; [|exact IH].
  intros I. apply in_remove in I. tauto.
Qed.
Lemma upd_len {A} (l : list A) i x : length (upd l i x) = length l.
Proof. apply upd_length. Qed.
(** worker [w] goes on, its registration as [sl] says *)
Lemma wmove k s w p q ac nt sl ra : ready k s -> nth_error (ws s) w = Some p -> bad q = 0 ->
  (ac <> None -> act s <> None /\ awake p <= awake q /\ slp q <= slp p) ->
  (forall v, v <> w -> In v sl <-> In v (slots s)) -> NoDup sl ->
  (q = Asleep \/ q = Take2 false -> In w sl) -> (In w sl -> inslot q) ->
  ready k (mkSt ac nt sl (cur s) (stop s) (fin s) (upd (ws s) w q) (call s) (next s) ra (done s)).
Proof.
  intros [R1 R2 R3 R4 R5 R6 R7] W B A SV SN Q1 Q2. split; cb; auto.
  - rewrite (zsum_upd _ _ _ _ _ W). pose proof (zsum_le bad _ _ _ bad_pos W). pose proof (bad_pos p). lia.
  - rewrite upd_len. exact R3.
  - intros v x H D. destruct (Nat.eq_dec v w) as [->|N].
    + rewrite nth_error_upd_eq in H by (apply nth_error_Some; congruence). injection H as <-. auto.
    + rewrite nth_error_upd_ne in H by auto. apply SV; [exact N|]. eapply R4; eauto.
  - intros v I. destruct (Nat.eq_dec v w) as [->|N].
    + rewrite nth_error_upd_eq by (apply nth_error_Some; congruence). eauto.
    + rewrite nth_error_upd_ne by auto. apply R5, SV; auto.
  - intros X. destruct (A X) as (Y & A1 & A2). specialize (R7 Y). pose proof (zsum_upd awake _ _ _ q W). pose proof (zsum_upd slp _ _ _ q W). pose proof (zsum_pos slp (upd (ws s) w q) slp_pos).
    destruct (call s) as [| | | |? [] ?|? [] ?| | |? [] ?| | |]; auto; lia.
Qed.
Ltac wm := auto; try easy; try (intros [X|X]; discriminate); try (cbn [awake slp]; intros; repeat split; try lia; try easy; tauto).
Lemma ready_wstep k w b s s' : idleInf k = true -> inv s -> few k s -> ready k s -> wstep k w b s = Ok s' -> ready k s'.
Proof.
  intros K V F R E. pose proof R as R0. destruct R0 as [(R1 & R1' & R1'') R2 R3 R4 R5 R6 R7]. pose proof (j_fin _ _ F R1') as J4. pose proof (j_max _ _ F) as J2.
  assert (PP : 0 <= pend (call s)) by (destruct (call s); cbn; lia).
  unfold wstep in E. destruct (nth_error (ws s) w) as [p|] eqn:W; [|injection E as <-; exact R].
  pose proof (zsum_le going _ _ _ going_pos W) as G. pose proof (zsum_le bad _ _ _ bad_pos W) as GB.
  rewrite K, R1, R1' in E. cbn [negb orb] in E.
  assert (NS : ~ inslot p -> ~ In w (slots s)). { intros X I. destruct (R5 w I) as (y & Y & Z). congruence. }
  assert (IS : inslot p -> In w (slots s) \/ exists a, p = Rem a). { intros [->|[->|[a ->]]]; [left; eapply R4; eauto|left; eapply R4; eauto|right; eauto]. }
  destruct p as [| | |n|a| | | | |a|h a|h a|h a| | |]; try (cbn [going bad] in *; lia).
  - assert (~ In w (slots s)) by (apply NS; intros [X|[X|[? X]]]; discriminate). injection E as <-. apply (wmove k s w Top); wm.
  - assert (~ In w (slots s)) by (apply NS; intros [X|[X|[? X]]]; discriminate). destruct (act s) eqn:A; injection E as <-; apply (wmove k s w Take); cb; rewrite ?A; wm.
  - assert (~ In w (slots s)) by (apply NS; intros [X|[X|[? X]]]; discriminate). injection E as <-. apply (wmove k s w Add); auto; try easy; cb.
    + intros v N. cbn [In]. split; [intros [X|X]; congruence|auto].
    + constructor; assumption.
    + intros _. left. reflexivity.
    + intros _. right; left. reflexivity.
  - destruct (act s) as [a|] eqn:A; injection E as <-; apply (wmove k s w (Take2 n)); auto; try easy; cb; rewrite ?A.
    + intros [X|X]; discriminate.
    + intros _. right; right; eauto.
    + destruct n; reflexivity.
    + destruct n; [intros [X|X]; discriminate|]. intros _. apply (R4 w (Take2 false) W). auto.
    + intros I. destruct n; [|left; reflexivity]. exfalso. destruct (R5 w I) as (y & Y & [X|[X|[? X]]]); congruence.
  - injection E as <-. apply (wmove k s w (Rem a)); auto; try easy; cb.
    + intros v N. split; intros I; [apply in_remove in I; tauto|apply in_in_remove; auto].
    + apply nodup_remove. exact R6.
    + intros [X|X]; discriminate.
    + intros I. apply in_remove in I. destruct I as [_ []]. reflexivity.
  - rewrite andb_false_r in E. injection E as <-. exact R.
  - assert (~ In w (slots s)) by (apply NS; intros [X|[X|[? X]]]; discriminate). injection E as <-. apply (wmove k s w Woken); wm.
  - assert (~ In w (slots s)) by (apply NS; intros [X|[X|[? X]]]; discriminate). destruct (valid a (call s)); [|discriminate]. injection E as <-. apply (wmove k s w (Clone h a)); wm.
  - assert (~ In w (slots s)) by (apply NS; intros [X|[X|[? X]]]; discriminate). destruct (ntf s); [|discriminate]. injection E as <-. apply (wmove k s w (Notify h a)); wm.
  - assert (~ In w (slots s)) by (apply NS; intros [X|[X|[? X]]]; discriminate). injection E as <-. apply (wmove k s w (Work h a)); wm.
  - assert (~ In w (slots s)) by (apply NS; intros [X|[X|[? X]]]; discriminate). destruct (_ <? _) eqn:L; [lia|]. injection E as <-. apply (wmove k s w End); wm.
Qed.
Lemma nth_app_top (l : list wpc) v x : nth_error (l ++ [Top]) v = Some x -> x = Asleep \/ x = Take2 false -> nth_error l v = Some x.
Proof.
  intros H D. destruct (Nat.lt_ge_cases v (length l)) as [Q|Q]; [rewrite nth_error_app1 in H by exact Q; exact H|].
  rewrite nth_error_app2 in H by exact Q. destruct (v - length l)%nat as [|n]; cbn [nth_error] in H; [injection H as <-; destruct D; discriminate|destruct n; discriminate].
Qed.
(** the caller goes on, perhaps with a new worker *)
Lemma cmove k s c' ac nt cu (add : bool) ne dn : ready k s -> notstop c' ->
  Z.of_nat (length (ws s)) + (if add then 1 else 0) = cu + pend c' ->
  (ac <> None ->
    match c' with
    | Wake _ => True
    | Loop _ true _ | Check _ true _ | Sleep _ true _ => zsum slp (ws s) = 0
    | _ => add = true \/ 0 < zsum awake (ws s)
    end) ->
  ready k (mkSt ac nt (slots s) cu false (fin s) (if add then ws s ++ [Top] else ws s) c' ne (ran s) dn).
Proof.
  intros [R1 R2 R3 R4 R5 R6 R7] N L A. split; cb; auto.
  - repeat split; [tauto|exact N].
  - destruct add; [rewrite zsum_app; cbn [zsum bad]; lia|exact R2].
  - destruct add; [rewrite app_length; cbn [length]; lia|lia].
  - destruct add; [|exact R4]. intros v x H D. apply (R4 v x); [|exact D]. apply nth_app_top; auto.
  - destruct add; [|exact R5]. intros v I. destruct (R5 v I) as (p & P & Q). exists p. split; [|exact Q]. rewrite nth_error_app1 by (apply nth_error_Some; congruence). exact P.
  - intros X. specialize (A X). assert (Y : zsum slp (if add then ws s ++ [Top] else ws s) = zsum slp (ws s)) by (destruct add; [rewrite zsum_app; cbn [zsum slp]; lia|reflexivity]).
    assert (Y' : zsum awake (if add then ws s ++ [Top] else ws s) = zsum awake (ws s) + (if add then 1 else 0)) by (destruct add; [rewrite zsum_app; cbn [zsum awake]; lia|lia]).
    pose proof (zsum_pos awake (ws s) awake_pos).
    destruct c' as [| | | |? [] ?|? [] ?| | |? [] ?| | |]; auto; try lia; destruct A as [A|A]; try rewrite A in *; lia.
Qed.
Lemma ready_step k e s s' : 1 <= maxT k -> idleInf k = true -> e <> Stop -> inv s -> few k s -> ready k s -> step k e s = Ok s' -> ready k s'.
Proof.
  intros M K NE V F R E. pose proof R as R0. destruct R0 as [(R1 & R1' & R1'') R2 R3 R4 R5 R6 R7].
  assert (NA : (forall a, valid a (call s) = false) -> act s = None).
  { intros N. destruct (act s) as [a|] eqn:A; [|reflexivity]. destruct (i_hold _ V a) as [Q _]; [rewrite A; cbn [actZ]; rewrite one_refl; pose proof (zsum_pos (early a) (ws s) (early_pos a)); lia|]. rewrite N in Q. discriminate. }
  pose proof (awake_slp (ws s)) as AS. pose proof (zsum_pos slp (ws s) slp_pos) as SP.
  destruct e as [| |b|w b]; cbn [step] in E; [|congruence| |eapply ready_wstep; eauto].
  - destruct (call s) eqn:C; injection E as <-; try exact R. cbn [pend] in R3. apply (cmove k s (SetNtf (next s)) (act s) (ntf s) (cur s) false); cbn [notstop pend]; auto; try lia; try solve [intros X; destruct X; apply NA; intros; reflexivity].
  - pose proof (j_max _ _ F) as J2. unfold cstep in E. destruct (call s) as [|a|a|a|a ct inf|a ct inf|a|a|a ct inf| | |] eqn:C; cbn [pend notstop] in *; try contradiction.
    + injection E as <-. exact R.
    + injection E as <-. unfold setCall, setNtf; cb. rewrite R1. apply (cmove k s (SetAct a) (act s) (Some false) (cur s) false); cbn [notstop pend]; auto; try lia; try solve [intros X; destruct X; apply NA; intros; reflexivity].
    + injection E as <-. unfold setCall, setAct; cb. rewrite R1. apply (cmove k s (Wake a) (Some a) (ntf s) (cur s) false); cbn [notstop pend]; auto. lia.
    + destruct (slots s) as [|w l] eqn:S; injection E as <-.
      * unfold setCall; cb. rewrite R1. apply (cmove k s (Loop a true false) (act s) (ntf s) (cur s) false); cbn [notstop pend]; auto; try lia. intros _.
        clear - R4. assert (Q : forall w, nth_error (ws s) w <> Some Asleep). { intros w X. exact (R4 w _ X (or_introl eq_refl)). }
        clear R4. induction (ws s) as [|p l IH]; cbn [zsum]; [reflexivity|]. rewrite IH by (intros w; apply (Q (S w))). specialize (Q O). cbn [nth_error] in Q. destruct p; cbn [slp]; try reflexivity; congruence.
      * destruct (R5 w (or_introl eq_refl)) as (p & P & IP). cb. rewrite P.
        apply (NoDup_cons_iff) in R6. destruct R6 as [R6 R6']. split; cb; auto.
        -- rewrite (zsum_upd _ _ _ _ _ P). destruct p; cbn [notify bad]; lia.
        -- rewrite upd_len. exact R3.
        -- intros v x H D. destruct (Nat.eq_dec v w) as [X|N].
           ++ subst v. rewrite nth_error_upd_eq in H by (apply nth_error_Some; congruence). injection H as <-. exfalso. destruct p; cbn [notify] in D; destruct D; discriminate.
           ++ rewrite nth_error_upd_ne in H by auto. destruct (R4 v x H D) as [X|X]; [congruence|exact X].
        -- intros v I. assert (N : v <> w) by congruence. rewrite nth_error_upd_ne by auto. apply R5. right. exact I.
        -- intros A. assert (X : awake (notify p) = 1). { destruct IP as [->|[->|[x ->]]]; reflexivity. }
           assert (LW : (w < length (ws s))%nat) by (apply nth_error_Some; congruence).
           pose proof (zsum_le awake (upd (ws s) w (notify p)) w (notify p) awake_pos (nth_error_upd_eq _ _ _ LW)). lia.
    + destruct ct; [destruct b; [destruct (canStart k s) eqn:CS|]|destruct (b && _ && _); [destruct (act s) eqn:A|]]; injection E as <-; unfold leave, setCall, setAct, setNtf, setDone, setWs; cb; rewrite R1; unfold canStart in *.
      * apply (cmove k s (CountA a) (act s) (ntf s) (cur s) true); cbn [notstop pend]; auto; lia.
      * apply (cmove k s (Check a false false) (act s) (ntf s) (cur s) false); cbn [notstop pend]; auto; try lia; try solve [intros X; specialize (R7 X); right; lia].
      * apply (cmove k s (Check a true inf) (act s) (ntf s) (cur s) false); cbn [notstop pend]; auto. lia.
      * apply (cmove k s Idle None None (cur s) false); cbn [notstop pend]; auto; try lia; try solve [congruence].
      * rewrite A. apply (cmove k s (Check a false true) None (ntf s) (cur s) false); cbn [notstop pend]; auto; try lia; try solve [congruence].
      * apply (cmove k s (Check a false inf) (act s) (ntf s) (cur s) false); cbn [notstop pend]; auto. lia.
    + destruct (_ || _) eqn:Q; [destruct (canStart k s) eqn:CS|]; injection E as <-; unfold leave, setCall, setAct, setNtf, setDone, setWs; cb; rewrite R1; unfold canStart in *.
      * apply (cmove k s (CountB a) (act s) (ntf s) (cur s) true); cbn [notstop pend]; auto; lia.
      * exfalso. assert (0 < cur s) by lia. assert (forallb isDead (ws s) = false).
        { pose proof (living_bad (ws s)). destruct (forallb isDead (ws s)) eqn:X; [|reflexivity]. apply all_dead in X. lia. }
        lia.
      * apply (cmove k s (Sleep a ct inf) (act s) (ntf s) (cur s) false); cbn [notstop pend]; auto; try lia; try solve [intros X; specialize (R7 X); destruct ct; auto].
    + injection E as <-; unfold setCall, setCur; cb. rewrite R1. apply (cmove k s (Check a false false) (act s) (ntf s) (cur s + 1) false); cbn [notstop pend]; auto. lia.
    + injection E as <-; unfold setCall, setCur; cb. rewrite R1. apply (cmove k s (Sleep a false false) (act s) (ntf s) (cur s + 1) false); cbn [notstop pend]; auto. lia.
    + destruct (ntf s) as [[]|] eqn:N; [|destruct b|destruct b]; injection E as <-; try exact R; unfold leave, setCall, setAct, setNtf, setDone, setWs; cb; rewrite R1.
      * apply (cmove k s Idle (act s) None (cur s) false); cbn [notstop pend]; auto; try lia. intros X. destruct (act s) as [a1|] eqn:A; [|congruence].
        destruct (i_hold _ V a1) as [_ Q]; [rewrite A; cbn [actZ]; rewrite one_refl; pose proof (zsum_pos (early a1) (ws s) (early_pos a1)); lia|]. congruence.
      * apply (cmove k s (Loop a ct inf) (act s) (ntf s) (cur s) false); cbn [notstop pend]; auto; try lia; try solve [intros X; specialize (R7 X); destruct ct; auto].
      * apply (cmove k s (Loop a ct inf) (act s) (ntf s) (cur s) false); cbn [notstop pend]; auto; try lia; try solve [intros X; specialize (R7 X); destruct ct; auto].
Qed.

Definition good (k : conf) (s : st) : Prop := inv s /\ few k s /\ ready k s.
Lemma good_init k : 1 <= maxT k -> good k init.
Proof. intros M. split; [apply init_inv|]. split; [apply init_few; lia|apply init_ready]. Qed.
Lemma good_step k e s s' : 1 <= maxT k -> idleInf k = true -> e <> Stop -> good k s -> step k e s = Ok s' -> good k s'.
Proof.
  intros M K N (V & F & R) E. split; [|split].
  - destruct (step_ok k e s V) as (x & X & Y). congruence.
  - eapply few_step; eauto.
  - eapply ready_step; eauto.
Qed.
Lemma good_run k l : forall s s', 1 <= maxT k -> idleInf k = true -> ~ In Stop l -> good k s -> run k l s = Ok s' -> good k s'.
Proof.
  induction l as [|e l IH]; intros s s' M K N G E; cbn [run] in E; [injection E as <-; exact G|].
  destruct (step k e s) as [s1| | |] eqn:X; try discriminate. cbn [obind] in E. cbn [In] in N. eapply (IH s1); eauto. eapply good_step; eauto.
Qed.

(** from [s] the call for [a] can still return, by steps of the caller and of workers *)
Definition internal (e : ev) : Prop := match e with Call _ | Wrk _ _ => True | _ => False end.
Definition returns (k : conf) (a : nat) (s : st) : Prop :=
  exists l s', Forall internal l /\ run k l s = Ok s' /\ In (a, true) (done s').
Lemma returns_step k a e s s1 : internal e -> step k e s = Ok s1 -> returns k a s1 -> returns k a s.
Proof. intros I E (l & s' & F & R & D). exists (e :: l), s'. split; [constructor; assumption|]. cbn [run]. rewrite E. auto. Qed.
Ltac go e := eapply (returns_step _ _ e); [exact I|cbn [step]; unfold cstep, wstep|].
Section ret.
Variable k : conf.
Lemma ret_sleep a ct inf s : call s = Sleep a ct inf -> ntf s = Some true -> returns k a s.
Proof. intros C N. exists [Call false]. eexists. split; [repeat constructor|]. cbn [run step]. unfold cstep. rewrite C, N. split; [reflexivity|]. left. reflexivity. Qed.
Lemma ret_countB a s : call s = CountB a -> ntf s = Some true -> returns k a s.
Proof. intros C N. go (Call false); [rewrite C; reflexivity|]. eapply ret_sleep; [reflexivity|exact N]. Qed.
Lemma ret_check a ct inf s : call s = Check a ct inf -> ntf s = Some true -> returns k a s.
Proof.
  intros C N. destruct (forallb isDead (ws s) || (cur s =? 0)) eqn:Q; [destruct (canStart k s) eqn:CS|].
  - go (Call false); [rewrite C, Q, CS; reflexivity|]. apply ret_countB; [reflexivity|exact N].
  - go (Call false); [rewrite C, Q, CS; reflexivity|]. eapply ret_sleep; [reflexivity|exact N].
  - go (Call false); [rewrite C, Q; reflexivity|]. eapply ret_sleep; [reflexivity|exact N].
Qed.
Lemma ret_countA a s : call s = CountA a -> ntf s = Some true -> returns k a s.
Proof. intros C N. go (Call false); [rewrite C; reflexivity|]. eapply ret_check; [reflexivity|exact N]. Qed.
Lemma ret_loop a ct inf s : call s = Loop a ct inf -> ntf s = Some true -> returns k a s.
Proof. intros C N. go (Call false); [rewrite C; destruct ct; reflexivity|]. eapply ret_check; [reflexivity|exact N]. Qed.
Lemma ret_wake a s : call s = Wake a -> ntf s = Some true -> returns k a s.
Proof.
  intros C N. destruct (slots s) as [|w l] eqn:S.
  - go (Call false); [rewrite C, S; reflexivity|]. eapply ret_loop; [reflexivity|exact N].
  - go (Call false); [rewrite C, S; reflexivity|]. eapply ret_loop; [reflexivity|]. cb. destruct (nth_error _ _); exact N.
Qed.
Lemma ret_signalled a s : valid a (call s) = true -> ntf s = Some true -> returns k a s.
Proof.
  intros V N. destruct (call s) as [|b|b|b|b ct inf|b ct inf|b|b|b ct inf| | |] eqn:C; cbn [valid] in V; try discriminate; apply Nat.eqb_eq in V; subst b;
  eauto using ret_wake, ret_loop, ret_check, ret_countA, ret_countB, ret_sleep.
Qed.

Hypothesis M : 1 <= maxT k.
Hypothesis K : idleInf k = true.
Lemma nth_upd (l : list wpc) w p q : nth_error l w = Some p -> nth_error (upd l w q) w = Some q.
Proof. intros W. apply nth_error_upd_eq, nth_error_Some. congruence. Qed.
Lemma ret_notify a h w s : valid a (call s) = true -> ntf s <> None -> nth_error (ws s) w = Some (Notify h a) -> returns k a s.
Proof.
  intros V N W. destruct (ntf s) as [x|] eqn:X; [|congruence]. go (Wrk w false); [rewrite W, X; reflexivity|]. apply ret_signalled; [exact V|reflexivity].
Qed.
Lemma ret_clone a h w s : valid a (call s) = true -> ntf s <> None -> nth_error (ws s) w = Some (Clone h a) -> returns k a s.
Proof.
  intros V N W. go (Wrk w false); [rewrite W, V; reflexivity|]. apply (ret_notify a h w); [exact V|exact N|]. cb. apply (nth_upd _ _ _ _ W).
Qed.
Lemma ret_early a w p s : valid a (call s) = true -> ntf s <> None -> nth_error (ws s) w = Some p -> 0 < early a p -> returns k a s.
Proof.
  intros V N W E. assert (Q : forall b, 0 < one a b -> b = a). { intros b X. unfold one in X. destruct (Nat.eqb_spec a b); [auto|lia]. }
  destruct p as [| | |n|b| | | | |b|h b|h b|h b| | |]; cbn [early] in E; try lia; apply Q in E; subst b.
  - go (Wrk w false); [rewrite W; reflexivity|]. eapply (ret_clone a Plain w); [exact V|exact N|]. cb. apply (nth_upd _ _ _ _ W).
  - go (Wrk w false); [rewrite W; reflexivity|]. eapply (ret_clone a Again w); [exact V|exact N|]. cb. apply (nth_upd _ _ _ _ W).
  - eapply ret_clone; eauto.
  - eapply ret_notify; eauto.
Qed.
Lemma ret_take a w s : good k s -> act s = Some a -> nth_error (ws s) w = Some Take -> returns k a s.
Proof.
  intros (V & _) A W. destruct (i_hold _ V a) as [Q N]; [rewrite A; cbn [actZ]; rewrite one_refl; pose proof (zsum_pos (early a) (ws s) (early_pos a)); lia|].
  go (Wrk w false); [rewrite W, A; reflexivity|]. apply (ret_clone a Plain w); cb; [exact Q|congruence|]. apply (nth_upd _ _ _ _ W).
Qed.
Lemma ret_top a w s : good k s -> act s = Some a -> nth_error (ws s) w = Some Top -> returns k a s.
Proof.
  intros G A W. pose proof G as (V & F & R). destruct (r_run _ _ R) as (S & FI & _).
  assert (E : step k (Wrk w false) s = Ok (setPc w Take s)) by (cbn [step]; unfold wstep; rewrite W, S, FI; reflexivity).
  eapply (returns_step _ _ (Wrk w false)); [exact I|exact E|]. apply (ret_take a w); [eapply good_step; eauto; discriminate|exact A|]. cb. apply (nth_upd _ _ _ _ W).
Qed.
Lemma ret_end a w s : good k s -> act s = Some a -> nth_error (ws s) w = Some End -> returns k a s.
Proof.
  intros G A W. pose proof G as (V & F & R). pose proof (j_max _ _ F) as J. assert (PP : 0 <= pend (call s)) by (destruct (call s); cbn; lia).
  assert (E : step k (Wrk w false) s = Ok (setPc w Top s)) by (cbn [step]; unfold wstep; rewrite W; destruct (_ <? _) eqn:X; [lia|reflexivity]).
  eapply (returns_step _ _ (Wrk w false)); [exact I|exact E|]. apply (ret_top a w); [eapply good_step; eauto; discriminate|exact A|]. cb. apply (nth_upd _ _ _ _ W).
Qed.
Lemma ret_awake a w p s : good k s -> act s = Some a -> nth_error (ws s) w = Some p -> awake p = 1 -> returns k a s.
Proof.
  intros G A W AW. pose proof G as (V & F & R). destruct (i_hold _ V a) as [Q N]; [rewrite A; cbn [actZ]; rewrite one_refl; pose proof (zsum_pos (early a) (ws s) (early_pos a)); lia|].
  pose proof (j_fin _ _ F (proj1 (proj2 (r_run _ _ R)))) as J4. pose proof (r_bad _ _ R) as RB.
  pose proof (zsum_le going _ _ _ going_pos W) as GG. pose proof (zsum_le bad _ _ _ bad_pos W) as GB.
  assert (EQ : forall b, early b p = 1 -> a = b).
  { intros b X. destruct (i_hold _ V b) as [Q' _]; [pose proof (zsum_le (early b) _ _ _ (early_pos b) W); pose proof (actZ_pos b (act s)); lia|]. apply (valid_one _ _ _ Q Q'). }
  assert (ER : forall b, early b p = 1 -> returns k a s).
  { intros b X. pose proof (EQ b X). subst b. apply (ret_early a w p); auto; [congruence|lia]. }
  destruct p as [| | |n|b| | | | |b|h b|h b|h b| | |]; cbn [awake going bad early] in *; try discriminate; try lia.
  - eapply ret_top; eauto.
  - eapply ret_take; eauto.
  - go (Wrk w false); [rewrite W; reflexivity|]. go (Wrk w false); [cb; rewrite (nth_upd _ _ _ _ W), A; reflexivity|].
    apply (ret_early a w (Rem a)); cb; [exact Q|congruence| |cbn [early]; rewrite one_refl; lia]. apply (nth_upd _ _ (Take2 false)). apply (nth_upd _ _ _ _ W).
  - go (Wrk w false); [rewrite W, A; reflexivity|]. apply (ret_early a w (Rem a)); cb; [exact Q|congruence|apply (nth_upd _ _ _ _ W)|cbn [early]; rewrite one_refl; lia].
  - apply (ER b). apply one_refl.
  - assert (E : step k (Wrk w false) s = Ok (setPc w End s)) by (cbn [step]; unfold wstep; rewrite W; reflexivity).
    eapply (returns_step _ _ (Wrk w false)); [exact I|exact E|]. apply (ret_end a w); [eapply good_step; eauto; discriminate|exact A|]. cb. apply (nth_upd _ _ _ _ W).
  - apply (ER b). apply one_refl.
  - apply (ER b). apply one_refl.
  - assert (E : step k (Wrk w false) s = Ok (setPc w End (setRan (b :: ran s) s))) by (cbn [step]; unfold wstep; rewrite W; reflexivity).
    eapply (returns_step _ _ (Wrk w false)); [exact I|exact E|]. apply (ret_end a w); [eapply good_step; eauto; discriminate|exact A|]. cb. apply (nth_upd _ _ _ _ W).
  - eapply ret_end; eauto.
Qed.
Lemma pick (f : wpc -> Z) l : (forall p, f p <= 1) -> 0 < zsum f l -> exists w p, nth_error l w = Some p /\ 0 < f p.
Proof.
  clear M K. intros B. induction l as [|x l IH]; cbn [zsum]; [lia|]. intros H. destruct (Z_lt_le_dec 0 (f x)) as [X|X]; [exists O, x; auto|].
  destruct IH as (w & p & W & P); [lia|]. exists (S w), p. auto.
Qed.
Lemma awake_le p : awake p <= 1. Proof. destruct p; cbn; lia. Qed.
Lemma ret_some a s : good k s -> act s = Some a -> 0 < zsum awake (ws s) -> returns k a s.
Proof. intros G A P. destruct (pick awake (ws s) awake_le P) as (w & p & W & Q). apply (ret_awake a w p); auto. pose proof (awake_le p). lia. Qed.
(** one step of the caller, after which a worker is awake or the call is further *)
Lemma ret_call a b s s1 : good k s -> step k (Call b) s = Ok s1 -> (good k s1 -> returns k a s1) -> returns k a s.
Proof. intros G E H. eapply (returns_step _ _ (Call b)); [exact I|exact E|]. apply H. eapply good_step; eauto. discriminate. Qed.
Lemma ret_act_loop a ct inf s : good k s -> act s = Some a -> call s = Loop a ct inf -> returns k a s.
Proof.
  intros G A C. destruct ct.
  - assert (E : exists s1, step k (Call true) s = Ok s1 /\ act s1 = Some a /\ (call s1 = CountA a \/ call s1 = Check a false false)).
    { cbn [step]. unfold cstep. rewrite C. destruct (canStart k s); eexists; split; try reflexivity; cb; auto. }
    destruct E as (s1 & E & A1 & C1). apply (ret_call a true s s1 G E). intros G1. apply ret_some; auto.
    pose proof G1 as (_ & _ & R1). pose proof (r_awake _ _ R1) as X. rewrite A1 in X. destruct C1 as [C1|C1]; rewrite C1 in X; apply X; discriminate.
  - apply ret_some; auto. pose proof G as (_ & _ & R). pose proof (r_awake _ _ R) as X. rewrite A, C in X. apply X. discriminate.
Qed.
Lemma ret_act_sleep a ct inf s : good k s -> act s = Some a -> call s = Sleep a ct inf -> ntf s = Some false -> returns k a s.
Proof.
  intros G A C N. apply (ret_call a true s (setCall (Loop a ct inf) s) G); [cbn [step]; unfold cstep; rewrite C, N; reflexivity|].
  intros G1. eapply ret_act_loop; [exact G1|exact A|reflexivity].
Qed.
Lemma ret_act a s : good k s -> act s = Some a -> valid a (call s) = true -> ntf s = Some false -> returns k a s.
Proof.
  intros G A V N. pose proof G as (_ & _ & R). pose proof (r_awake _ _ R) as X. rewrite A in X. specialize (X ltac:(discriminate)).
  destruct (call s) as [|b|b|b|b ct inf|b ct inf|b|b|b ct inf| | |] eqn:C; cbn [valid] in V; try discriminate; apply Nat.eqb_eq in V; subst b.
  - destruct (slots s) as [|w l] eqn:S.
    + apply (ret_call a false s (setCall (Loop a true false) s) G); [cbn [step]; unfold cstep; rewrite C, S; reflexivity|]. intros G1. eapply ret_act_loop; [exact G1|exact A|reflexivity].
    + eapply (ret_call a false s); [exact G|cbn [step]; unfold cstep; rewrite C, S; reflexivity|]. intros G1. eapply ret_act_loop; [exact G1| |reflexivity]. cb. destruct (nth_error _ _); exact A.
  - eapply ret_act_loop; eauto.
  - destruct ct; [|apply ret_some; auto].
    destruct (forallb isDead (ws s) || (cur s =? 0)) eqn:Q; [destruct (canStart k s) eqn:CS|].
    + eapply (ret_call a false s); [exact G|cbn [step]; unfold cstep; rewrite C, Q, CS; reflexivity|]. intros G1. apply ret_some; [exact G1|exact A|]. destruct G1 as (_ & _ & R1). apply (r_awake _ _ R1). cb. rewrite A. discriminate.
    + eapply (ret_call a false s); [exact G|cbn [step]; unfold cstep; rewrite C, Q, CS; reflexivity|]. intros G1. eapply ret_act_sleep; [exact G1|exact A|reflexivity|exact N].
    + eapply (ret_call a false s); [exact G|cbn [step]; unfold cstep; rewrite C, Q; reflexivity|]. intros G1. eapply ret_act_sleep; [exact G1|exact A|reflexivity|exact N].
  - apply ret_some; auto.
  - apply ret_some; auto.
  - eapply ret_act_sleep; eauto.
Qed.
Lemma ret_valid a s : good k s -> valid a (call s) = true -> returns k a s.
Proof.
  intros G V. pose proof G as (Vi & _). destruct (ntf s) as [[]|] eqn:N.
  - apply ret_signalled; assumption.
  - pose proof (i_conv _ Vi a V N) as P. destruct (act s) as [b|] eqn:A.
    + destruct (i_hold _ Vi b) as [Q _]; [rewrite A; cbn [actZ]; rewrite one_refl; pose proof (zsum_pos (early b) (ws s) (early_pos b)); lia|].
      pose proof (valid_one _ _ _ V Q). subst b. apply ret_act; assumption.
    + cbn [actZ] in P. destruct (pick (early a) (ws s)) as (w & p & W & X); [intros []; cbn [early]; try lia; apply one_pos|lia|].
      apply (ret_early a w p); auto. congruence.
  - destruct (i_open _ Vi a V N).
Qed.
Lemma ret_all a s : good k s -> valid a (call s) = true \/ pre a (call s) = true -> returns k a s.
Proof.
  intros G [V|P]; [apply ret_valid; assumption|]. destruct (call s) eqn:C; try discriminate; cbn [pre] in P; apply Nat.eqb_eq in P; subst a0.
  - eapply (ret_call a false s); [exact G|cbn [step]; unfold cstep; rewrite C; reflexivity|]. intros G1. eapply (ret_call a false); [exact G1|reflexivity|]. intros G2. apply ret_valid; [exact G2|]. apply Nat.eqb_refl.
  - eapply (ret_call a false s); [exact G|cbn [step]; unfold cstep; rewrite C; reflexivity|]. intros G2. apply ret_valid; [exact G2|]. apply Nat.eqb_refl.
Qed.
End ret.

Lemma living_filter l : Z.of_nat (length (filter (fun p => negb (isDead p)) l)) = zsum living l.
Proof. induction l as [|x l IH]; cbn [filter zsum]; [reflexivity|]. destruct x; cbn [isDead negb living length]; lia. Qed.
Lemma few_run k l : forall s s', idleInf k = true -> inv s -> few k s -> run k l s = Ok s' -> few k s'.
Proof.
  induction l as [|e l IH]; intros s s' K V F E; cbn [run] in E; [injection E as <-; exact F|].
  destruct (step_ok k e s V) as (s1 & X & V1). rewrite X in E. cbn [obind] in E. exact (IH s1 s' K V1 (few_step k e s s1 K V F X) E).
Qed.

(** a call that waits without limit for workers that will never be *)
Definition lost (k : conf) (s : st) : Prop :=
  forallb isDead (ws s) = true /\ canStart k s = false /\ waitInf k = true /\ ntf s = Some false /\
  match call s with Loop _ _ _ | Check _ _ _ | Sleep _ _ _ => True | _ => False end.
Lemma lost_step k e s : lost k s -> exists c, step k e s = Ok (setCall c s) /\ lost k (setCall c s) /\ forall a, valid a c = valid a (call s).
Proof.
  intros (D & S & W & N & C). assert (Q : s = setCall (call s) s) by (destruct s; reflexivity).
  destruct e as [| |b|w b]; cbn [step].
  - exists (call s). rewrite <- Q. split; [destruct (call s); try contradiction; reflexivity|]. split; [repeat split; assumption|auto].
  - exists (call s). rewrite <- Q. split; [destruct (call s); try contradiction; reflexivity|]. split; [repeat split; assumption|auto].
  - unfold cstep. rewrite S, W, N, D. destruct (call s) as [|a|a|a|a ct inf|a ct inf|a|a|a ct inf| | |] eqn:X; try contradiction.
    + destruct ct; [destruct b|rewrite andb_false_r; cbn [andb]]; (eexists; split; [reflexivity|]; split; [repeat split; assumption|auto]).
    + cbn [orb]. eexists; split; [reflexivity|]; split; [repeat split; assumption|auto].
    + destruct b; [eexists; split; [reflexivity|]; split; [repeat split; assumption|auto]|].
      exists (Sleep a ct inf). rewrite <- Q. split; [reflexivity|]. split; [unfold lost; rewrite X; auto|auto].
  - exists (call s). rewrite <- Q. split; [|split; [repeat split; assumption|auto]]. unfold wstep. destruct (nth_error (ws s) w) as [p|] eqn:E; [|reflexivity].
    apply nth_error_In in E. rewrite forallb_forall in D. specialize (D p E). destruct p; try discriminate. reflexivity.
Qed.
Lemma lost_run k l : forall s, lost k s -> exists c, run k l s = Ok (setCall c s) /\ forall a, valid a c = valid a (call s).
Proof.
  induction l as [|e l IH]; intros s L; cbn [run]; [exists (call s); split; [destruct s; reflexivity|auto]|].
  destruct (lost_step k e s L) as (c & E & L' & V). rewrite E. cbn [obind]. destruct (IH _ L') as (c' & E' & V'). exists c'. split; [exact E'|].
  intros a. rewrite V'. apply V.
Qed.
