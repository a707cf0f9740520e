(** Lemmas about the listener of network events *)
From Verif Require Import Common NetEv_Spec NetEv_Model.
Open Scope N_scope.

Lemma upd_nil : forall A (l : list A) i x, upd l i x = [] -> l = [].
Proof. intros A [|a l] i x H; [reflexivity|destruct i; discriminate]. Qed.
Definition lsof (s : st) (fd : nat) : list lst := match getObj s (pdat (poll s fd)) with Ok l => l | _ => [] end.
Definition charge (p : nat) (l : list lst) : pent :=
  match l with [] => mkP 0 0 None | e :: r => mkP p (snd (fold (ltm e) (msk e) r)) (fst (fold (ltm e) (msk e) r)) end.
Definition live (s : st) (p : nat) : Prop := exists l, getObj s p = Ok l.
(** everything but socket [fd], whose object is [p] *)
Record W (s : st) (p fd : nat) : Prop := {
  w_live : live s p;
  w_dat : pdat (poll s fd) = p \/ pdat (poll s fd) = O;
  w_oth : forall g, g <> fd -> pdat (poll s g) <> O -> pdat (poll s g) <> p /\ exists l, getObj s (pdat (poll s g)) = Ok l /\ l <> [];
  w_inj : forall g k, g <> fd -> k <> fd -> pdat (poll s g) <> O -> pdat (poll s g) = pdat (poll s k) -> g = k;
  w_ref : forall q, live s q -> q <> p -> exists g, g <> fd /\ pdat (poll s g) = q;
  w_poll : forall g, g <> fd -> poll s g = charge (pdat (poll s g)) (lsof s g) }.
Record V (s : st) : Prop := {
  v_obj : forall g, pdat (poll s g) <> O -> exists l, getObj s (pdat (poll s g)) = Ok l /\ l <> [];
  v_inj : forall g k, pdat (poll s g) <> O -> pdat (poll s g) = pdat (poll s k) -> g = k;
  v_ref : forall q, live s q -> exists g, pdat (poll s g) = q;
  v_poll : forall g, poll s g = charge (pdat (poll s g)) (lsof s g) }.
Lemma get_pos : forall s p l, getObj s p = Ok l -> exists i, p = S i /\ (i < length (objs s))%nat.
Proof. intros s [|i] l H; [discriminate|]. exists i. split; [reflexivity|]. cbn in H. apply nth_error_Some. destruct (nth_error (objs s) i); discriminate. Qed.
Lemma get_store : forall s p o q, live s p -> getObj (store s p o) q = if Nat.eqb q p then match o with Some l => Ok l | None => Undef end else getObj s q.
Proof.
  intros s p o q (l & H). destruct (get_pos _ _ _ H) as (i & -> & L). unfold store. replace (S i - 1)%nat with i by lia. destruct q as [|j]; [reflexivity|]. cbn [getObj objs Nat.eqb].
  destruct (Nat.eqb_spec j i) as [->|N]; [rewrite nth_error_upd_eq by assumption; destruct o; reflexivity|rewrite nth_error_upd_ne by auto; reflexivity].
Qed.
Lemma put_ok : forall s p fd l, W s p fd -> exists s', updateFdData (store s p (Some l)) p fd true = (Ok tt, s') /\ V s' /\ lsof s' fd = l /\ forall g, g <> fd -> lsof s' g = lsof s g.
Proof.
  intros s p fd l HW. pose proof (w_live _ _ _ HW) as LV. assert (P0 : p <> O) by (destruct LV as (x & H); destruct (get_pos _ _ _ H) as (i & -> & _); discriminate).
  set (s2 := store s p (Some l)). assert (G2 : forall q, getObj s2 q = if Nat.eqb q p then Ok l else getObj s q) by (intros q; apply get_store; exact LV).
  unfold updateFdData. rewrite G2, Nat.eqb_refl. destruct l as [|e r].
  - unfold pollSet. cbn [fst snd]. eexists. split; [reflexivity|]. set (s3 := mkS (objs s2) _). assert (LV3 : live s3 p) by (exists []; change (getObj s3 p) with (getObj s2 p); rewrite G2, Nat.eqb_refl; reflexivity).
    set (s4 := store s3 p None). assert (G4 : forall q, getObj s4 q = if Nat.eqb q p then Undef else getObj s q).
    { intros q. unfold s4. rewrite get_store by exact LV3. destruct (Nat.eqb q p) eqn:E; [reflexivity|]. change (getObj s3 q) with (getObj s2 q). rewrite G2, E. reflexivity. }
    assert (PF : poll s4 fd = mkP 0 0 None) by (cbn; rewrite Nat.eqb_refl; reflexivity). assert (PG : forall g, g <> fd -> poll s4 g = poll s g) by (intros g N; cbn; destruct (Nat.eqb_spec g fd); [contradiction|reflexivity]).
    assert (LF : lsof s4 fd = []) by (unfold lsof; rewrite PF; reflexivity).
    assert (LG : forall g, g <> fd -> lsof s4 g = lsof s g).
    { intros g N. unfold lsof. rewrite PG by assumption. rewrite G4. destruct (Nat.eqb_spec (pdat (poll s g)) p) as [E|E]; [|reflexivity]. exfalso. apply (w_oth _ _ _ HW g N); [congruence|exact E]. }
    split; [|split; [exact LF|exact LG]]. split.
    + intros g H. destruct (Nat.eq_dec g fd) as [->|N]; [rewrite PF in H; contradiction|]. rewrite PG in * by assumption. destruct (w_oth _ _ _ HW g N H) as (H1 & x & H2 & H3). exists x. split; [|assumption].
      rewrite G4. destruct (Nat.eqb_spec (pdat (poll s g)) p); [contradiction|assumption].
    + intros g k. destruct (Nat.eq_dec g fd) as [->|N]; [rewrite PF; contradiction|]. rewrite (PG g) by assumption. destruct (Nat.eq_dec k fd) as [->|N2]; [rewrite PF; cbn; congruence|]. rewrite PG by assumption. apply (w_inj _ _ _ HW); assumption.
    + intros q (x & Hq). rewrite G4 in Hq. destruct (Nat.eqb_spec q p) as [E|E]; [discriminate|]. destruct (w_ref _ _ _ HW q (ex_intro _ x Hq) E) as (g & N & H). exists g. rewrite PG; assumption.
    + intros g. destruct (Nat.eq_dec g fd) as [->|N]; [rewrite PF, LF; reflexivity|]. rewrite PG, LG by assumption. apply (w_poll _ _ _ HW g N).
  - cbv zeta. unfold pollSet. eexists. split; [reflexivity|]. set (s4 := mkS (objs s2) _). assert (G4 : forall q, getObj s4 q = if Nat.eqb q p then Ok (e :: r) else getObj s q) by (intros q; apply G2).
    assert (PF : poll s4 fd = charge p (e :: r)) by (cbn; rewrite Nat.eqb_refl; reflexivity). assert (PG : forall g, g <> fd -> poll s4 g = poll s g) by (intros g N; cbn; destruct (Nat.eqb_spec g fd); [contradiction|reflexivity]).
    assert (LF : lsof s4 fd = e :: r) by (unfold lsof; rewrite PF; cbn [charge pdat]; rewrite G4, Nat.eqb_refl; reflexivity).
    assert (LG : forall g, g <> fd -> lsof s4 g = lsof s g).
    { intros g N. unfold lsof. rewrite PG by assumption. rewrite G4. destruct (Nat.eqb_spec (pdat (poll s g)) p) as [E|E]; [|reflexivity]. exfalso. apply (w_oth _ _ _ HW g N); [congruence|exact E]. }
    split; [|split; [exact LF|exact LG]]. split.
    + intros g H. destruct (Nat.eq_dec g fd) as [->|N]; [rewrite PF; cbn [charge pdat]; rewrite G4, Nat.eqb_refl; eexists; split; [reflexivity|discriminate]|].
      rewrite PG in * by assumption. destruct (w_oth _ _ _ HW g N H) as (H1 & x & H2 & H3). exists x. split; [|assumption]. rewrite G4. destruct (Nat.eqb_spec (pdat (poll s g)) p); [contradiction|assumption].
    + intros g k. destruct (Nat.eq_dec g fd) as [->|N], (Nat.eq_dec k fd) as [->|N2]; [reflexivity| | |].
      * rewrite PF, (PG k) by assumption. cbn [charge pdat]. intros _ E. exfalso. apply (w_oth _ _ _ HW k N2); congruence.
      * rewrite PF, (PG g) by assumption. cbn [charge pdat]. intros H E. exfalso. apply (w_oth _ _ _ HW g N); congruence.
      * rewrite !PG by assumption. apply (w_inj _ _ _ HW); assumption.
    + intros q (x & Hq). destruct (Nat.eq_dec q p) as [->|E]; [exists fd; rewrite PF; reflexivity|]. rewrite G4 in Hq. destruct (Nat.eqb_spec q p); [contradiction|].
      destruct (w_ref _ _ _ HW q (ex_intro _ x Hq) E) as (g & N & H). exists g. rewrite PG; assumption.
    + intros g. destruct (Nat.eq_dec g fd) as [->|N]; [rewrite LF, PF; reflexivity|]. rewrite PG, LG by assumption. apply (w_poll _ _ _ HW g N).
Qed.
Lemma V_W : forall s fd pe, V s -> pdat (poll s fd) <> O -> pdat pe = pdat (poll s fd) -> W (mkS (objs s) (fun g => if Nat.eqb g fd then pe else poll s g)) (pdat (poll s fd)) fd.
Proof.
  intros s fd pe HV H E. set (s1 := mkS _ _). assert (PG : forall g, g <> fd -> poll s1 g = poll s g) by (intros g N; cbn; destruct (Nat.eqb_spec g fd); [contradiction|reflexivity]).
  assert (PF : poll s1 fd = pe) by (cbn; rewrite Nat.eqb_refl; reflexivity). split.
  - destruct (v_obj _ HV fd H) as (l & G & _). exists l. exact G.
  - left. rewrite PF. exact E.
  - intros g N D. rewrite PG in * by assumption. split; [intros Q; apply N; symmetry; apply (v_inj _ HV); congruence|]. apply (v_obj _ HV g D).
  - intros g k N1 N2. rewrite !PG by assumption. apply (v_inj _ HV).
  - intros q L N. destruct (v_ref _ HV q L) as (g & G). assert (g <> fd) by congruence. exists g. rewrite PG by assumption. auto.
  - intros g N. unfold lsof. rewrite !PG by assumption. apply (v_poll _ HV).
Qed.
Lemma V_W0 : forall s fd, V s -> pdat (poll s fd) <> O -> W s (pdat (poll s fd)) fd.
Proof.
  intros s fd HV H. split.
  - destruct (v_obj _ HV fd H) as (l & G & _). exists l. exact G.
  - left. reflexivity.
  - intros g N D. split; [intros Q; apply N; symmetry; apply (v_inj _ HV); congruence|]. apply (v_obj _ HV g D).
  - intros g k N1 N2. apply (v_inj _ HV).
  - intros q L N. destruct (v_ref _ HV q L) as (g & G). assert (g <> fd) by congruence. exists g. auto.
  - intros g N. apply (v_poll _ HV).
Qed.
Lemma get_app : forall s x q l, getObj s q = Ok l -> getObj (mkS (objs s ++ x) (poll s)) q = Ok l.
Proof. intros s x q l H. destruct (get_pos _ _ _ H) as (i & -> & L). cbn [getObj objs] in *. rewrite nth_error_app1 by assumption. exact H. Qed.
Lemma V_Wnew : forall s fd, V s -> pdat (poll s fd) = O -> let p := S (length (objs s)) in let s1 := mkS (objs s ++ [Some []]) (poll s) in W s1 p fd /\ getObj s1 p = Ok [] /\ forall g, lsof s1 g = lsof s g.
Proof.
  intros s fd HV H p s1. assert (GP : getObj s1 p = Ok []) by (cbn; rewrite nth_error_app2 by lia; rewrite Nat.sub_diag; reflexivity).
  assert (LS : forall g, lsof s1 g = lsof s g).
  { intros g. unfold lsof. change (poll s1) with (poll s). destruct (Nat.eq_dec (pdat (poll s g)) O) as [Z|N]; [rewrite Z; reflexivity|]. destruct (v_obj _ HV g N) as (l & G & _). rewrite G. unfold s1. rewrite (get_app _ _ _ _ G). reflexivity. }
  split; [|split; assumption]. split.
  - exists []. exact GP.
  - right. exact H.
  - intros g N D. destruct (v_obj _ HV g D) as (l & G & NE). split; [|exists l; split; [apply get_app, G|exact NE]]. destruct (get_pos _ _ _ G) as (i & E & L). change (poll s1) with (poll s). unfold p. lia.
  - intros g k _ _. apply (v_inj _ HV).
  - intros q (l & G) N. destruct (get_pos _ _ _ G) as (i & -> & L). cbn [objs s1] in L. rewrite app_length in L. cbn [length] in L. unfold p in N. assert (LI : (i < length (objs s))%nat) by lia.
    assert (G0 : getObj s (S i) = Ok l) by (cbn in G |- *; rewrite nth_error_app1 in G by exact LI; exact G). destruct (v_ref _ HV (S i) (ex_intro _ l G0)) as (g & E). exists g. split; [congruence|exact E].
  - intros g N. rewrite LS. apply (v_poll _ HV).
Qed.
Lemma ls_obj : forall s fd, V s -> pdat (poll s fd) <> O -> getObj s (pdat (poll s fd)) = Ok (lsof s fd).
Proof. intros s fd HV H. unfold lsof. destruct (v_obj _ HV fd H) as (l & -> & _). reflexivity. Qed.
Lemma ls_none : forall s fd, pdat (poll s fd) = O -> lsof s fd = [].
Proof. intros s fd H. unfold lsof. rewrite H. reflexivity. Qed.
Lemma req_ok : forall s fd o m tm, V s -> exists s', doRequestWithSocket s fd o m tm true = (Ok tt, s') /\ V s'
  /\ lsof s' fd = (if m =? 0 then eraseObs (lsof s fd) o else putObs (lsof s fd) (mkL o tm m)) /\ forall g, g <> fd -> lsof s' g = lsof s g.
Proof.
  intros s fd o m tm HV. unfold doRequestWithSocket. cbv zeta. destruct (Nat.eq_dec (pdat (poll s fd)) O) as [Z|N].
  - rewrite (ls_none _ _ Z). rewrite Z. destruct (m =? 0); [exists s; rewrite (ls_none _ _ Z); auto|]. destruct (V_Wnew s fd HV Z) as (HW & G & LS). rewrite G.
    destruct (put_ok _ _ _ (putObs [] (mkL o tm m)) HW) as (s' & E & A & B & C). rewrite E. cbn [fst]. exists s'. split; [reflexivity|]. split; [exact A|]. split; [exact B|]. intros g Ng. rewrite C by assumption. apply LS.
  - pose proof (ls_obj _ _ HV N) as G. pose proof (V_W0 _ _ HV N) as HW. destruct (pdat (poll s fd)) as [|i] eqn:EP; [contradiction|]. rewrite G.
    destruct (m =? 0); [destruct (put_ok _ _ _ (eraseObs (lsof s fd) o) HW) as (s' & E & A & B & C)|destruct (put_ok _ _ _ (putObs (lsof s fd) (mkL o tm m)) HW) as (s' & E & A & B & C)]; rewrite E; exists s'; auto.
Qed.
Lemma event_ok : forall s fd fl now, V s -> pdat (poll s fd) <> O -> exists s', event s fd fl now true = (Ok (fst (collect (lsof s fd) fl now)), s') /\ V s'
  /\ lsof s' fd = snd (collect (lsof s fd) fl now) /\ forall g, g <> fd -> lsof s' g = lsof s g.
Proof.
  intros s fd fl now HV N. unfold event. cbv zeta. pose proof (ls_obj _ _ HV N) as G.
  pose proof (V_W s fd (mkP (pdat (poll s fd)) 0 (ptm (poll s fd))) HV N eq_refl) as HW. set (s1 := mkS _ _) in *.
  assert (G1 : getObj s1 (pdat (poll s fd)) = Ok (lsof s fd)) by exact G. rewrite G1.
  destruct (put_ok _ _ _ (snd (collect (lsof s fd) fl now)) HW) as (s' & E & A & B & C). rewrite E. cbn [fst snd]. exists s'. split; [reflexivity|]. split; [exact A|]. split; [exact B|].
  intros g Ng. rewrite C by assumption. unfold lsof. change (getObj s1) with (getObj s). cbn [poll s1]. destruct (Nat.eqb_spec g fd); [contradiction|reflexivity].
Qed.
(** *** listeners and requests *)
Definition lok (l : list lst) : Prop := NoDup (map obs l) /\ forall e, In e l -> msk e <> 0.
Definition agree (w : nat -> option (N * option Z)) (l : list lst) : Prop := forall o m tm, w o = Some (m, tm) <-> In (mkL o tm m) l.
Lemma erase_in : forall l o e, NoDup (map obs l) -> In e (eraseObs l o) <-> In e l /\ obs e <> o.
Proof.
  induction l as [|x l IH]; intros o e D; cbn [eraseObs In]; [tauto|]. inversion D as [|? ? D1 D2]; subst. destruct (Nat.eqb_spec (obs x) o) as [E|E].
  - split; [intros H; split; [auto|intros Q; apply D1; rewrite E, <- Q; apply in_map, H]|]. intros ([->|H] & N); [contradiction|exact H].
  - cbn [In]. rewrite IH by assumption. split; [intros [->|(H & N)]; auto|]. intros ([H|H] & N); auto.
Qed.
Lemma erase_sub : forall l o x, In x (map obs (eraseObs l o)) -> In x (map obs l).
Proof. induction l as [|e l IH]; intros o x H; cbn [eraseObs map In] in *; [exact H|]. destruct (Nat.eqb (obs e) o); [auto|]. destruct H as [H|H]; [auto|right; eapply IH, H]. Qed.
Lemma erase_nd : forall l o, NoDup (map obs l) -> NoDup (map obs (eraseObs l o)).
Proof. induction l as [|e l IH]; intros o D; cbn [eraseObs]; [exact D|]. inversion D; subst. destruct (Nat.eqb (obs e) o); [assumption|]. cbn [map]. constructor; [|auto]. intros H. apply erase_sub in H. contradiction. Qed.
Lemma put_in : forall l x e, NoDup (map obs l) -> In e (putObs l x) <-> e = x \/ In e l /\ obs e <> obs x.
Proof.
  induction l as [|y l IH]; intros x e D; cbn [putObs In]; [intuition|]. inversion D as [|? ? D1 D2]; subst. destruct (Nat.eqb_spec (obs y) (obs x)) as [E|E].
  - cbn [In]. split; [intros [->|H]; [auto|right; split; [auto|intros Q; apply D1; rewrite E, <- Q; apply in_map, H]]|]. intros [->|([->|H] & N)]; auto. contradiction.
  - cbn [In]. rewrite IH by assumption. split; [intros [->|[->|(H & N)]]; auto|]. intros [->|([->|H] & N)]; auto.
Qed.
Lemma put_sub : forall l x o, In o (map obs (putObs l x)) -> o = obs x \/ In o (map obs l).
Proof. induction l as [|e l IH]; intros x o H; cbn [putObs map In] in *; [intuition|]. destruct (Nat.eqb (obs e) (obs x)); cbn [map In] in H; [intuition|]. destruct H as [H|H]; [auto|]. apply IH in H. tauto. Qed.
Lemma put_nd : forall l x, NoDup (map obs l) -> NoDup (map obs (putObs l x)).
Proof.
  induction l as [|e l IH]; intros x D; cbn [putObs]; [constructor; [intros []|constructor]|]. inversion D as [|? ? D1 D2]; subst. destruct (Nat.eqb_spec (obs e) (obs x)) as [E|E]; cbn [map].
  - constructor; [rewrite <- E; assumption|assumption].
  - constructor; [|auto]. intros H. apply put_sub in H as [H|H]; [congruence|contradiction].
Qed.
Lemma req_agree : forall h fd o m tm l, lok l -> agree (wants h fd) l -> let l' := if m =? 0 then eraseObs l o else putObs l (mkL o tm m) in
  lok l' /\ agree (wants (EReq fd o m tm :: h) fd) l'.
Proof.
  intros h fd o m tm l (D & M) A l'. unfold l'. destruct (N.eqb_spec m 0) as [Z|NZ].
  - split; [split; [apply erase_nd, D|intros e H; apply erase_in in H; [apply M, H|exact D]]|].
    intros o' m' tm'. rewrite erase_in by assumption. cbn [wants obs]. rewrite Nat.eqb_refl, Z. cbn [andb]. rewrite N.eqb_refl. rewrite <- (A o'). destruct (Nat.eqb_spec o o') as [->|N]; [split; [discriminate|tauto]|]. split; [intros H; split; [exact H|auto]|tauto].
  - split; [split; [apply put_nd, D|intros e H; apply put_in in H as [->|(H & _)]; [exact NZ|apply M, H|exact D]]|].
    intros o' m' tm'. rewrite put_in by assumption. cbn [wants obs]. rewrite Nat.eqb_refl. cbn [andb]. destruct (N.eqb_spec m 0); [contradiction|]. rewrite <- (A o'). destruct (Nat.eqb_spec o o') as [->|N].
    + split; [intros H; injection H as -> ->; auto|]. intros [H|(_ & H)]; [congruence|contradiction].
    + split; [intros H; right; split; [exact H|auto]|]. intros [H|(H & _)]; [congruence|exact H].
Qed.
Definition due1 (e : lst) (fl : N) (now : Z) : option N := if negb (N.land fl (msk e) =? 0) then Some (N.land fl (msk e)) else if expired now (ltm e) then Some 0 else None.
Lemma collect_calls : forall l fl now o r, In (o, r) (fst (collect l fl now)) <-> exists e, In e l /\ obs e = o /\ due1 e fl now = Some r.
Proof.
  induction l as [|e l IH]; intros fl now o r; cbn [collect fst In]; [split; [intros []|intros (e & [] & _)]|].
  assert (T : (exists x, (e = x \/ In x l) /\ obs x = o /\ due1 x fl now = Some r) <-> (obs e = o /\ due1 e fl now = Some r) \/ In (o, r) (fst (collect l fl now))).
  { rewrite IH. split; [intros (x & [<-|H] & Q); [auto|right; eauto]|]. intros [H|(x & H & Q)]; [exists e; auto|exists x; auto]. }
  rewrite T. clear T. unfold due1. destruct (negb _); [cbn [fst In]; split; [intros [E|H]; [injection E as <- <-; auto|auto]|intros [(<- & E)|H]; [left; congruence|auto]]|].
  destruct (expired now (ltm e)); cbn [fst In]; [split; [intros [E|H]; [injection E as <- <-; auto|auto]|intros [(<- & E)|H]; [left; congruence|auto]]|]. split; [auto|]. intros [(_ & E)|H]; [discriminate|exact H].
Qed.
Lemma collect_rest : forall l fl now e, In e (snd (collect l fl now)) <-> In e l /\ due1 e fl now = None.
Proof.
  induction l as [|x l IH]; intros fl now e; cbn [collect snd In]; [tauto|]. destruct (negb (N.land fl (msk x) =? 0)) eqn:E1; [|destruct (expired now (ltm x)) eqn:E2]; cbn [snd In]; rewrite IH.
  - split; [tauto|]. intros ([<-|H] & Q); [unfold due1 in Q; rewrite E1 in Q; discriminate|auto].
  - split; [tauto|]. intros ([<-|H] & Q); [unfold due1 in Q; rewrite E1, E2 in Q; discriminate|auto].
  - split; [|tauto]. intros [<-|H]; [split; [auto|unfold due1; rewrite E1, E2; reflexivity]|tauto].
Qed.
Lemma collect_sub : forall l fl now, (forall o, In o (map fst (fst (collect l fl now))) -> In o (map obs l)) /\ (forall o, In o (map obs (snd (collect l fl now))) -> In o (map obs l)).
Proof.
  intros l fl now. split; intros o H; apply in_map_iff in H.
  - destruct H as ((o' & r) & E & H). cbn [fst] in E. subst o'. apply collect_calls in H as (e & I & <- & _). apply in_map, I.
  - destruct H as (e & <- & H). apply collect_rest in H as (H & _). apply in_map, H.
Qed.
Lemma collect_nd : forall l fl now, NoDup (map obs l) -> NoDup (map fst (fst (collect l fl now))) /\ NoDup (map obs (snd (collect l fl now))).
Proof.
  induction l as [|e l IH]; intros fl now D; cbn [collect fst snd map]; [split; constructor|]. inversion D as [|? ? D1 D2]; subst. destruct (IH fl now D2) as (A & B). destruct (collect_sub l fl now) as (S1 & S2).
  destruct (negb _); [cbn [fst snd map]; split; [constructor; [intros H; apply D1, S1, H|exact A]|exact B]|]. destruct (expired now (ltm e)); cbn [fst snd map]; [split; [constructor; [intros H; apply D1, S1, H|exact A]|exact B]|].
  split; [exact A|]. constructor; [intros H; apply D1, S2, H|exact B].
Qed.
Lemma wants_notes : forall c h fd g o, wants (rev (map (fun x => ENote fd (fst x) (snd x)) c) ++ h) g o = if Nat.eqb fd g && existsb (fun x : nat * N => Nat.eqb (fst x) o) c then None else wants h g o.
Proof.
  induction c as [|[o' r] c IH]; intros h fd g o; cbn [map rev app existsb fst snd]; [rewrite andb_false_r; reflexivity|]. rewrite <- app_assoc. cbn [app]. rewrite IH. cbn [wants].
  destruct (Nat.eqb fd g); cbn [andb]; [|reflexivity]. destruct (Nat.eqb o' o); cbn [orb]; [destruct (existsb _ c); reflexivity|reflexivity].
Qed.
Lemma exp_passed : forall now tm, expired now tm = true <-> passed now tm.
Proof. intros now [t|]; cbn [expired]; unfold passed; [rewrite Z.ltb_lt; split; [eauto|intros (x & E & H); congruence]|]. split; [discriminate|intros (x & E & _); discriminate]. Qed.
Lemma due1_due : forall h fd fl now l o r, agree (wants h fd) l -> due h fd fl now o r <-> exists e, In e l /\ obs e = o /\ due1 e fl now = Some r.
Proof.
  intros h fd fl now l o r A. unfold due. split.
  - intros (m & tm & H & Q). apply A in H. exists (mkL o tm m). split; [exact H|]. split; [reflexivity|]. unfold due1. cbn [msk ltm]. destruct Q as [(N & ->)|(Z & P & ->)].
    + destruct (N.eqb_spec (N.land fl m) 0); [contradiction|reflexivity].
    + rewrite Z. cbn [N.eqb negb]. apply exp_passed in P. rewrite P. reflexivity.
  - intros ([o' tm m] & H & E & Q). cbn [obs] in E. subst o'. exists m, tm. split; [apply A, H|]. unfold due1 in Q. cbn [msk ltm] in Q. destruct (N.eqb_spec (N.land fl m) 0) as [Z|N]; cbn [negb] in Q.
    + right. destruct (expired now tm) eqn:E; [|discriminate]. apply exp_passed in E. split; [exact Z|]. split; [exact E|congruence].
    + left. split; [exact N|congruence].
Qed.
Definition Inv (s : st) (h : list ev) : Prop := V s /\ forall fd, lok (lsof s fd) /\ agree (wants h fd) (lsof s fd).
Lemma nd_inj : forall l a b, NoDup (map obs l) -> In a l -> In b l -> obs a = obs b -> a = b.
Proof.
  induction l as [|x l IH]; intros a b D Ha Hb E; [destruct Ha|]. inversion D as [|? ? D1 D2]; subst. destruct Ha as [<-|Ha], Hb as [<-|Hb]; [reflexivity| | |auto]; exfalso; apply D1.
  - rewrite E. apply in_map, Hb.
  - rewrite <- E. apply in_map, Ha.
Qed.
Lemma event_agree : forall h fd fl now l, lok l -> agree (wants h fd) l -> let c := collect l fl now in
  lok (snd c) /\ agree (wants (rev (map (fun x => ENote fd (fst x) (snd x)) (fst c)) ++ h) fd) (snd c).
Proof.
  intros h fd fl now l (D & M) A. cbv zeta. split; [split; [apply collect_nd, D|intros e H; apply collect_rest in H; apply M, H]|].
  intros o m tm. rewrite wants_notes, Nat.eqb_refl, collect_rest. cbn [andb]. rewrite <- (A o). destruct (existsb _ _) eqn:E.
  - split; [discriminate|]. intros (H & Q). apply A in H. exfalso. apply existsb_exists in E as ((o' & r) & I & E). cbn [fst] in E. apply Nat.eqb_eq in E. subst o'. apply collect_calls in I as (e & I & E & Q2).
    assert (e = mkL o tm m) by (apply (nd_inj l); assumption).
    subst e. congruence.
  - split; [|tauto]. intros H. split; [exact H|]. apply A in H. destruct (due1 (mkL o tm m) fl now) as [r|] eqn:Q; [|reflexivity]. exfalso.
    assert (T : existsb (fun x : nat * N => Nat.eqb (fst x) o) (fst (collect l fl now)) = true).
    { apply existsb_exists. exists (o, r). split; [apply collect_calls; exists (mkL o tm m); auto|apply Nat.eqb_refl]. }
    congruence.
Qed.
Lemma charged_dat : forall s fd, V s -> pmask (poll s fd) <> 0 -> pdat (poll s fd) <> O.
Proof. intros s fd HV H Z. apply H. rewrite (v_poll _ HV), (ls_none _ _ Z). reflexivity. Qed.
Lemma wants_other : forall fd o m tm h g, g <> fd -> forall x, wants (EReq fd o m tm :: h) g x = wants h g x.
Proof. intros fd o m tm h g N x. cbn [wants]. destruct (Nat.eqb_spec fd g); [congruence|reflexivity]. Qed.
Lemma step_ok : forall s h o, Inv s h -> exists x, step s o = Ok x /\ Inv (snd x) (fst x ++ h).
Proof.
  intros s h [fd o m tm|fd fl now] (HV & HA); cbn [step]; cbv zeta.
  - destruct (req_ok s fd o m tm HV) as (s' & -> & A & B & C). cbn [fst]. eexists. split; [reflexivity|]. cbn [fst snd app]. split; [exact A|]. intros g. destruct (Nat.eq_dec g fd) as [->|N].
    + rewrite B. destruct (HA fd) as (H1 & H2). apply req_agree; assumption.
    + rewrite C by assumption. destruct (HA g) as (H1 & H2). split; [exact H1|]. intros x m' t'. rewrite wants_other by assumption. apply H2.
  - destruct (N.eqb_spec (pmask (poll s fd)) 0) as [Z|NZ]; [eexists; split; [reflexivity|]; cbn [fst snd app]; split; assumption|].
    destruct (event_ok s fd fl now HV (charged_dat _ _ HV NZ)) as (s' & -> & A & B & C). cbn [fst]. eexists. split; [reflexivity|]. cbn [fst snd]. split; [exact A|]. intros g. destruct (Nat.eq_dec g fd) as [->|N].
    + rewrite B. destruct (HA fd) as (H1 & H2). apply event_agree; assumption.
    + rewrite C by assumption. destruct (HA g) as (H1 & H2). split; [exact H1|]. intros x m' t'. rewrite wants_notes. destruct (Nat.eqb_spec fd g); [congruence|]. apply H2.
Qed.
Lemma run_ok : forall l s h, Inv s h -> exists x, run l h s = Ok x /\ Inv (snd x) (fst x).
Proof.
  induction l as [|o l IH]; intros s h H; cbn [run]; [eexists; split; [reflexivity|exact H]|]. destruct (step_ok s h o H) as (x & -> & A). apply IH, A.
Qed.
Lemma init_ok : Inv init [].
Proof.
  split; [split|].
  - intros g H. cbn in H. contradiction.
  - intros g k H. cbn in H. contradiction.
  - intros q (l & H). destruct q as [|[|q]]; discriminate.
  - intros g. reflexivity.
  - intros fd. split; [split; [constructor|intros e []]|]. intros o m tm. cbn. split; [discriminate|intros []].
Qed.
(** *** what the socket is charged with *)
Lemma fold_mask : forall l tm m k, N.testbit (snd (fold tm m l)) k = N.testbit m k || existsb (fun e => N.testbit (msk e) k) l.
Proof. induction l as [|e l IH]; intros tm m k; cbn [fold snd existsb]; [rewrite orb_false_r; reflexivity|]. rewrite IH, N.lor_spec, orb_assoc. reflexivity. Qed.
Definition tle (a b : option Z) : Prop := match b with None => True | Some y => exists x, a = Some x /\ (x <= y)%Z end.
Lemma tle_refl : forall a, tle a a.
Proof. intros [a|]; cbn; [exists a; split; [reflexivity|lia]|exact I]. Qed.
Lemma tle_trans : forall a b c, tle a b -> tle b c -> tle a c.
Proof. intros a b [c|] H1 H2; cbn in *; [|exact I]. destruct H2 as (y & -> & H2). cbn in H1. destruct H1 as (x & -> & H1). exists x. split; [reflexivity|lia]. Qed.
Lemma tless : forall a b, tle (if tmLess a b then a else b) a /\ tle (if tmLess a b then a else b) b.
Proof.
  intros [a|] [b|]; cbn [tmLess]; try (split; first [apply tle_refl|exact I]). destruct (Z.ltb_spec a b); split; try apply tle_refl; cbn; eexists; split; try reflexivity; lia.
Qed.
Lemma fold_tm : forall l tm m, tle (fst (fold tm m l)) tm /\ (forall e, In e l -> tle (fst (fold tm m l)) (ltm e)) /\ (fst (fold tm m l) = tm \/ exists e, In e l /\ fst (fold tm m l) = ltm e).
Proof.
  induction l as [|e l IH]; intros tm m; cbn [fold fst In]; [split; [apply tle_refl|split; [intros e []|auto]]|].
  destruct (IH (if tmLess (ltm e) tm then ltm e else tm) (N.lor m (msk e))) as (A & B & C). destruct (tless (ltm e) tm) as (T1 & T2). split; [eapply tle_trans; eassumption|]. split.
  - intros x [<-|H]; [eapply tle_trans; eassumption|auto].
  - destruct C as [->|(x & H & ->)]; [destruct (tmLess (ltm e) tm); [right; exists e; auto|auto]|right; exists x; auto].
Qed.
(** *** notifications of a history *)
Lemma notes_calls : forall c h fd, NoDup (map fst c) -> (forall x, In x c -> wants h fd (fst x) <> None) -> notes_open h -> notes_open (rev (map (fun x => ENote fd (fst x) (snd x)) c) ++ h).
Proof.
  induction c as [|x c IH]; intros h fd D H O; cbn [map rev app]; [exact O|]. rewrite <- app_assoc. cbn [app]. inversion D as [|? ? D1 D2]; subst. apply IH; [assumption| |].
  - intros y Hy. cbn [wants]. destruct (Nat.eqb_spec (fst x) (fst y)) as [E|E]; [exfalso; apply D1; rewrite E; apply in_map, Hy|]. rewrite andb_false_r. apply H. right. exact Hy.
  - cbn [notes_open]. split; [apply H; left; reflexivity|exact O].
Qed.
Lemma step_notes : forall s h o x, Inv s h -> notes_open h -> step s o = Ok x -> notes_open (fst x ++ h).
Proof.
  intros s h [fd o m tm|fd fl now] x (HV & HA) O E; cbn [step] in E; cbv zeta in E.
  - destruct (fst _); [injection E as <-; exact O|discriminate..].
  - destruct (N.eqb_spec (pmask (poll s fd)) 0) as [Z|NZ]; [injection E as <-; exact O|]. destruct (event_ok s fd fl now HV (charged_dat _ _ HV NZ)) as (s' & E1 & _). rewrite E1 in E. cbn [fst snd] in E. injection E as <-. cbn [fst].
    destruct (HA fd) as ((D & _) & A). apply notes_calls; [apply collect_nd, D| |exact O]. intros (o & r) H. apply collect_calls in H as ([o' t m] & I & E2 & _). cbn [obs fst] in *. subst o'. apply A in I. rewrite I. discriminate.
Qed.
Lemma run_notes : forall l s h x, Inv s h -> notes_open h -> run l h s = Ok x -> notes_open (fst x).
Proof.
  induction l as [|o l IH]; intros s h x H O E; cbn [run] in E; [injection E as <-; exact O|]. destruct (step_ok s h o H) as (y & E1 & A). rewrite E1 in E. eapply IH; [exact A| |exact E]. eapply step_notes; eassumption.
Qed.
