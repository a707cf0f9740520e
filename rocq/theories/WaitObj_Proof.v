(** Lemmas about the waiting object *)
From Verif Require Import Common FdSelect_Spec FdSelect_Model FdSelect_Proof WaitObj_Spec WaitObj_Model.
From Coq Require Import ZifyBool.
Open Scope Z_scope.

(** *** the wake-up pipe does not matter as long as there is no request *)
Definition rw (w : option (Z * Z)) (s : st) : st := mkS (fdList s) (fdExtra s) (fdIndex s) (curPos s) w (pending s) (reason s) (closed s).
Definition rwr {A} (w : option (Z * Z)) (r : res A) : res A := match r with Got x s l => Got x (rw w s) l | Waits s => Waits (rw w s) | Fails => Fails end.
Lemma rw_wf w s : wf s -> wf (rw w s).
Proof. intros [L F I C R]. split; cbn; auto. Qed.
Lemma rw_id s : rw (wake s) s = s.
Proof. now destruct s. Qed.
Lemma find_rw w : forall polls s, findSignaled polls (rw w s) = rwr w (findSignaled polls s).
Proof.
  induction polls as [|a polls IH]; intros s; cbn [findSignaled rw fdList curPos]; destruct (Nat.eqb _ _); try reflexivity; destruct (seek _ _ _); try reflexivity.
  exact (IH (pollAll (withCur s (Z.max (curPos s) (Z.of_nat (length (fdList s))))) a)).
Qed.
Lemma getNext_rw polls s : wf s -> pending s = -1 -> getNext polls s = option_map (rwr (wake s)) (getNext polls (rw None s)).
Proof.
  intros W P. unfold getNext, peek. cbn [pending rw]. rewrite P. cbn [Z.eqb negb Pos.eqb]. rewrite find_rw.
  pose proof (find_wf polls s W) as F. destruct (findSignaled polls s) as [i s1 r|s1|]; cbn [rwr].
  - destruct F as (_ & _ & _ & _ & _ & K1 & K2). cbn [curPos fdList fdExtra rw]. destruct (curPos s1 <? _); [|reflexivity]. cbn [wake withCur withL rw].
    destruct s1 as [f e x c w p rs cl]. cbn in *. subst. rewrite P. destruct (wake s) as [[a b]|]; cbn; [|reflexivity]. destruct ((_ =? a) && _); reflexivity.
  - destruct F as (_ & _ & K1 & K2). cbn. rewrite <- K1. destruct s1; reflexivity.
  - reflexivity.
Qed.
Lemma find_cur : forall polls s i s1 r, findSignaled polls s = Got i s1 r -> (r = polls /\ curPos s <= i /\ i < Z.of_nat (length (fdList s)) /\ s1 = withCur s i) \/ (length r < length polls)%nat.
Proof.
  induction polls as [|a polls IH]; intros s i s1 r; cbn [findSignaled]; (destruct (Nat.eqb _ _); [discriminate|]); pose proof (seek_spec (fdList s) 0 (curPos s)) as K; destruct (seek _ _ _) as [j|].
  - intros Q. injection Q as <- <- <-. left. repeat split; lia.
  - discriminate.
  - intros Q. injection Q as <- <- <-. left. repeat split; lia.
  - intros Q. right. destruct (IH _ _ _ _ Q) as [(-> & _)|L]; cbn; lia.
Qed.
Lemma find_waits : forall polls s s', wf s -> findSignaled polls s = Waits s' -> exists c, s' = withCur (fold_left pollAll polls s) c /\ forall k, (k < length (fdList s'))%nat -> revents (nth k (fdList s') pnone) = 0.
Proof.
  induction polls as [|a polls IH]; intros s s' W; cbn [findSignaled]; (destruct (Nat.eqb _ _); [discriminate|]); pose proof (seek_spec (fdList s) 0 (curPos s)) as K; destruct (seek _ _ _) as [j|]; try discriminate.
  - intros Q. injection Q as <-. eexists. split; [reflexivity|]. cbn [fdList withCur]. intros k L. destruct (Z.eq_dec (revents (nth k (fdList s) pnone)) 0) as [E|N]; [exact E|].
    apply notsig_rev, K; [exact L|]. pose proof (w_rev s W k L N). lia.
  - intros Q. cbn [fold_left]. exact (IH (pollAll s a) s' (poll_wf s a W) Q).
Qed.

Section W.
Variables (i : Z) (sock : Z -> Z).
Hypothesis sock_inj : forall q r, q <> 0 -> r <> 0 -> sock q = sock r -> q = r.
Hypothesis sock_wake : forall r, r <> 0 -> sock r <> i.
Definition calm (a : answer) : Prop := rep a i = 0.

Record J (s : st) (h : list hev) : Prop := {
  j_wf : wf s;
  j_pend : pending s = -1;
  j_wake : exists o, wake s = Some (i, o);
  j_pipe : exists e, view s i = Some (mkP i 1 0, e) /\ xtm e = None;
  j_own : forall g p e, view s g = Some (p, e) -> g = i \/ exists r, r <> 0 /\ sock r = g;
  j_ent : forall r, r <> 0 -> match entry sock h r with
            | Some (w, v, t) => view s (sock r) = Some (mkP (sock r) w v, mkX r t)
            | None => forall p e, view s (sock r) = Some (p, e) -> xdata e = 0 end }.

Lemma bit8 m : bit m 8 = Z.testbit m 3.
Proof. exact (bit_test m 3 ltac:(lia)). Qed.
Lemma J_poll s h a : J s h -> calm a -> J (pollAll s a) (poll_ev a :: h).
Proof.
  intros [W P K (e & V & T) O E] C. constructor; auto using poll_wf.
  - exists e. rewrite poll_view, V by assumption. split; auto. unfold poll1. cbn [pf events]. rewrite T, C. reflexivity.
  - intros g p x Q. rewrite poll_view in Q by assumption. destruct (view s g) as [[p0 x0]|] eqn:G; [|discriminate Q]. exact (O g p0 x0 G).
  - intros r N. specialize (E r N). cbn [entry poll_ev]. rewrite poll_view by assumption. destruct (entry sock h r) as [[[w v] t]|].
    + rewrite E. unfold poll1. cbn [pf events xtm]. rewrite bit8. reflexivity.
    + intros p x. destruct (view s (sock r)) as [[p0 x0]|]; [|discriminate]. intros Q. injection Q as <- <-. exact (E p0 x0 eq_refl).
Qed.
Lemma J_polls used : forall s h, J s h -> Forall calm used -> J (fold_left pollAll used s) (rev (map poll_ev used) ++ h).
Proof.
  induction used as [|a used IH]; intros s h I F; [exact I|]. inversion F; subst. cbn [fold_left map rev]. rewrite <- app_assoc. cbn [app]. apply IH; auto. now apply J_poll.
Qed.
Lemma J_set s h x : J s h -> forall r, r <> 0 -> ifd x = sock r -> forall h2,
  (forall q, q <> 0 -> q <> r -> entry sock h2 q = entry sock h q) ->
  match entry sock h2 r with Some (w, v, t) => w = watch_mask (imask x) /\ v = 0 /\ t = itm x /\ idata x = r | None => idata x = 0 end -> J (set_ s x) h2.
Proof.
  intros [W P K (e & V & T) O E] r N X h2 H1 H2. constructor; auto using set_wf.
  - unfold set_. destruct (find (fdIndex s) (ifd x)); exact P.
  - unfold set_. destruct (find (fdIndex s) (ifd x)); exact K.
  - exists e. split; auto. rewrite set_view, X by assumption. destruct (Z.eqb_spec i (sock r)) as [Q|Q]; [destruct (sock_wake r N); auto|exact V].
  - intros g p y Q. rewrite set_view in Q by assumption. destruct (Z.eqb_spec g (ifd x)) as [->|G]; [right; exists r; auto|exact (O g p y Q)].
  - intros q M. rewrite set_view, X by assumption. destruct (Z.eq_dec q r) as [->|D].
    + rewrite Z.eqb_refl. destruct (entry sock h2 r) as [[[w v] t]|].
      * destruct H2 as (-> & -> & -> & ->). rewrite (proj2 (masks (imask x))). reflexivity.
      * intros p y Q. injection Q as <- <-. exact H2.
    + destruct (Z.eqb_spec (sock q) (sock r)) as [Q|_]; [destruct D; apply sock_inj; auto|]. rewrite H1 by assumption. apply E, M.
Qed.
Lemma J_unset s h r : J s h -> r <> 0 -> J (snd (unset s (sock r))) (HRem r :: h).
Proof.
  intros [W P K (e & V & T) O E] N. assert (X : wake (snd (unset s (sock r))) = wake s /\ pending (snd (unset s (sock r))) = pending s).
  { unfold unset. destruct (find (fdIndex s) (sock r)) as [p|] eqn:F; [|auto]. destruct (remove_both s _ p W F) as (_ & _ & _ & _ & _ & A & B). auto. }
  destruct X as [X1 X2]. constructor; auto using unset_wf.
  - congruence.
  - rewrite X1. exact K.
  - exists e. split; auto. rewrite unset_view by assumption. destruct (Z.eqb_spec i (sock r)) as [Q|Q]; [destruct (sock_wake r N); auto|exact V].
  - intros g p y Q. rewrite unset_view in Q by assumption. destruct (g =? sock r); [discriminate Q|]. exact (O g p y Q).
  - intros q M. cbn [entry]. rewrite unset_view by assumption. destruct (Z.eqb_spec r q) as [->|D].
    + rewrite Z.eqb_refl. discriminate.
    + destruct (Z.eqb_spec (sock q) (sock r)) as [Q|_]; [destruct D; symmetry; apply sock_inj; auto|]. apply E, M.
Qed.
Lemma J_none s h s' : J s h -> wf s' -> pending s' = -1 -> (exists o, wake s' = Some (i, o)) -> forall r p e, r <> 0 -> entry sock h r = None -> view s (sock r) = Some (p, e) ->
  (forall g, view s' g = if g =? sock r then Some (clear1 p, e) else view s g) -> J s' h.
Proof.
  intros [W P K (e0 & V & T) O E] W' P' K' r p e N H Q X. constructor; auto.
  - exists e0. rewrite X. destruct (Z.eqb_spec i (sock r)) as [Y|Y]; [destruct (sock_wake r N); auto|auto].
  - intros g p1 y. rewrite X. destruct (Z.eqb_spec g (sock r)) as [->|Y]; [right; exists r; auto|apply O].
  - intros q M. rewrite X. destruct (Z.eq_dec q r) as [->|D].
    + rewrite H, Z.eqb_refl. intros p1 y Z. injection Z as <- <-. specialize (E r N). rewrite H in E. exact (E p e Q).
    + destruct (Z.eqb_spec (sock q) (sock r)) as [Z|_]; [destruct D; apply sock_inj; auto|]. apply E, M.
Qed.

Definition measure (polls : list answer) (s : st) : nat := length polls * S (length (fdList s)) + (length (fdList s) - Z.to_nat (curPos s)).
Lemma next_ok polls s h : J s h -> Forall calm polls -> exists r, getNext polls s = Some r /\ match r with
  | Got x s' rest => exists used r p e, polls = used ++ rest /\ r <> 0 /\ ifd x = sock r /\ J (fold_left pollAll used s) (rev (map poll_ev used) ++ h)
      /\ view (fold_left pollAll used s) (sock r) = Some (p, e) /\ x = info p e /\ signaled p = true
      /\ wf s' /\ pending s' = -1 /\ wake s' = wake s /\ (forall g, view s' g = if g =? sock r then Some (clear1 p, e) else view (fold_left pollAll used s) g)
      /\ (measure rest s' < measure polls s)%nat
  | Waits s' => J s' (rev (map poll_ev polls) ++ h) /\ forall g p e, view s' g = Some (p, e) -> revents p = 0
  | Fails => False
  end.
Proof.
  intros I F. pose proof I as [W P (o & K) (e & V & T) O E]. rewrite (getNext_rw polls s W P). assert (W0 : wf (rw None s)) by now apply rw_wf.
  assert (Ne : length (fdList s) <> 0%nat). { unfold view in V. destruct (find (fdIndex s) i) as [q|] eqn:G; [|discriminate V]. pose proof (w_find s W _ _ G). lia. }
  destruct (getNext_spec polls (rw None s) W0 (conj eq_refl P)) as (r & Q & G). rewrite Q. eexists. split; [reflexivity|]. destruct r as [x s' rest|s'|]; cbn [rwr].
  - destruct G as (W1 & (_ & P1) & used & EU & p & e1 & V1 & EX & S1 & VV & _ & LN).
    assert (FV : forall u s g, view (fold_left pollAll u (rw None s)) g = view (fold_left pollAll u s) g).
    { intros u. induction u as [|a u IH]; intros s0 g; [reflexivity|]. cbn [fold_left]. exact (IH (pollAll s0 a) g). }
    rewrite FV in V1. assert (I1 : J (fold_left pollAll used s) (rev (map poll_ev used) ++ h)). { apply J_polls; auto. rewrite EU in F. apply Forall_app in F. apply F. }
    assert (X : exists r, r <> 0 /\ sock r = ifd x).
    { destruct (j_own _ _ I1 _ _ _ V1) as [X|X]; [|exact X]. destruct (j_pipe _ _ I1) as (e2 & V2 & _). rewrite X, V2 in V1. injection V1 as <- <-. discriminate S1. }
    destruct X as (r & N & X). exists used, r, p, e1. rewrite X. repeat (split; [first [assumption|reflexivity]|]). split; [now apply rw_wf|]. split; [exact P1|]. split; [reflexivity|].
    split. { intros g. change (view (rw (wake s) s') g) with (view s' g). rewrite VV, FV. reflexivity. }
    unfold measure. cbn [fdList curPos rw]. cbn [fdList rw] in LN. rewrite LN.
    assert (CP : (length rest < length polls)%nat \/ rest = polls /\ curPos s < curPos s' /\ curPos s' <= Z.of_nat (length (fdList s))).
    { unfold getNext, peek in Q. cbn [pending rw] in Q. rewrite P in Q. cbn [Z.eqb negb Pos.eqb] in Q. rewrite find_rw in Q. destruct (findSignaled polls s) as [j s1 r1|s1|] eqn:FS; cbn [rwr] in Q; try discriminate Q.
      pose proof (find_cur polls s j s1 r1 FS) as FC. cbn [curPos fdList rw wake withCur withL] in Q. destruct (curPos s1 <? _); [|discriminate Q]. injection Q as _ <- <-. cbn [curPos].
      destruct FC as [(-> & A & B & ->)|L]; [|now left]. right. cbn [curPos withCur]. repeat split; lia. }
    pose proof (w_cur s W) as C0. destruct CP as [L|(-> & A & B)].
    + assert (length rest * S (length (fdList s)) + S (length (fdList s)) <= length polls * S (length (fdList s)))%nat; [|lia].
      replace (length rest * S (length (fdList s)) + S (length (fdList s)))%nat with (S (length rest) * S (length (fdList s)))%nat by lia. apply Nat.mul_le_mono_r. lia.
    + lia.
  - assert (Q2 : findSignaled polls (rw None s) = Waits s').
    { unfold getNext, peek in Q. cbn [pending rw] in Q. rewrite P in Q. cbn [Z.eqb negb Pos.eqb] in Q. destruct (findSignaled polls (rw None s)) as [j s1 r1|s1|]; try discriminate Q; [destruct (curPos s1 <? _); discriminate Q|]. congruence. }
    rewrite find_rw in Q2. destruct (findSignaled polls s) as [j s1 r1|s1|] eqn:FS; cbn [rwr] in Q2; try discriminate Q2. injection Q2 as <-.
    destruct (find_waits polls s s1 W FS) as (c & E1 & R0). pose proof (J_polls polls s h I F) as [W2 P2 K2 (e2 & V2 & T2) O2 E2].
    pose proof (find_wf polls s W) as FW. rewrite FS in FW. destruct FW as (W3 & _ & K3 & P3). assert (VW : forall g, view s1 g = view (fold_left pollAll polls s) g) by (intros g; rewrite E1; reflexivity).
    split.
    + constructor; cbn [rw pending wake]; auto.
      * now apply rw_wf, rw_wf.
      * congruence.
      * eauto.
      * exists e2. rewrite <- V2, <- VW. split; [reflexivity|assumption].
      * intros g p e3 Y. apply (O2 g p e3). rewrite <- VW. exact Y.
      * intros r N. specialize (E2 r N). rewrite <- VW in E2. exact E2.
    + intros g p e3 Y. change (view s1 g = Some (p, e3)) in Y. unfold view in Y. destruct (find (fdIndex s1) g) as [q|] eqn:G2; [|discriminate Y]. injection Y as <- <-. apply R0. exact (proj1 (w_find s1 W3 _ _ G2)).
  - apply Ne. cbn in G. now rewrite G.
Qed.

Lemma load_ok fuel : forall polls s h, J s h -> Forall calm polls -> (measure polls s < fuel)%nat -> exists used rest, polls = used ++ rest /\
  match load fuel polls s with
  | WGot r m s' rest' => rest' = rest /\ right sock (rev (map poll_ev used) ++ h) (HGot r m) /\ J s' (HGot r m :: rev (map poll_ev used) ++ h)
  | WWaits s' => rest = [] /\ right sock (rev (map poll_ev used) ++ h) HWait /\ J s' (HWait :: rev (map poll_ev used) ++ h)
  | _ => False
  end.
Proof.
  induction fuel as [|fuel IH]; intros polls s h I F M; [lia|]. cbn [load]. destruct (next_ok polls s h I F) as (r & -> & G). destruct r as [x s' rest|s'|]; [| |contradiction].
  - destruct G as (used & r & p & e & EU & N & X & I1 & V1 & EX & S1 & W1 & P1 & K1 & VV & MM).
    pose proof (j_ent _ _ I1 r N) as EN. destruct (j_wake _ _ I) as (o & WK).
    assert (IW : isWake s' x = false) by (unfold isWake; rewrite K1, WK, X; apply Z.eqb_neq, sock_wake, N). rewrite IW.
    destruct (entry sock (rev (map poll_ev used) ++ h) r) as [[[w v] t]|] eqn:Q.
    + rewrite V1 in EN. injection EN as -> ->. rewrite EX. cbn [info idata xdata imask revents pf ifd]. destruct (Z.eqb_spec r 0); [contradiction|]. cbn [negb]. exists used, rest. split; [exact EU|]. split; [reflexivity|]. split.
      * split; [exact N|]. exists w, v, t. split; [exact Q|]. split; [apply masks|]. unfold signaled in S1. cbn in S1. lia.
      * set (h0 := rev (map poll_ev used) ++ h) in *. assert (I2 : J s' (HRem r :: h0) \/ True) by auto. clear I2.
        assert (GG : forall q, q <> 0 -> q <> r -> entry sock (HGot r (eventsToWaitMask v) :: h0) q = entry sock h0 q) by (intros q _ D; cbn; destruct (Z.eqb_spec r q); congruence).
        (* the object with the events of the resource cleared, then set again with no data *)
        destruct I1 as [W P K (e0 & V & T) O E]. constructor; auto using set_wf.
        -- unfold set_. destruct (find _ _); exact P1.
        -- exists o. unfold set_. destruct (find _ _); cbn; congruence.
        -- exists e0. split; auto. rewrite set_view by assumption. cbn [ifd]. rewrite VV. destruct (Z.eqb_spec i (sock r)) as [Z|Z]; [destruct (sock_wake r N); auto|exact V].
        -- intros g p1 y. rewrite set_view by assumption. cbn [ifd]. rewrite VV. destruct (Z.eqb_spec g (sock r)) as [->|D]; [right; exists r; auto|apply O].
        -- intros q D. rewrite set_view by assumption. cbn [ifd]. rewrite VV. destruct (Z.eq_dec q r) as [->|D2].
           ++ cbn [entry]. rewrite !Z.eqb_refl. intros p1 y Z. injection Z as <- <-. reflexivity.
           ++ destruct (Z.eqb_spec (sock q) (sock r)) as [Z|_]; [destruct D2; apply sock_inj; auto|]. rewrite GG by assumption. apply E, D.
    + assert (D0 : idata x = 0) by (rewrite EX; cbn; exact (EN p e V1)). rewrite D0. cbn [Z.eqb negb].
      assert (I2 : J s' (rev (map poll_ev used) ++ h)). { apply (J_none _ _ s' I1 W1 P1) with (r := r) (p := p) (e := e); auto. exists o. congruence. }
      assert (F2 : Forall calm rest) by (rewrite EU in F; apply Forall_app in F; apply F).
      destruct (IH rest s' _ I2 F2 ltac:(lia)) as (u2 & rest2 & E2 & L2). exists (used ++ u2), rest2. split; [rewrite EU, E2; apply app_assoc|].
      rewrite map_app, rev_app_distr, <- app_assoc. exact L2.
  - destruct G as (I1 & R0). exists polls, []. rewrite app_nil_r. split; [reflexivity|]. split; [reflexivity|]. split.
    + intros r w v t N Q. pose proof (j_ent _ _ I1 r N) as EN. rewrite Q in EN. exact (R0 _ _ _ EN).
    + destruct I1 as [W P K V O E]. constructor; auto.
Qed.

Definition okop (o : wop) : Prop := match o with OAdd r _ _ | ORem r => r <> 0 | ONext polls => Forall calm polls end.
Definition socks (r : Z) : list Z := [sock r].
Lemma start_J o : J (fs (start i o)) [].
Proof.
  constructor.
  - apply (set_wf (mkS [] [] [] naturalNull (Some (i, o)) (-1) 0 [])). split; cbn; try discriminate; try lia.
  - reflexivity.
  - exists o. reflexivity.
  - exists (mkX 0 None). unfold view. cbn. rewrite Z.eqb_refl. auto.
  - intros g p e. unfold view. cbn. destruct (Z.eqb_spec i g); [auto|discriminate].
  - intros r N p e. cbn. unfold view. cbn. destruct (Z.eqb_spec i (sock r)); [|discriminate]. intros Q. injection Q as <- <-. reflexivity.
Qed.
Lemma next_W polls s h : J (fs s) h -> Forall calm polls -> exists used rest x s', polls = used ++ rest /\ stepW socks s (ONext polls) = Ok (x :: rev (map poll_ev used), s')
  /\ right sock (rev (map poll_ev used) ++ h) x /\ (x = HWait -> rest = []) /\ J (fs s') (x :: rev (map poll_ev used) ++ h).
Proof.
  intros I F. cbn [stepW nextW peekW loadNext fs]. unfold nextW, peekW. cbn [loadNext fs].
  assert (M : (measure polls (fs s) < fuelOf polls (fs s))%nat).
  { unfold measure, fuelOf. rewrite Nat.mul_succ_l. lia. }
  destruct (load_ok _ polls (fs s) h I F M) as (used & rest & E & L).
  assert (FN : firstn (length polls - length rest) polls = used).
  { rewrite E, app_length, firstn_app. replace (length used + length rest - length rest - length used)%nat with 0%nat by lia. replace (length used + length rest - length rest)%nat with (length used) by lia. rewrite firstn_all. cbn. apply app_nil_r. }
  destruct (load _ polls (fs s)) as [r m f rest'|f| | |]; try contradiction.
  - destruct L as (-> & R & I2). exists used, rest, (HGot r m), (mkWt f true (Some (r, m))). cbn [fst snd]. rewrite FN. split; [exact E|]. split; [reflexivity|]. split; [exact R|]. split; [discriminate|exact I2].
  - destruct L as (-> & R & I2). exists used, [], HWait, (mkWt f true (ret s)). cbn [fst snd]. rewrite FN. split; [exact E|]. split; [reflexivity|]. split; [exact R|]. auto.
Qed.
Lemma step_W s h o : J (fs s) h -> okop o -> exists x, stepW socks s o = Ok x /\ J (fs (snd x)) (fst x ++ h).
Proof.
  intros I K. destruct o as [r m t|r|polls].
  - eexists. split; [reflexivity|]. cbn. apply (J_set _ _ (mkI (sock r) m r t) I r K eq_refl).
    + intros q _ D. cbn. destruct (Z.eqb_spec r q); congruence.
    + cbn. rewrite Z.eqb_refl. auto.
  - eexists. split; [reflexivity|]. cbn. now apply J_unset.
  - destruct (next_W polls s h I K) as (used & rest & x & s' & _ & -> & _ & _ & I2). eexists. split; [reflexivity|]. exact I2.
Qed.
Lemma run_W l : forall s h, J (fs s) h -> Forall okop l -> exists x, runW socks l h s = Ok x /\ J (fs (snd x)) (fst x).
Proof.
  induction l as [|o l IH]; intros s h I F; cbn [runW].
  - eexists. split; [reflexivity|]. exact I.
  - inversion F; subst. destruct (step_W s h o I H1) as (x & -> & I2). exact (IH _ _ I2 H2).
Qed.
End W.
Lemma runW_app k l : forall l2 h s, runW k (l ++ l2) h s = match runW k l h s with Ok x => runW k l2 (fst x) (snd x) | Throw => Throw | Undef => Undef | NoFuel => NoFuel end.
Proof. induction l as [|o l IH]; intros l2 h s; cbn [app runW]; [reflexivity|]. destruct (stepW k s o); auto. Qed.
