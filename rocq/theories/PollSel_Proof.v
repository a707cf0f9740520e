(** Lemmas about the set of sockets over poll(2) *)
From Verif Require Import Common PollSel_Spec PollSel_Model.
Open Scope N_scope.

Notation de := (mkE 0 0).
(** places of sockets and the pool, with the pipe [w] first *)
Record P (w : nat) (s : st) : Prop := {
  p_first : exists e r, pool s = mkE w e :: r;
  p_in : forall i, (0 < i < length (pool s))%nat -> ppos (sock s (efd (nth i (pool s) de))) = Some i;
  p_back : forall fd i, ppos (sock s fd) = Some i -> (0 < i < length (pool s))%nat /\ efd (nth i (pool s) de) = fd }.
Lemma sock_with : forall s fd i g, sock (withSock s fd i) g = if Nat.eqb g fd then i else sock s g.
Proof. reflexivity. Qed.
Lemma pos_set : forall s fd p g, ppos (sock (setPos s fd p) g) = if Nat.eqb g fd then p else ppos (sock s g).
Proof. intros. cbn. destruct (Nat.eqb g fd); reflexivity. Qed.
Lemma wf_set : forall s fd p g, wfor (sock (setPos s fd p) g) = wfor (sock s g) /\ udata (sock (setPos s fd p) g) = udata (sock s g).
Proof. intros. cbn. destruct (Nat.eqb_spec g fd) as [->|]; split; reflexivity. Qed.
Lemma nth_firstn : forall A n (l : list A) i d, (i < n)%nat -> nth i (firstn n l) d = nth i l d.
Proof. induction n as [|n IH]; intros l i d H; [lia|]. destruct l; [destruct i; reflexivity|]. destruct i; cbn; [reflexivity|]. apply IH. lia. Qed.
Lemma remove_ok : forall w s i, P w s -> (0 < i < length (pool s))%nat -> let f := efd (nth i (pool s) de) in let s' := removeFromPool s (Some i) in
  P w s' /\ ppos (sock s' f) = None /\ (forall g, wfor (sock s' g) = wfor (sock s g) /\ udata (sock s' g) = udata (sock s g))
  /\ (forall g, g <> f -> match ppos (sock s g) with Some k => exists k', ppos (sock s' g) = Some k' /\ nth k' (pool s') de = nth k (pool s) de | None => ppos (sock s' g) = None end).
Proof.
  intros w s i HP Hi f s'. destruct (p_first _ _ HP) as (e0 & r0 & EF). pose proof (p_in _ _ HP) as PI. pose proof (p_back _ _ HP) as PB.
  unfold s', removeFromPool. cbv zeta. fold f. set (s1 := setPos s f None). change (pool s1) with (pool s). set (n := (length (pool s) - 1)%nat).
  destruct (Nat.eqb_spec n i) as [E|E].
  - set (s2 := mkS (sock s1) (firstn n (pool s))). change (mkS (sock s1) (firstn n (pool s1))) with s2.
    assert (LN : length (pool s2) = n) by (cbn [pool s2]; rewrite firstn_length; lia).
    assert (NT : forall k, (k < n)%nat -> nth k (pool s2) de = nth k (pool s) de) by (intros k Hk; apply nth_firstn; exact Hk).
    assert (PP : forall g, ppos (sock s2 g) = if Nat.eqb g f then None else ppos (sock s g)) by (intros g; apply pos_set).
    assert (KN : forall g k, ppos (sock s g) = Some k -> g <> f -> (0 < k < n)%nat).
    { intros g k Q N. destruct (PB g k Q) as (B1 & B2). destruct (Nat.eq_dec k i) as [->|]; [exfalso; apply N; symmetry; exact B2|lia]. }
    split; [split|split; [|split]].
    + exists e0, (firstn (n - 1) r0). cbn [pool s2]. rewrite EF. destruct n as [|n']; [lia|]. cbn [firstn]. rewrite Nat.sub_succ, Nat.sub_0_r. reflexivity.
    + intros k Hk. rewrite LN in Hk. rewrite NT by lia. rewrite PP. assert (Q : ppos (sock s (efd (nth k (pool s) de))) = Some k) by (apply PI; lia).
      destruct (Nat.eqb_spec (efd (nth k (pool s) de)) f) as [G|G]; [|exact Q]. rewrite G in Q. unfold f in Q. rewrite (PI i Hi) in Q. injection Q as ->. lia.
    + intros g k Q. rewrite PP in Q. destruct (Nat.eqb_spec g f) as [G|G]; [discriminate|]. pose proof (KN g k Q G). rewrite LN, NT by lia. split; [lia|]. apply (PB g k Q).
    + rewrite PP, Nat.eqb_refl. reflexivity.
    + intros g. apply wf_set.
    + intros g G. rewrite PP. destruct (Nat.eqb_spec g f); [contradiction|]. destruct (ppos (sock s g)) as [k|] eqn:Q; [|reflexivity]. exists k. split; [reflexivity|]. apply NT. apply (KN g k Q G).
  - set (t := nth n (pool s) de). assert (HN : (0 < n < length (pool s))%nat) by lia. assert (TN : ppos (sock s (efd t)) = Some n) by (apply PI; exact HN).
    assert (TF : efd t <> f). { intros Q. rewrite Q in TN. unfold f in TN. rewrite (PI i Hi) in TN. congruence. }
    set (s2 := setPos (mkS (sock s1) (upd (pool s) i t)) (efd t) (Some i)). change (pool s2) with (upd (pool s) i t). set (s3 := mkS (sock s2) (firstn n (upd (pool s) i t))).
    assert (LN : length (pool s3) = n) by (cbn [pool s3]; rewrite firstn_length, upd_length; lia).
    assert (NT : forall k, (k < n)%nat -> nth k (pool s3) de = if Nat.eqb k i then t else nth k (pool s) de).
    { intros k Hk. cbn [pool s3]. rewrite nth_firstn by exact Hk. destruct (Nat.eqb_spec k i) as [->|N]; [apply nth_upd_eq; lia|apply nth_upd_ne; auto]. }
    assert (PP : forall g, ppos (sock s3 g) = if Nat.eqb g (efd t) then Some i else if Nat.eqb g f then None else ppos (sock s g)).
    { intros g. change (sock s3) with (sock s2). unfold s2. rewrite pos_set. destruct (Nat.eqb g (efd t)); [reflexivity|]. apply pos_set. }
    assert (KN : forall g k, ppos (sock s g) = Some k -> g <> f -> g <> efd t -> (0 < k < n)%nat /\ k <> i).
    { intros g k Q N1 N2. destruct (PB g k Q) as (B1 & B2). split; [|intros ->; apply N1; symmetry; exact B2]. destruct (Nat.eq_dec k n) as [->|]; [exfalso; apply N2; symmetry; exact B2|lia]. }
    split; [split|split; [|split]].
    + exists e0, (firstn (n - 1) (upd r0 (i - 1) t)). cbn [pool s3]. rewrite EF. destruct n as [|n']; [lia|]. destruct i as [|i']; [lia|]. cbn [upd firstn]. rewrite !Nat.sub_succ, !Nat.sub_0_r. reflexivity.
    + intros k Hk. rewrite LN in Hk. rewrite NT by lia. rewrite PP. destruct (Nat.eqb_spec k i) as [->|NK]; [rewrite Nat.eqb_refl; reflexivity|]. assert (Q : ppos (sock s (efd (nth k (pool s) de))) = Some k) by (apply PI; lia).
      destruct (Nat.eqb_spec (efd (nth k (pool s) de)) (efd t)) as [G|G]; [rewrite G, TN in Q; injection Q as ->; lia|].
      destruct (Nat.eqb_spec (efd (nth k (pool s) de)) f) as [G2|G2]; [|exact Q]. rewrite G2 in Q. unfold f in Q. rewrite (PI i Hi) in Q. congruence.
    + intros g k Q. rewrite PP in Q. destruct (Nat.eqb_spec g (efd t)) as [G|G]; [injection Q as <-; rewrite LN, NT by lia; rewrite Nat.eqb_refl; split; [lia|auto]|]. destruct (Nat.eqb_spec g f) as [G2|G2]; [discriminate|].
      destruct (KN g k Q G2 G) as (K1 & K2). rewrite LN, NT by lia. destruct (Nat.eqb_spec k i); [contradiction|]. split; [lia|]. apply (PB g k Q).
    + rewrite PP. destruct (Nat.eqb_spec f (efd t)); [congruence|]. rewrite Nat.eqb_refl. reflexivity.
    + intros g. change (sock s3) with (sock s2). unfold s2. destruct (wf_set (mkS (sock s1) (upd (pool s) i t)) (efd t) (Some i) g) as (-> & ->). apply wf_set.
    + intros g G. rewrite PP. destruct (Nat.eqb_spec g (efd t)) as [GT|GT].
      * rewrite GT, TN. exists i. split; [reflexivity|]. rewrite NT by lia. rewrite Nat.eqb_refl. reflexivity.
      * destruct (Nat.eqb_spec g f); [contradiction|]. destruct (ppos (sock s g)) as [k|] eqn:Q; [|reflexivity]. exists k. split; [reflexivity|]. destruct (KN g k Q G GT) as (K1 & K2). rewrite NT by lia. destruct (Nat.eqb_spec k i); [contradiction|reflexivity].
Qed.
(** the history: a charged socket is in the pool with its events *)
Definition C (s : st) (h : list ev) : Prop := forall fd,
  charged h fd = (if wfor (sock s fd) =? 0 then None else Some (wfor (sock s fd), udata (sock s fd)))
  /\ (wfor (sock s fd) <> 0 -> exists i, ppos (sock s fd) = Some i /\ eev (nth i (pool s) de) = evOf (wfor (sock s fd)))
  /\ (cancelled h = false -> wfor (sock s fd) = 0 -> ppos (sock s fd) = None).
Definition Inv (w : nat) (s : st) (h : list ev) : Prop := P w s /\ C s h /\ delivers_charged h.
Lemma clear_P : forall w s fd i, P w s -> ppos i = ppos (sock s fd) -> P w (withSock s fd i).
Proof.
  intros w s fd i HP E. assert (Q : forall g, ppos (sock (withSock s fd i) g) = ppos (sock s g)) by (intros g; rewrite sock_with; destruct (Nat.eqb_spec g fd) as [->|]; [exact E|reflexivity]).
  split; [apply HP|intros k Hk; rewrite Q; apply (p_in _ _ HP k Hk)|intros g k H; rewrite Q in H; apply (p_back _ _ HP g k H)].
Qed.
(** socket [f] leaves the pool, its charge is gone *)
Lemma leave_ok : forall w s h h' f s1, P w s -> C s h -> P w s1 -> wfor (sock s1 f) = 0 -> ppos (sock s1 f) = None ->
  (forall g, g <> f -> wfor (sock s1 g) = wfor (sock s g) /\ udata (sock s1 g) = udata (sock s g)
     /\ match ppos (sock s g) with Some k => exists k', ppos (sock s1 g) = Some k' /\ nth k' (pool s1) de = nth k (pool s) de | None => ppos (sock s1 g) = None end) ->
  charged h' f = None -> (forall g, g <> f -> charged h' g = charged h g) -> (cancelled h' = false -> cancelled h = false) -> C s1 h'.
Proof.
  intros w s h h' f s1 HP HC HP1 W0 PN OT CF CG CC fd. destruct (Nat.eq_dec fd f) as [->|N].
  - rewrite CF, W0. split; [reflexivity|]. split; [intros Q; contradiction|intros _ _; exact PN].
  - destruct (OT fd N) as (E1 & E2 & E3). rewrite CG, E1, E2 by assumption. destruct (HC fd) as (C1 & C2 & C3). split; [exact C1|]. split.
    + intros Q. destruct (C2 Q) as (i & I1 & I2). rewrite I1 in E3. destruct E3 as (k & K1 & K2). exists k. split; [exact K1|]. rewrite K2. exact I2.
    + intros Q1 Q2. rewrite (C3 (CC Q1) Q2) in E3. exact E3.
Qed.
Lemma step_ok : forall w s h o, Inv w s h -> Inv w (snd (step s o)) (fst (step s o) ++ h).
Proof.
  intros w s h o (HP & HC & HD). destruct o as [fd m d|fd|i|]; cbn [step]; cbv zeta.
  - cbn [fst snd app]. unfold set_. cbv zeta. set (s1 := withSock s fd (mkI m d (ppos (sock s fd)))). assert (HP1 : P w s1) by (apply clear_P; [exact HP|reflexivity]).
    assert (S1 : forall g, sock s1 g = if Nat.eqb g fd then mkI m d (ppos (sock s fd)) else sock s g) by (intros g; apply sock_with).
    assert (PF : ppos (sock s1 fd) = ppos (sock s fd)) by (rewrite S1, Nat.eqb_refl; reflexivity). rewrite PF.
    assert (CG : forall g, g <> fd -> charged (ESet fd m d :: h) g = charged h g) by (intros g N; cbn [charged]; destruct (Nat.eqb_spec fd g); congruence).
    destruct (N.eqb_spec m 0) as [Z|NZ].
    + assert (CF : charged (ESet fd m d :: h) fd = None) by (cbn [charged]; rewrite Nat.eqb_refl, Z; reflexivity). destruct (ppos (sock s fd)) as [i|] eqn:EP.
      * destruct (p_back _ _ HP fd i EP) as (I1 & I2). destruct (remove_ok w s1 i HP1 I1) as (A & B & D & E). change (pool s1) with (pool s) in *. rewrite I2 in B, E. set (s2 := removeFromPool s1 (Some i)) in *.
        split; [exact A|]. split; [|exact HD]. eapply (leave_ok w s h _ fd s2 HP HC A); [destruct (D fd) as (-> & _); rewrite S1, Nat.eqb_refl; exact Z|exact B| |exact CF|exact CG|auto].
        intros g N. destruct (D g) as (-> & ->). specialize (E g N). rewrite S1 in *. destruct (Nat.eqb_spec g fd); [contradiction|]. auto.
      * cbn [removeFromPool]. split; [exact HP1|]. split; [|exact HD]. eapply (leave_ok w s h _ fd s1 HP HC HP1); [rewrite S1, Nat.eqb_refl; exact Z|exact PF| |exact CF|exact CG|auto].
        intros g N. rewrite S1. destruct (Nat.eqb_spec g fd); [contradiction|]. split; [reflexivity|]. split; [reflexivity|]. destruct (ppos (sock s g)) as [k|] eqn:Q; [exists k; auto|reflexivity].
    + assert (CF : charged (ESet fd m d :: h) fd = Some (m, d)) by (cbn [charged]; rewrite Nat.eqb_refl; destruct (N.eqb_spec m 0); [contradiction|reflexivity]). destruct (ppos (sock s fd)) as [i|] eqn:EP.
      * destruct (p_back _ _ HP fd i EP) as (I1 & I2). set (s2 := mkS (sock s1) (upd (pool s1) i (mkE fd (evOf m)))). change (pool s1) with (pool s) in s2.
        assert (LN : length (pool s2) = length (pool s)) by (cbn [pool s2]; apply upd_length).
        assert (NT : forall k, nth k (pool s2) de = if Nat.eqb k i then mkE fd (evOf m) else nth k (pool s) de) by (intros k; cbn [pool s2]; destruct (Nat.eqb_spec k i) as [->|N]; [apply nth_upd_eq; lia|apply nth_upd_ne; auto]).
        assert (EF : forall k, efd (nth k (pool s2) de) = efd (nth k (pool s) de)) by (intros k; rewrite NT; destruct (Nat.eqb_spec k i) as [->|]; [symmetry; exact I2|reflexivity]).
        split; [split|split; [|exact HD]].
        -- destruct (p_first _ _ HP) as (e0 & r0 & Q). exists e0. cbn [pool s2]. rewrite Q. destruct i as [|i']; [lia|]. cbn [upd]. eauto.
        -- intros k Hk. rewrite LN in Hk. rewrite EF. apply (p_in _ _ HP1 k Hk).
        -- intros g k Q. rewrite LN, EF. apply (p_back _ _ HP1 g k Q).
        -- intros g. change (sock s2 g) with (sock s1 g). rewrite S1. destruct (Nat.eqb_spec g fd) as [E|N].
           ++ rewrite E, CF. cbn [wfor udata ppos]. split; [destruct (N.eqb_spec m 0); [contradiction|reflexivity]|]. split; [intros _; exists i; split; [reflexivity|rewrite NT, Nat.eqb_refl; reflexivity]|intros _ Q; contradiction].
           ++ rewrite CG by assumption. destruct (HC g) as (C1 & C2 & C3). split; [exact C1|]. split; [|exact C3]. intros Q. destruct (C2 Q) as (k & K1 & K2). exists k. split; [exact K1|]. rewrite NT. destruct (Nat.eqb_spec k i) as [->|]; [|exact K2].
              destruct (p_back _ _ HP g i K1) as (_ & K3). congruence.
      * change (pool s1) with (pool s). set (s2 := setPos s1 fd (Some (length (pool s)))). change (pool s2) with (pool s). set (s3 := mkS (sock s2) (pool s ++ [mkE fd (evOf m)])).
        assert (LN : length (pool s3) = S (length (pool s))) by (cbn [pool s3]; rewrite app_length; cbn [length]; lia).
        assert (NT : forall k, (k < length (pool s))%nat -> nth k (pool s3) de = nth k (pool s) de) by (intros k Hk; cbn [pool s3]; apply app_nth1; exact Hk).
        assert (NL : nth (length (pool s)) (pool s3) de = mkE fd (evOf m)) by (cbn [pool s3]; apply nth_middle).
        assert (PP : forall g, ppos (sock s3 g) = if Nat.eqb g fd then Some (length (pool s)) else ppos (sock s g)).
        { intros g. change (sock s3) with (sock s2). unfold s2. rewrite pos_set, S1. destruct (Nat.eqb g fd); reflexivity. }
        assert (WW : forall g, wfor (sock s3 g) = (if Nat.eqb g fd then m else wfor (sock s g)) /\ udata (sock s3 g) = if Nat.eqb g fd then d else udata (sock s g)).
        { intros g. change (sock s3) with (sock s2). unfold s2. destruct (wf_set s1 fd (Some (length (pool s))) g) as (-> & ->). rewrite S1. destruct (Nat.eqb g fd); split; reflexivity. }
        destruct (p_first _ _ HP) as (e0 & r0 & Q0). assert (LP : (0 < length (pool s))%nat) by (rewrite Q0; cbn [length]; lia).
        split; [split|split; [|exact HD]].
        -- exists e0. cbn [pool s3]. rewrite Q0. cbn [app]. eauto.
        -- intros k Hk. rewrite LN in Hk. destruct (Nat.eq_dec k (length (pool s))) as [->|N]; [rewrite NL, PP; cbn [efd]; rewrite Nat.eqb_refl; reflexivity|]. rewrite NT by lia. rewrite PP.
           assert (Q : ppos (sock s (efd (nth k (pool s) de))) = Some k) by (apply (p_in _ _ HP); lia). destruct (Nat.eqb_spec (efd (nth k (pool s) de)) fd) as [G|G]; [rewrite G in Q; congruence|exact Q].
        -- intros g k Q. rewrite PP in Q. destruct (Nat.eqb_spec g fd) as [->|G]; [injection Q as <-; rewrite LN, NL; split; [lia|reflexivity]|]. destruct (p_back _ _ HP g k Q) as (B1 & B2). rewrite LN, NT by lia. split; [lia|exact B2].
        -- intros g. destruct (WW g) as (-> & ->). rewrite PP. destruct (Nat.eqb_spec g fd) as [E|N].
           ++ rewrite E, CF. split; [destruct (N.eqb_spec m 0); [contradiction|reflexivity]|]. split; [intros _; exists (length (pool s)); split; [reflexivity|rewrite NL; reflexivity]|intros _ Q; contradiction].
           ++ rewrite CG by assumption. destruct (HC g) as (C1 & C2 & C3). split; [exact C1|]. split; [|exact C3]. intros Q. destruct (C2 Q) as (k & K1 & K2). exists k. split; [exact K1|]. rewrite NT; [exact K2|]. apply (p_back _ _ HP g k K1).
  - unfold timeout. destruct (N.eqb_spec (wfor (sock s fd)) 0) as [Z|NZ]; [cbn [fst snd app]; split; [exact HP|split; assumption]|]. cbv zeta. cbn [fst snd app].
    destruct (HC fd) as (C1 & C2 & _). destruct (C2 NZ) as (i & I1 & _). set (s1 := clearWait s fd). assert (HP1 : P w s1) by (apply clear_P; [exact HP|reflexivity]).
    assert (S1 : forall g, sock s1 g = if Nat.eqb g fd then mkI 0 (udata (sock s fd)) (ppos (sock s fd)) else sock s g) by (intros g; apply sock_with).
    assert (PF : ppos (sock s1 fd) = Some i) by (rewrite S1, Nat.eqb_refl; exact I1). assert (UF : udata (sock s1 fd) = udata (sock s fd)) by (rewrite S1, Nat.eqb_refl; reflexivity). rewrite PF, UF.
    destruct (p_back _ _ HP fd i I1) as (J1 & J2). destruct (remove_ok w s1 i HP1 J1) as (A & B & D & E). change (pool s1) with (pool s) in *. rewrite J2 in B, E. set (s2 := removeFromPool s1 (Some i)) in *.
    split; [exact A|]. split.
    + eapply (leave_ok w s h _ fd s2 HP HC A); [destruct (D fd) as (-> & _); rewrite S1, Nat.eqb_refl; reflexivity|exact B| |cbn [charged]; rewrite Nat.eqb_refl; reflexivity|intros g N; cbn [charged]; destruct (Nat.eqb_spec fd g); congruence|auto].
      intros g N. destruct (D g) as (-> & ->). specialize (E g N). rewrite S1 in *. destruct (Nat.eqb_spec g fd); [contradiction|]. auto.
    + cbn [delivers_charged]. split; [|exact HD]. exists (wfor (sock s fd)). rewrite C1. destruct (N.eqb_spec (wfor (sock s fd)) 0); [contradiction|reflexivity].
  - destruct (Nat.eqb_spec i 0) as [Z|Z]; [cbn [orb fst snd app]; split; [exact HP|split; assumption]|]. destruct (Nat.leb_spec (length (pool s)) i) as [L|L]; [cbn [orb fst snd app]; split; [exact HP|split; assumption]|]. cbn [orb].
    unfold report. cbv zeta. set (fd := efd (nth i (pool s) de)). assert (Hi : (0 < i < length (pool s))%nat) by lia. destruct (remove_ok w s i HP Hi) as (A & B & D & E). fold fd in B, E. set (s1 := removeFromPool s (Some i)) in *.
    destruct (D fd) as (D1 & D2). rewrite D1, D2. destruct (N.eqb_spec (wfor (sock s fd)) 0) as [W|W].
    + cbn [fst snd app]. split; [exact A|]. split; [|exact HD]. eapply (leave_ok w s h h fd s1 HP HC A); [congruence|exact B| | |auto|auto].
      * intros g N. destruct (D g) as (-> & ->). specialize (E g N). auto.
      * destruct (HC fd) as (-> & _). rewrite W. reflexivity.
    + cbn [fst snd app]. set (s2 := clearWait s1 fd). assert (HP2 : P w s2) by (apply clear_P; [exact A|reflexivity]).
      assert (S2 : forall g, sock s2 g = if Nat.eqb g fd then mkI 0 (udata (sock s1 fd)) (ppos (sock s1 fd)) else sock s1 g) by (intros g; apply sock_with).
      split; [exact HP2|]. split.
      * eapply (leave_ok w s h _ fd s2 HP HC HP2); [rewrite S2, Nat.eqb_refl; reflexivity|rewrite S2, Nat.eqb_refl; exact B| |cbn [charged]; rewrite Nat.eqb_refl; reflexivity|intros g N; cbn [charged]; destruct (Nat.eqb_spec fd g); congruence|auto].
        intros g N. rewrite S2. destruct (Nat.eqb_spec g fd); [contradiction|]. destruct (D g) as (-> & ->). specialize (E g N). auto.
      * cbn [delivers_charged]. split; [|exact HD]. destruct (HC fd) as (-> & _). exists (wfor (sock s fd)). destruct (N.eqb_spec (wfor (sock s fd)) 0); [contradiction|reflexivity].
  - cbn [fst snd app]. split; [split; [apply HP|intros k Hk; apply (p_in _ _ HP k Hk)|intros g k Q; apply (p_back _ _ HP g k Q)]|]. split; [|exact HD].
    intros g. cbn [cancelAll sock wfor udata ppos charged cancelled]. split; [reflexivity|]. split; [intros Q; contradiction|discriminate].
Qed.
Lemma run_ok : forall l w s h, Inv w s h -> Inv w (snd (run l h s)) (fst (run l h s)).
Proof. induction l as [|o l IH]; intros w s h H; cbn [run]; [exact H|]. cbv zeta. apply IH, step_ok; auto. Qed.
Lemma init_ok : forall w, Inv w (init w) [].
Proof.
  intros w. split; [split|split; [|exact I]].
  - exists 1, []. reflexivity.
  - intros i Hi. cbn in Hi. lia.
  - intros fd i H. discriminate.
  - intros fd. cbn. split; [reflexivity|]. split; [intros Q; contradiction|reflexivity].
Qed.
