From Coq Require Import ZArith Permutation.
From Verif Require Import Common ClusterAlloc_Spec ClusterAlloc_Model ClusterAlloc_Proof ClusterInv_Proof.
Local Open Scope Z_scope.

Section Run.
Variable sz0 : Z.
Hypothesis Sz : 1 <= sz0 <= 254.

Lemma Inv_apart F G s live p n o q m o' : Inv sz0 F G s live -> In (p, n, o) live -> In (q, m, o') live -> p <> q -> apart p n q m.
Proof.
  intros I H1 H2 N. pose proof (ivC _ _ _ _ _ I) as IC.
  destruct (ilB _ _ _ _ (ivL _ _ _ _ _ I) _ _ _ H1) as (L1 & c & i & Hc & Bc & Sc & E1 & R1 & N1).
  destruct (ilB _ _ _ _ (ivL _ _ _ _ _ I) _ _ _ H2) as (L2 & d & j & Hd & Bd & Sd & E2 & R2 & N2).
  assert (A : apart p (cSize c) q (cSize d)).
  { subst p q. apply block_apart with F (sClusters s); auto; [lia|]. intros [-> ->]. congruence. }
  pose proof (bksize_ok n L1). pose proof (bksize_ok m L2). unfold apart in *. lia.
Qed.

(** ** checkEmpty *)
Lemma checkEmpty_noop fuel s k : nodupB (sClusters s) -> In k (sClusters s) -> isEmpty k = false ->
  checkEmpty fuel sz0 (cBase k) s = Ok s.
Proof.
  intros N H E. destruct fuel; cbn [checkEmpty]; rewrite (getC_in _ _ N H); cbn [obind]; destruct (cNext k); rewrite ?E; auto.
Qed.

Lemma removal F G s live k n l : Inv sz0 F G s live -> In k (sClusters s) -> F (cBase k) <> [] ->
  cNext k = Some n -> In l (sClusters s) -> cBase l = n -> isEmpty l = true ->
  exists G', Inv sz0 F G'
    (mkS (dropC n (putC (setNextC k (cNext l)) (sClusters s))) (sMultis s) (sObtained s)
         (sReturned s ++ [(n, memoryUsage sz0 (cCount l) (cSize k))])) live.
Proof.
  intros I Hk FN Nx Hl Bl El. pose proof (ivC _ _ _ _ _ I) as IC. pose proof (ivG _ _ _ _ _ I) as IG.
  pose proof (icN _ _ _ IC) as ND. set (bk := cSize k). assert (Ebk : bk = cSize k) by reflexivity. set (k' := setNextC k (cNext l)).
  assert (Hb : In (cBase k) (G bk)) by (apply (igF _ _ _ _ IG); exists k; auto).
  pose proof (igS _ _ _ _ IG k Hk) as Hm. apply in_map_iff in Hm as (m & Sm & Hm).
  destruct (igM _ _ _ _ IG m Hm) as (_ & _ & P). rewrite Sm in P. fold bk in P.
  apply in_split in Hb as (L1 & L2 & EG). rewrite EG in P.
  destruct (lpath_split _ _ _ _ _ P) as (k1 & Hk1 & Bk1 & P2).
  assert (k1 = k) as -> by (apply (nodup_same cBase (sClusters s)); auto).
  rewrite Nx in P2. destruct L2 as [|n1 L3]; cbn [lpath] in P2; [discriminate|].
  destruct P2 as [E (l1 & Hl1 & Bl1 & P3)]. injection E as <-.
  assert (l1 = l) as -> by (apply (nodup_same cBase (sClusters s)); auto; congruence).
  pose proof (igD _ _ _ _ IG bk) as D. rewrite EG in D.
  assert (Dn : cBase k <> n /\ ~ In (cBase k) L1 /\ ~ In (cBase k) L3 /\ ~ In n L1 /\ ~ In n L3).
  { pose proof (NoDup_remove_2 _ _ _ D) as D1. pose proof (NoDup_remove_1 _ _ _ D) as D2.
    pose proof (NoDup_remove_2 _ _ _ D2) as D3. repeat split.
    - intros E. apply D1. apply in_or_app. right. left. auto.
    - intros X. apply D1. apply in_or_app. left; auto.
    - intros X. apply D1. apply in_or_app. right. right; auto.
    - intros X. apply D3. apply in_or_app. left; auto.
    - intros X. apply D3. apply in_or_app. right; auto. }
  destruct Dn as (N1 & N2 & N3 & N4 & N5).
  assert (Sl : cSize l = bk).
  { assert (X : In n (G bk)) by (rewrite EG; apply in_or_app; right; right; left; auto).
    apply (igF _ _ _ _ IG) in X as (d & Hd & Bd & Sd & _). assert (d = l) as -> by (apply (nodup_same cBase (sClusters s)); auto; congruence). auto. }
  assert (Same : sameG k k') by (repeat split). assert (Bk' : cBase k' = cBase k) by reflexivity. assert (Sk' : cSize k' = cSize k) by reflexivity.
  assert (In' : forall d, In d (dropC n (putC k' (sClusters s))) <->
     cBase d <> n /\ ((In d (sClusters s) /\ cBase d <> cBase k) \/ d = k')).
  { intros d. rewrite in_dropC, in_putC. change (cBase k') with (cBase k). split; [tauto|]. intros [A [B|B]]; [tauto|].
    split; auto. right. split; auto. apply in_map; auto. }
  assert (Ik' : In k' (dropC n (putC k' (sClusters s)))) by (apply In'; split; auto).
  exists (set G bk (L1 ++ cBase k :: L3)). split; cbn [sClusters sMultis sObtained sReturned].
  - (* InvC *)
    pose proof (InvC_put sz0 F (sClusters s) k k' Hk Same (F (cBase k)) IC) as IC'.
    assert (Ck : CI k' (F (cBase k))).
    { pose proof (icC _ _ _ IC k Hk) as H. split; try apply H. }
    specialize (IC' Ck). split.
    + apply dropC_nodup. apply IC'.
    + intros d Hd. apply in_dropC in Hd as [Hd _]. apply (icC _ _ _ IC') in Hd.
      unfold set in Hd. destruct (Z.eqb_spec (cBase d) (cBase k)) as [E|E]; auto. rewrite E. auto.
    + intros d e Hd He. apply in_dropC in Hd as [Hd _]. apply in_dropC in He as [He _]. apply (icA _ _ _ IC'); auto.
  - (* InvG *)
    split; try apply IG.
    + intros m0 Hm0. destruct (igM _ _ _ _ IG m0 Hm0) as (A1 & A2 & P0). split; auto. split; auto.
      destruct (Z.eq_dec (mSize m0) bk) as [E|E].
      * assert (m0 = m) as -> by (apply (nodup_same mSize (sMultis s)); auto; [apply IG|congruence]).
        rewrite E, set_eq. apply lpath_replace with (sClusters s) (n :: L3).
        -- intros d Hd Ld. exists d. split; auto. apply In'. split; [intros X; rewrite X in Ld; contradiction|].
           left. split; auto. intros X. rewrite X in Ld. contradiction.
        -- exists k'. split; auto. split; auto. cbn [k' setNextC cNext]. apply lpath_ext with (sClusters s); auto.
           intros d Hd Ld. exists d. split; auto. apply In'. split; [intros X; rewrite X in Ld; contradiction|].
           left. split; auto. intros X. rewrite X in Ld. contradiction.
        -- rewrite <- EG, <- E. exact P0.
      * rewrite set_ne by auto. apply lpath_ext with (sClusters s); auto. intros d Hd Ld. exists d. split; auto.
        apply (igF _ _ _ _ IG) in Ld as (d' & Hd' & Bd' & Sd' & _).
        assert (d' = d) as -> by (apply (nodup_same cBase (sClusters s)); auto).
        apply In'. split.
        -- intros X. assert (d = l) as -> by (apply (nodup_same cBase (sClusters s)); auto; congruence). congruence.
        -- left. split; auto. intros X. assert (d = k) as -> by (apply (nodup_same cBase (sClusters s)); auto). unfold bk in E. congruence.
    + intros d Hd. apply In' in Hd as [_ [[Hd _]| ->]]; [apply (igS _ _ _ _ IG); auto|exact (igS _ _ _ _ IG k Hk)].
    + intros b. destruct (Z.eq_dec b bk) as [->|E]; [rewrite set_eq|rewrite set_ne by auto; apply IG].
      change (cBase k :: L3) with ([cBase k] ++ L3). rewrite app_assoc. apply (NoDup_remove_1 (L1 ++ [cBase k]) L3 n). rewrite <- app_assoc. exact D.
    + intros b x. assert (X : In x (set G b (L1 ++ cBase k :: L3) b) <-> In x (L1 ++ cBase k :: L3)) by (rewrite set_eq; tauto).
      destruct (Z.eq_dec b bk) as [->|E].
      * rewrite X. transitivity (In x (G bk) /\ x <> n).
        { rewrite EG, !in_app_iff. cbn [In]. split; [|intuition congruence].
          intros [A|[A|A]]; (split; [tauto|]); intros ->; [contradiction|congruence|contradiction]. }
        rewrite (igF _ _ _ _ IG). split.
        -- intros [(d & Hd & Bd & Sd & Fd) Nx0]. destruct (Z.eq_dec (cBase d) (cBase k)) as [Y|Y].
           ++ exists k'. split; auto. repeat split; auto; congruence.
           ++ exists d. split; auto. apply In'. split; [congruence|]. left. auto.
        -- intros (d & Hd & Bd & Sd & Fd). apply In' in Hd as [Nn [[Hd _]| ->]].
           ++ split; [|congruence]. exists d; auto.
           ++ split; [|congruence]. exists k; auto.
      * rewrite set_ne by auto. rewrite (igF _ _ _ _ IG). split.
        -- intros (d & Hd & Bd & Sd & Fd). exists d. split; auto. apply In'. split.
           ++ intros Y. assert (d = l) as -> by (apply (nodup_same cBase (sClusters s)); auto; congruence). congruence.
           ++ left. split; auto. intros Y. assert (d = k) as -> by (apply (nodup_same cBase (sClusters s)); auto). unfold bk in E. congruence.
        -- intros (d & Hd & Bd & Sd & Fd). apply In' in Hd as [Nn [[Hd _]| ->]]; [exists d; auto|exists k; auto].
  - (* InvL *)
    pose proof (ivL _ _ _ _ _ I) as IL. pose proof (icC _ _ _ IC l Hl) as CIl.
    pose proof (proj1 (CI_empty _ _ CIl) El) as Em.
    split; [apply IL| |].
    + intros p q o X. destruct (ilB _ _ _ _ IL _ _ _ X) as (Lq & d & j & Hd & Bd & Sd & E & R & Nj). split; auto.
      assert (Nl : cBase d <> n).
      { intros Y. assert (d = l) as -> by (apply (nodup_same cBase (sClusters s)); auto; congruence). apply Nj.
        rewrite <- Bd. apply Em; auto. }
      destruct (Z.eq_dec (cBase d) (cBase k)) as [Y|Y].
      * assert (d = k) as -> by (apply (nodup_same cBase (sClusters s)); auto). exists k', j. split; auto.
      * exists d, j. split; auto. apply In'. auto.
    + intros d j Hd R Nj. apply In' in Hd as [_ [[Hd _]| ->]].
      * apply (ilU _ _ _ _ IL); auto.
      * exact (ilU _ _ _ _ IL k j Hk R Nj).
  - (* InvA *)
    pose proof (ivA _ _ _ _ _ I) as IA. unfold InvA, areas in *. cbn [sClusters sObtained sReturned].
    rewrite IA. rewrite <- (areas_put sz0 (sClusters s) k k' Hk Same ND).
    set (f := fun c => (cBase c, memoryUsage sz0 (cCount c) (cSize c))).
    assert (Pm : Permutation (map f (putC k' (sClusters s))) (f l :: map f (dropC n (putC k' (sClusters s))))).
    { assert (ND' : nodupB (putC k' (sClusters s))) by (unfold nodupB; rewrite putC_bases; auto).
      assert (Hl' : In l (putC k' (sClusters s))) by (apply in_putC; left; split; auto; cbn; congruence).
      revert ND' Hl'. generalize (putC k' (sClusters s)). intros cs ND' Hl'.
      apply (Permutation_map f (l' := l :: dropC n cs)). clear - ND' Hl' Bl.
      induction cs as [|d cs IH]; [destruct Hl'|]. unfold nodupB in ND'. cbn [map] in ND'. apply NoDup_cons_iff in ND' as [A B].
      cbn [dropC filter]. destruct (Z.eqb_spec (cBase d) n) as [E|E]; cbn [negb].
      - destruct Hl' as [->|Hl']; [|exfalso; apply A; rewrite E, <- Bl; apply in_map; auto].
        apply perm_skip. clear IH. assert (X : forall x, In x cs -> cBase x <> n).
        { intros x Hx Y. apply A. rewrite E, <- Y. apply in_map; auto. }
        clear A B E. induction cs as [|e cs IH]; [constructor|]. cbn [dropC filter].
        destruct (Z.eqb_spec (cBase e) n) as [Y|_]; [exfalso; apply (X e); [left|]; auto|]. cbn [negb]. apply perm_skip. apply IH.
        intros x Hx. apply X. right; auto.
      - destruct Hl' as [->|Hl']; [congruence|]. rewrite perm_swap. apply perm_skip. apply IH; auto. }
    rewrite Pm. assert (f l = (n, memoryUsage sz0 (cCount l) (cSize k))) as -> by (unfold f; rewrite Bl, Sl; auto).
    cbn [app]. rewrite app_assoc. apply Permutation_cons_append.
Qed.

Lemma checkEmpty_ok F : forall fuel G s live k, Inv sz0 F G s live -> In k (sClusters s) -> F (cBase k) <> [] ->
  (length (sClusters s) <= fuel)%nat -> exists s' G', checkEmpty fuel sz0 (cBase k) s = Ok s' /\ Inv sz0 F G' s' live.
Proof.
  induction fuel as [|f IH]; intros G s live k I Hk FN L.
  - destruct (sClusters s); [destruct Hk|cbn in L; lia].
  - pose proof (ivC _ _ _ _ _ I) as IC. pose proof (ivG _ _ _ _ _ I) as IG. pose proof (icN _ _ _ IC) as ND.
    cbn [checkEmpty]. rewrite (getC_in _ _ ND Hk). cbn [obind]. destruct (cNext k) as [n|] eqn:Nx; [|eauto].
    destruct (isEmpty k) eqn:Ek; [|eauto].
    assert (exists l, In l (sClusters s) /\ cBase l = n /\ n <> cBase k) as (l & Hl & Bl & Nn).
    { assert (Hb : In (cBase k) (G (cSize k))) by (apply (igF _ _ _ _ IG); exists k; auto).
      pose proof (igS _ _ _ _ IG k Hk) as Hm. apply in_map_iff in Hm as (m & Sm & Hm).
      destruct (igM _ _ _ _ IG m Hm) as (_ & _ & P). rewrite Sm in P.
      apply in_split in Hb as (L1 & L2 & EG). rewrite EG in P.
      destruct (lpath_split _ _ _ _ _ P) as (k1 & Hk1 & Bk1 & P2).
      assert (k1 = k) as -> by (apply (nodup_same cBase (sClusters s)); auto).
      rewrite Nx in P2. destruct L2 as [|n1 L3]; cbn [lpath] in P2; [discriminate|].
      destruct P2 as [E (l1 & Hl1 & Bl1 & P3)]. injection E as <-. exists l1. split; auto. split; auto.
      pose proof (igD _ _ _ _ IG (cSize k)) as D. rewrite EG in D. apply NoDup_remove_2 in D. intros ->. apply D.
      apply in_or_app. right. left; auto. }
    assert (Gl : getC n (sClusters s) = Ok l) by (rewrite <- Bl; apply getC_in; auto). rewrite Gl. cbn [obind]. destruct (isEmpty l) eqn:El; [|eauto].
    destruct (removal F G s live k n l I Hk FN Nx Hl Bl El) as (G' & I').
    set (k' := setNextC k (cNext l)) in *. change (cBase k) with (cBase k'). apply (IH G'); auto.
    + cbn [sClusters]. apply in_dropC. split; [|cbn; congruence]. apply in_put' with k; auto. repeat split.
    + cbn [sClusters]. assert ((length (dropC n (putC k' (sClusters s))) < length (putC k' (sClusters s)))%nat).
      { apply dropC_length. rewrite putC_bases, <- Bl. apply in_map; auto. }
      rewrite putC_length in H. lia.
Qed.

(** ** freeing a block *)
Lemma InvA_put s c c' : nodupB (sClusters s) -> In c (sClusters s) -> sameG c c' -> InvA sz0 s ->
  InvA sz0 (setClusters (putC c' (sClusters s)) s).
Proof.
  intros N H S A. unfold InvA, areas in *. cbn [setClusters sClusters sObtained sReturned].
  rewrite (areas_put sz0 (sClusters s) c c' H S N). exact A.
Qed.

Lemma freed F G s live c i : Inv sz0 F G s live -> In c (sClusters s) -> 0 <= i < cCount c -> ~ In i (F (cBase c)) ->
  exists c', makeDealloc sz0 c (mapIndex sz0 c i) (cSize c) = Ok c' /\ cBase c' = cBase c /\
    In c' (putC c' (sClusters s)) /\ cSize c' = cSize c /\
    (isFull c = false -> Inv sz0 (set F (cBase c) (i :: F (cBase c))) G (setClusters (putC c' (sClusters s)) s) (drop (mapIndex sz0 c i) live)) /\
    exists s' F' G', onDealloc sz0 (cBase c) (cSize c) (isFull c) (setClusters (putC c' (sClusters s)) s) = Ok s' /\
      Inv sz0 F' G' s' (drop (mapIndex sz0 c i) live).
Proof.
  intros I Hc R NI. pose proof (ivC _ _ _ _ _ I) as IC. pose proof (ivG _ _ _ _ _ I) as IG. pose proof (icN _ _ _ IC) as ND.
  pose proof (ivL _ _ _ _ _ I) as IL. pose proof (icC _ _ _ IC c Hc) as H.
  destruct (makeDealloc_ok sz0 c (F (cBase c)) i H R NI) as (c' & E & H' & SC). exists c'. split; auto.
  pose proof (sameC_G _ _ SC) as SG. pose proof SC as (B1 & B2 & B3 & B4). split; auto.
  assert (Ic' : In c' (putC c' (sClusters s))) by (apply in_put' with c; auto). split; auto. split; auto.
  set (F1 := set F (cBase c) (i :: F (cBase c))).
  assert (IC1 : InvC sz0 F1 (putC c' (sClusters s))) by (apply InvC_put; auto).
  assert (IL1 : InvL sz0 F1 (putC c' (sClusters s)) (drop (mapIndex sz0 c i) live)) by (apply InvL_put_drop; auto; lia).
  assert (IA1 : InvA sz0 (setClusters (putC c' (sClusters s)) s)) by (apply (InvA_put s c); auto; apply I).
  assert (F1c : F1 (cBase c) <> []) by (unfold F1; rewrite set_eq; discriminate).
  assert (Nf : isFull c = false -> Inv sz0 F1 G (setClusters (putC c' (sClusters s)) s) (drop (mapIndex sz0 c i) live)).
  { intros Ef. rewrite (CI_full _ _ H) in Ef. split; auto. cbn [setClusters sClusters sMultis]. apply InvG_put; auto.
    destruct (F (cBase c)); [discriminate|]. split; discriminate. }
  split; auto. unfold onDealloc. destruct (isFull c) eqn:Ef.
  - (* back to the list *)
    rewrite (CI_full _ _ H) in Ef. assert (EF : F (cBase c) = []) by (destruct (F (cBase c)); [auto|discriminate]).
    pose proof (igS _ _ _ _ IG c Hc) as Hm. apply in_map_iff in Hm as (m & Sm & Hm).
    cbn [setClusters sClusters sMultis sObtained sReturned]. rewrite <- Sm. rewrite (findM_in _ _ (igN _ _ _ _ IG) Hm).
    rewrite <- B1. rewrite (getC_in _ _ (icN _ _ _ IC1) Ic'). cbn [obind].
    unfold setFree. cbn [setClusters sClusters sMultis sObtained sReturned]. rewrite (findM_in _ _ (igN _ _ _ _ IG) Hm). cbn [obind].
    set (c2 := setNextC c' (mFree m)). set (m2 := mkM (mSize m) (mNextCnt m) (Some (cBase c'))).
    set (cs2 := putC c2 (putC c' (sClusters s))).
    assert (SG2 : sameG c' c2) by (repeat split).
    assert (Ic2 : In c2 cs2) by (apply in_put' with c'; auto).
    assert (I2 : Inv sz0 F1 (set G (mSize m) (cBase c :: G (mSize m)))
              (mkS cs2 (putM m2 (sMultis s)) (sObtained s) (sReturned s)) (drop (mapIndex sz0 c i) live)).
    { assert (SF : forall x, set F1 (cBase c') (F1 (cBase c')) x = F1 x).
      { intros x. unfold set. destruct (Z.eqb_spec x (cBase c')) as [->|]; auto. }
      assert (In2 : forall d, In d cs2 <-> (In d (sClusters s) /\ cBase d <> cBase c) \/ d = c2).
      { intros d. unfold cs2. rewrite !in_putC. rewrite putC_bases. change (cBase c2) with (cBase c'). rewrite B1.
        pose proof (in_map cBase _ _ Hc). split; [|tauto]. intros [[[A|[A _]] B]|[A _]]; [left; tauto|subst d; contradiction|tauto]. }
      assert (NG : ~ In (cBase c) (G (mSize m))).
      { rewrite (igF _ _ _ _ IG). intros (d & _ & _ & _ & X). contradiction. }
      split; cbn [sClusters sMultis].
      - pose proof (InvC_put sz0 F1 _ c' c2 Ic' SG2 (F1 (cBase c')) IC1) as X.
        assert (CI c2 (F1 (cBase c'))) as Y.
        { pose proof (icC _ _ _ IC1 c' Ic') as Y. split; try apply Y. }
        specialize (X Y). split; try apply X. intros d Hd. rewrite <- SF. apply (icC _ _ _ X); auto.
      - split.
        + rewrite putM_sizes. apply IG.
        + intros m0 Hm0. apply in_putM in Hm0 as [[Hm0 N0]|[-> _]].
          * cbn [m2 mSize] in N0. destruct (igM _ _ _ _ IG m0 Hm0) as (A1 & A2 & P0). split; auto. split; auto.
            rewrite set_ne by auto. apply lpath_ext with (sClusters s); auto. intros d Hd Ld. exists d. split; auto.
            apply In2. left. split; auto. intros X. rewrite X in Ld. apply (igF _ _ _ _ IG) in Ld as (e & _ & _ & _ & Y). contradiction.
          * destruct (igM _ _ _ _ IG m Hm) as (A1 & A2 & P0). split; auto. split; auto. cbn [m2 mSize mFree]. rewrite set_eq.
            cbn [lpath]. split; [congruence|]. exists c2. split; auto. split; [exact B1|]. cbn [c2 setNextC cNext].
            apply lpath_ext with (sClusters s); auto. intros d Hd Ld. exists d. split; auto. apply In2. left. split; auto.
            intros X. rewrite X in Ld. contradiction.
        + intros d Hd. rewrite putM_sizes. apply In2 in Hd as [[Hd _]| ->]; [apply (igS _ _ _ _ IG); auto|].
          cbn [c2 setNextC cSize]. rewrite B2. apply (igS _ _ _ _ IG); auto.
        + intros b. destruct (Z.eq_dec b (mSize m)) as [->|X]; [rewrite set_eq; constructor; [auto|apply IG]|rewrite set_ne by auto; apply IG].
        + intros b x. assert (Old : forall d, In d (sClusters s) -> cBase d <> cBase c -> In d cs2) by (intros d A B; apply In2; auto).
          destruct (Z.eq_dec b (mSize m)) as [->|X]; [rewrite set_eq|rewrite set_ne by auto].
          * cbn [In]. rewrite (igF _ _ _ _ IG). split.
            -- intros [<-|(d & Hd & Bd & Sd & Fd)]; [exists c2; repeat split; auto; cbn; congruence|].
               assert (cBase d <> cBase c) by congruence. exists d. repeat split; auto.
               unfold F1. rewrite set_ne by congruence. auto.
            -- intros (d & Hd & Bd & Sd & Fd). apply In2 in Hd as [[Hd Nd]| ->].
               ++ right. exists d. unfold F1 in Fd. rewrite set_ne in Fd by congruence. auto.
               ++ left. cbn in Bd. congruence.
          * rewrite (igF _ _ _ _ IG). split.
            -- intros (d & Hd & Bd & Sd & Fd). assert (cBase d <> cBase c) by congruence. exists d. repeat split; auto.
               unfold F1. rewrite set_ne by congruence. auto.
            -- intros (d & Hd & Bd & Sd & Fd). apply In2 in Hd as [[Hd Nd]| ->].
               ++ exists d. unfold F1 in Fd. rewrite set_ne in Fd by congruence. auto.
               ++ cbn in Sd. congruence.
      - pose proof (InvL_put_same sz0 F1 _ c' c2 Ic' SG2 _ _ IC1 IL1 eq_refl) as X. split; try apply X.
        + intros p q o Y. destruct (ilB _ _ _ _ X _ _ _ Y) as (A & d & j & A1 & A2 & A3 & A4 & A5 & A6). rewrite SF in A6. split; auto.
          exists d, j. tauto.
        + intros d j Hd Rj Nj. apply (ilU _ _ _ _ X); auto. rewrite SF. auto.
      - pose proof (InvA_put _ c' c2 (icN _ _ _ IC1 : nodupB (sClusters (setClusters (putC c' (sClusters s)) s))) Ic' SG2 IA1) as X. exact X. }
    change (cBase c') with (cBase c2). cbn [sClusters].
    destruct (checkEmpty_ok F1 (length cs2) _ _ _ c2 I2 Ic2) as (s' & G' & Q & I3); auto.
    { cbn [c2 setNextC cBase]. rewrite B1. auto. }
    exists s', F1, G'. split; auto.
  - cbn [obind]. rewrite <- B1. destruct (checkEmpty_ok F1 (length (sClusters (setClusters (putC c' (sClusters s)) s))) _ _ _ c' (Nf eq_refl) Ic') as (s' & G' & Q & I3); auto.
    { rewrite B1. auto. }
    exists s', F1, G'. split; auto.
Qed.

Lemma ownerDealloc_ok F G s live p n o : Inv sz0 F G s live -> In (p, n, o) live -> objSize2bksize n = n ->
  exists s' F' G', ownerDealloc sz0 o p n s = Ok s' /\ Inv sz0 F' G' s' (drop p live).
Proof.
  intros I H E. destruct (ilB _ _ _ _ (ivL _ _ _ _ _ I) _ _ _ H) as (L & c & i & Hc & Bc & Sc & -> & R & NI). subst o.
  destruct (freed F G s live c i I Hc R NI) as (c' & Q & B1 & Ic' & B2 & Nf & s' & F' & G' & Q' & I').
  unfold ownerDealloc. rewrite (getC_in _ _ (icN _ _ _ (ivC _ _ _ _ _ I)) Hc). cbn [obind].
  rewrite <- Sc. rewrite isMyPtr_ok; auto; [|rewrite Sc; pose proof (bksize_ok n L); lia]. cbn [negb].
  destruct (Z.eqb_spec n 0); [lia|]. rewrite E in Sc. rewrite Sc in Q. rewrite Q. cbn [obind]. rewrite B2.
  destruct (isFull c || isEmpty c') eqn:W; [eauto|]. apply orb_false_iff in W as [W _]. eexists _, _, G. split; [reflexivity|].
  apply Nf. auto.
Qed.

Lemma seekBack_in bk p : forall l d, seekBack bk p l = Some d -> In d l /\ cSize d = bk /\ cBase d <= p.
Proof.
  induction l as [|e l IH]; intros d H; [discriminate|]. cbn [seekBack] in H.
  destruct (Z.eqb_spec (cSize e) bk) as [Es|_]; cbn [andb] in H; [destruct (Z.leb_spec (cBase e) p) as [Le|_]|].
  - destruct (seekBack bk p l) as [x|] eqn:Er.
    + destruct (IH x eq_refl) as (A & B & C). destruct (cBase x <? cBase e); injection H as <-; cbn [In]; auto.
    + injection H as <-. cbn [In]; auto.
  - destruct (IH d H) as (A & B & C). cbn [In]; auto.
  - destruct (IH d H) as (A & B & C). cbn [In]; auto.
Qed.
Lemma seekBack_max bk p : forall l c, In c l -> cSize c = bk -> cBase c <= p ->
  exists d, seekBack bk p l = Some d /\ cBase c <= cBase d.
Proof.
  induction l as [|e l IH]; intros c H S L; [destruct H|]. cbn [seekBack]. destruct H as [->|H].
  - rewrite S, Z.eqb_refl. apply Z.leb_le in L. rewrite L. cbn [andb]. destruct (seekBack bk p l) as [x|].
    + destruct (Z.ltb_spec (cBase x) (cBase c)); eexists; (split; [reflexivity|lia]).
    + eexists; split; [reflexivity|lia].
  - destruct (IH c H S L) as (d & E & Ld). rewrite E. destruct ((cSize e =? bk) && (cBase e <=? p)); [|eauto].
    destruct (Z.ltb_spec (cBase d) (cBase e)); eexists; (split; [reflexivity|lia]).
Qed.

Lemma clusterDealloc_ok F G s live p n o : Inv sz0 F G s live -> In (p, n, o) live ->
  exists s' F' G', clusterDealloc sz0 p n s = Ok s' /\ Inv sz0 F' G' s' (drop p live).
Proof.
  intros I H. destruct (ilB _ _ _ _ (ivL _ _ _ _ _ I) _ _ _ H) as (L & c & i & Hc & Bc & Sc & E & R & NI). subst o.
  pose proof (ivC _ _ _ _ _ I) as IC. pose proof (ivG _ _ _ _ _ I) as IG.
  pose proof (icC _ _ _ IC c Hc) as CIc. pose proof (ciSize _ _ CIc) as B.
  assert (My : isMyPtr sz0 c p (cSize c) = true) by (rewrite E; apply isMyPtr_ok; auto).
  destruct (isMyPtr_area sz0 ltac:(lia) c p My) as [A1 A2].
  destruct (freed F G s live c i I Hc R NI) as (c' & Q & B1 & Ic' & B2 & Nf & s' & F' & G' & Q' & I'). rewrite <- E in *.
  pose proof (igS _ _ _ _ IG c Hc) as Hm. apply in_map_iff in Hm as (m & Sm & Hm).
  unfold clusterDealloc. rewrite <- Sc, <- Sm, (findM_in _ _ (igN _ _ _ _ IG) Hm). unfold multiDealloc. rewrite Sm.
  destruct (igM _ _ _ _ IG m Hm) as (_ & _ & P). rewrite Sm in P.
  assert (SB : seekBack (cSize c) p (sClusters s) = Some c).
  { destruct (seekBack_max (cSize c) p (sClusters s) c Hc eq_refl ltac:(lia)) as (d & Ed & Ld). rewrite Ed. f_equal.
    destruct (seekBack_in _ _ _ _ Ed) as (Hd & Sd & Bd).
    destruct (Z.eq_dec (cBase c) (cBase d)) as [X|X]; [symmetry; apply (nodup_same cBase (sClusters s)); auto; apply IC|].
    destruct (icA _ _ _ IC c d Hc Hd X) as [Y|Y]; [lia|]. exfalso.
    assert (1 <= use sz0 d); [|lia]. pose proof (icC _ _ _ IC d Hd) as CId. pose proof (ciSize _ _ CId). pose proof (ciCount _ _ CId).
    pose proof (hdr_pos sz0 ltac:(lia)). unfold use, memoryUsage. nia. }
  destruct (G (cSize c)) as [|b L'] eqn:EG; cbn [lpath] in P.
  - rewrite P. cbn [obind]. rewrite SB, My, Q. cbn [obind]. rewrite B1. eauto.
  - destruct P as [P (d & Hd & Bd & P2)]. rewrite P, <- Bd, (getC_in _ _ (icN _ _ _ IC) Hd). cbn [obind].
    assert (Gd : In b (G (cSize c))) by (rewrite EG; left; auto).
    apply (igF _ _ _ _ IG) in Gd as (d' & Hd' & Bd' & Sd' & Fd').
    assert (d' = d) as -> by (apply (nodup_same cBase (sClusters s)); auto; [apply IC|congruence]).
    replace (isMyPtr sz0 d p (cSize c)) with (isMyPtr sz0 d p (cSize d)) by (rewrite Sd'; auto). destruct (isMyPtr sz0 d p (cSize d)) eqn:Md.
    + destruct (isMyPtr_area sz0 ltac:(lia) d p Md) as [D1 D2].
      assert (d = c) as -> by (apply (area_unique sz0 F (sClusters s) d c p); auto).
      rewrite Q. cbn [obind]. rewrite B1. rewrite (CI_full _ _ CIc) in Q'.
      rewrite Bd in Q'. destruct (F b); [contradiction|]. rewrite Bd. eauto.
    + rewrite SB, My, Q. cbn [obind]. rewrite B1. eauto.
Qed.
End Run.
