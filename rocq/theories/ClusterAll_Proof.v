From Coq Require Import ZArith Permutation.
From Verif Require Import Common ClusterAlloc_Spec ClusterAlloc_Model ClusterAlloc_Proof ClusterInv_Proof ClusterRun_Proof.
Local Open Scope Z_scope.

Lemma nodup_app {A} : forall l1 l2 : list A, NoDup l1 -> NoDup l2 -> (forall x, In x l1 -> In x l2 -> False) -> NoDup (l1 ++ l2).
Proof.
  induction l1 as [|x l1 IH]; intros l2 N1 N2 D; cbn [app]; auto. apply NoDup_cons_iff in N1 as [A1 B1]. constructor.
  - rewrite in_app_iff. intros [X|X]; [contradiction|]. apply (D x); [left|]; auto.
  - apply IH; auto. intros y Hy. apply D. right; auto.
Qed.

Section All.
Variable sz0 : Z.
Hypothesis Sz : 1 <= sz0 <= 254.

(** ** allocation *)
Definition allocTail (b bk : Z) (s : cst) : outcome (Z * Z * cst) :=
  let! c := getC b (sClusters s) in
  let! (p, c) := makeAlloc sz0 c in
  let s := setClusters (putC c (sClusters s)) s in
  let! s := checkEmpty (length (sClusters s)) sz0 b s in
  let! c := getC b (sClusters s) in
  let! s := if isFull c then setFree bk (cNext c) s else Ok s in
  Ok (p, b, s).

Lemma allocTail_ok F G s live m b n : Inv sz0 F G s live -> In m (sMultis s) -> mFree m = Some b ->
  mSize m = objSize2bksize n -> 1 <= n ->
  exists p s' F' G', allocTail b (mSize m) s = Ok (p, b, s') /\ Inv sz0 F' G' s' ((p, n, b) :: live).
Proof.
  intros I Hm Fm Sm Ln. pose proof (ivC _ _ _ _ _ I) as IC. pose proof (ivG _ _ _ _ _ I) as IG.
  pose proof (icN _ _ _ IC) as ND. pose proof (ivL _ _ _ _ _ I) as IL.
  destruct (igM _ _ _ _ IG m Hm) as (A1 & A2 & P). rewrite Fm in P.
  destruct (G (mSize m)) as [|b' L] eqn:EG; cbn [lpath] in P; [discriminate|]. destruct P as [E (c & Hc & Bc & P)].
  injection E as <-.
  assert (Gb : In b (G (mSize m))) by (rewrite EG; left; auto).
  apply (igF _ _ _ _ IG) in Gb as (c1 & Hc1 & Bc1 & Sc & Fc).
  assert (c1 = c) as -> by (apply (nodup_same cBase (sClusters s)); auto; congruence). clear Hc1 Bc1. subst b.
  destruct (F (cBase c)) as [|x fl] eqn:EF; [contradiction|].
  pose proof (icC _ _ _ IC c Hc) as H. rewrite EF in H.
  destruct (makeAlloc_ok sz0 c x fl H) as (c' & Q & H' & SC). pose proof (sameC_G _ _ SC) as SG. pose proof SC as (B1 & B2 & B3 & B4).
  unfold allocTail. rewrite (getC_in _ _ ND Hc). cbn [obind]. rewrite Q. cbn [obind].
  set (s1 := setClusters (putC c' (sClusters s)) s). set (F1 := set F (cBase c) fl).
  assert (IC1 : InvC sz0 F1 (sClusters s1)) by (apply InvC_put; auto).
  assert (Ic' : In c' (sClusters s1)) by (apply in_put' with c; auto).
  assert (IL1 : InvL sz0 F1 (sClusters s1) ((mapIndex sz0 c x, n, cBase c) :: live)).
  { apply InvL_put_add; auto; [lia|congruence]. }
  assert (IA1 : InvA sz0 s1) by (apply (InvA_put sz0 s c); auto; apply I).
  assert (Ne : isEmpty c' = false).
  { unfold isEmpty. rewrite (ciUsed _ _ H'), B3. apply Z.eqb_neq. pose proof (CI_len _ _ H) as X. cbn [length] in X. lia. }
  rewrite <- B1. rewrite (checkEmpty_noop sz0 (length (sClusters s1)) s1 c' (icN _ _ _ IC1) Ic' Ne). cbn [obind].
  rewrite (getC_in _ _ (icN _ _ _ IC1) Ic'). cbn [obind]. rewrite (CI_full _ _ H'). rewrite B1.
  destruct fl as [|y fl].
  - unfold setFree. change (sMultis s1) with (sMultis s). rewrite (findM_in _ _ (igN _ _ _ _ IG) Hm). cbn [obind].
    eexists _, _, F1, (set G (mSize m) L). split; [reflexivity|]. split; cbn [sClusters sMultis].
    + exact IC1.
    + pose proof (igD _ _ _ _ IG (mSize m)) as D. rewrite EG in D. apply NoDup_cons_iff in D as [D1 D2].
      set (m2 := mkM (mSize m) (mNextCnt m) (cNext c')).
      assert (Old : forall d, In d (sClusters s) -> cBase d <> cBase c -> In d (sClusters s1)).
      { intros d Hd Nd. apply in_putC. left. split; auto. congruence. }
      split.
      * rewrite putM_sizes. apply IG.
      * intros m0 Hm0. apply in_putM in Hm0 as [[Hm0 N0]|[-> _]].
        -- cbn [m2 mSize] in N0. destruct (igM _ _ _ _ IG m0 Hm0) as (C1 & C2 & P0). split; auto. split; auto.
           rewrite set_ne by auto. apply lpath_ext with (sClusters s); auto. intros d Hd Ld. exists d. split; auto.
           apply Old; auto. intros X. apply (igF _ _ _ _ IG) in Ld as (e & He & Be & Se & _).
           assert (e = d) as -> by (apply (nodup_same cBase (sClusters s)); auto).
           assert (d = c) as -> by (apply (nodup_same cBase (sClusters s)); auto). congruence.
        -- split; auto. split; auto. cbn [m2 mSize mFree]. rewrite set_eq, B4.
           apply lpath_ext with (sClusters s); auto. intros d Hd Ld. exists d. split; auto.
           apply Old; auto. intros X. rewrite X in Ld. contradiction.
      * intros d Hd. rewrite putM_sizes. apply in_putC in Hd as [[Hd _]|[-> _]]; [apply (igS _ _ _ _ IG); auto|].
        rewrite B2. apply (igS _ _ _ _ IG); auto.
      * intros k. destruct (Z.eq_dec k (mSize m)) as [->|X]; [rewrite set_eq; auto|rewrite set_ne by auto; apply IG].
      * intros k z.
        transitivity (In z (G k) /\ z <> cBase c).
        { destruct (Z.eq_dec k (mSize m)) as [->|X]; [rewrite set_eq, EG|rewrite set_ne by auto].
          - cbn [In]. split; [|intuition congruence]. intros Hz. split; auto. intros ->. contradiction.
          - split; [|tauto]. intros Hz. split; auto. intros ->.
            apply (igF _ _ _ _ IG) in Hz as (e & He & Be & Se & _).
            assert (e = c) as -> by (apply (nodup_same cBase (sClusters s)); auto). congruence. }
        rewrite (igF _ _ _ _ IG). split.
        -- intros [(d & Hd & Bd & Sd & Fd) Nz]. exists d. split; [apply Old; auto; congruence|].
           unfold F1. rewrite set_ne by auto. auto.
        -- intros (d & Hd & Bd & Sd & Fd). apply in_putC in Hd as [[Hd Nd]|[-> _]].
           ++ rewrite B1 in Nd. unfold F1 in Fd. rewrite set_ne in Fd by congruence. split; [|congruence]. exists d; auto.
           ++ exfalso. apply Fd. rewrite <- Bd, B1. unfold F1. apply set_eq.
    + exact IL1.
    + exact IA1.
  - cbn [obind]. eexists _, _, F1, G. split; [reflexivity|]. split; auto. cbn [s1 setClusters sClusters sMultis].
    apply InvG_put; auto. rewrite EF. split; discriminate.
Qed.

Lemma add_cluster F G s live m a : Inv sz0 F G s live -> In m (sMultis s) -> mFree m = None ->
  (forall b n, In (b, n) (areas sz0 s) -> apart a (memoryUsage sz0 (mNextCnt m) (mSize m)) b n) ->
  exists F' G', Inv sz0 F' G'
    (mkS (newCluster a (mNextCnt m) (mSize m) :: sClusters s)
       (putM (mkM (mSize m) (if mNextCnt m <? 255 then mNextCnt m + 1 else mNextCnt m) (Some a)) (sMultis s))
       (sObtained s ++ [(a, memoryUsage sz0 (mNextCnt m) (mSize m))]) (sReturned s)) live.
Proof.
  intros I Hm Fm Ap. pose proof (ivC _ _ _ _ _ I) as IC. pose proof (ivG _ _ _ _ _ I) as IG.
  pose proof (icN _ _ _ IC) as ND. pose proof (ivL _ _ _ _ _ I) as IL.
  destruct (igM _ _ _ _ IG m Hm) as (A1 & A2 & P). rewrite Fm in P.
  assert (EG : G (mSize m) = []) by (destruct (G (mSize m)); auto; destruct P; discriminate).
  set (k := newCluster a (mNextCnt m) (mSize m)).
  pose proof (CI_new a (mNextCnt m) (mSize m) A1 A2) as CIk. fold k in CIk.
  set (F1 := set F a (map Z.of_nat (seq 0 (Z.to_nat (mNextCnt m))))).
  assert (Usek : 1 <= use sz0 k).
  { pose proof (hdr_pos sz0 ltac:(lia)). unfold use, memoryUsage. cbn [k newCluster cCount cSize]. nia. }
  assert (Apc : forall c, In c (sClusters s) -> apart a (use sz0 k) (cBase c) (use sz0 c)).
  { intros c Hc. apply (Ap (cBase c) (use sz0 c)). unfold areas. apply in_map_iff. exists c. auto. }
  assert (Fresh : forall c, In c (sClusters s) -> cBase c <> a).
  { intros c Hc E. specialize (Apc c Hc). pose proof (icC _ _ _ IC c Hc) as CIc. pose proof (ciSize _ _ CIc). pose proof (ciCount _ _ CIc).
    assert (1 <= use sz0 c).
    { pose proof (hdr_pos sz0 ltac:(lia)). unfold use, memoryUsage. nia. }
    unfold apart in Apc. lia. }
  assert (F1o : forall c, In c (sClusters s) -> F1 (cBase c) = F (cBase c)).
  { intros c Hc. unfold F1. apply set_ne. auto. }
  exists F1, (set G (mSize m) [a]). split; cbn [sClusters sMultis].
  - split.
    + unfold nodupB. cbn [map]. constructor; auto. intros X. apply in_map_iff in X as (c & E & Hc). cbn in E. apply (Fresh c); auto.
    + intros c [<-|Hc]; [cbn [k newCluster cBase]; unfold F1; rewrite set_eq; exact CIk|]. rewrite F1o; auto. apply IC; auto.
    + intros c d [<-|Hc] [<-|Hd] N; [contradiction|apply Apc; auto| |apply (icA _ _ _ IC); auto].
      specialize (Apc c Hc). cbn [k newCluster cBase]. unfold apart in *. lia.
  - split.
    + rewrite putM_sizes. apply IG.
    + intros m0 Hm0. apply in_putM in Hm0 as [[Hm0 N0]|[-> _]].
      * cbn [mSize] in N0. destruct (igM _ _ _ _ IG m0 Hm0) as (C1 & C2 & P0). split; auto. split; auto.
        rewrite set_ne by auto. apply lpath_ext with (sClusters s); auto. intros d Hd Ld. exists d. split; [right|]; auto.
      * cbn [mNextCnt mSize mFree]. split; [destruct (Z.ltb_spec (mNextCnt m) 255); lia|]. split; auto. rewrite set_eq.
        cbn [lpath]. split; auto. exists k. split; [left; auto|]. split; auto.
    + intros c. rewrite putM_sizes. intros [<-|Hc]; [cbn; apply in_map; auto|apply (igS _ _ _ _ IG); auto].
    + intros b. destruct (Z.eq_dec b (mSize m)) as [->|X]; [rewrite set_eq; constructor; [intros []|constructor]|rewrite set_ne by auto; apply IG].
    + intros b x. transitivity (In x (G b) \/ (b = mSize m /\ x = a)).
      { destruct (Z.eq_dec b (mSize m)) as [->|X]; [rewrite set_eq, EG; cbn [In]; intuition congruence|rewrite set_ne by auto; tauto]. }
      rewrite (igF _ _ _ _ IG). split.
      * intros [(d & Hd & Bd & Sd & Fd)|[-> ->]].
        -- exists d. split; [right; auto|]. rewrite <- Bd, F1o by auto. rewrite Bd. auto.
        -- exists k. split; [left; auto|]. repeat split; auto. unfold F1. rewrite set_eq.
           destruct (Z.to_nat (mNextCnt m)) eqn:E; [lia|discriminate].
      * intros (d & [<-|Hd] & Bd & Sd & Fd); [right; auto|]. left. exists d. rewrite <- Bd, F1o in Fd by auto. rewrite Bd in Fd. auto.
  - split; [apply IL| |].
    + intros p n o X. destruct (ilB _ _ _ _ IL _ _ _ X) as (Ln & c & i & Hc & Bc & R). split; auto. exists c, i. split; [right; auto|].
      rewrite <- Bc, F1o by auto. rewrite Bc. auto.
    + intros c i [<-|Hc] R N.
      * exfalso. apply N. cbn [k newCluster cBase cCount] in *. unfold F1. rewrite set_eq. apply in_map_iff. exists (Z.to_nat i).
        split; [lia|]. apply in_seq. lia.
      * rewrite F1o in N by auto. apply (ilU _ _ _ _ IL); auto.
  - unfold InvA, areas. cbn [sClusters sObtained sReturned map app]. rewrite <- Permutation_cons_append.
    cbn [k newCluster cBase cCount cSize]. apply perm_skip. apply I.
Qed.

Lemma add_multi F G s live bk : Inv sz0 F G s live -> ~ In bk (map mSize (sMultis s)) -> 1 <= bk ->
  Inv sz0 F G (mkS (sClusters s) (mkM bk (firstCnt sz0 bk) None :: sMultis s) (sObtained s) (sReturned s)) live.
Proof.
  intros I N B. pose proof (ivG _ _ _ _ _ I) as IG. split; try apply I. cbn [sClusters sMultis].
  assert (EG : G bk = []).
  { destruct (G bk) as [|b L] eqn:E; auto. exfalso. assert (X : In b (G bk)) by (rewrite E; left; auto).
    apply (igF _ _ _ _ IG) in X as (c & Hc & _ & Sc & _). apply N. rewrite <- Sc. apply (igS _ _ _ _ IG); auto. }
  split.
  - cbn [map mSize]. constructor; auto. apply IG.
  - intros m [<-|Hm]; [|apply IG; auto]. cbn [mNextCnt mSize mFree]. split; [apply firstCnt_ok; auto|]. split; auto.
    rewrite EG. reflexivity.
  - intros c Hc. cbn [map]. right. apply (igS _ _ _ _ IG); auto.
  - apply IG.
  - apply IG.
Qed.

Lemma multiAlloc_ok F G s live m a n : Inv sz0 F G s live -> In m (sMultis s) -> mSize m = objSize2bksize n -> 1 <= n ->
  (forall b k, In (b, k) (areas sz0 s) -> apart a (memoryUsage sz0 (mNextCnt m) (mSize m)) b k) ->
  exists p b s' F' G', multiAlloc sz0 a m s = Ok (p, b, s') /\ Inv sz0 F' G' s' ((p, n, b) :: live).
Proof.
  intros I Hm Sm Ln Ap. unfold multiAlloc. destruct (mFree m) as [b|] eqn:Fm; cbn [obind].
  - destruct (allocTail_ok F G s live m b n I Hm Fm Sm Ln) as (p & s' & F' & G' & Q & I').
    exists p, b, s', F', G'. split; auto.
  - destruct (add_cluster F G s live m a I Hm Fm Ap) as (F1 & G1 & I1).
    match type of I1 with Inv _ _ _ ?s1 _ => set (s1' := s1) in * end.
    set (m1 := mkM (mSize m) (if mNextCnt m <? 255 then mNextCnt m + 1 else mNextCnt m) (Some a)) in *.
    assert (Hm1 : In m1 (sMultis s1')).
    { apply in_putM. right. split; auto. cbn [m1 mSize]. apply in_map; auto. }
    destruct (allocTail_ok F1 G1 s1' live m1 a n I1 Hm1 eq_refl Sm Ln) as (p & s' & F' & G' & Q & I').
    exists p, a, s', F', G'. split; auto.
Qed.

Lemma clusterAlloc_ok F G s live sz a : Inv sz0 F G s live -> 1 <= sz ->
  (forall b k, In (b, k) (areas sz0 s) -> apart a (wants sz0 sz s) b k) ->
  exists p b s' F' G', clusterAlloc sz0 sz a s = Ok (p, b, s') /\ Inv sz0 F' G' s' ((p, sz, b) :: live).
Proof.
  intros I L Ap. unfold clusterAlloc, wants in *. pose proof (bksize_ok sz L) as B.
  destruct (findM (objSize2bksize sz) (sMultis s)) as [m|] eqn:E.
  - apply findM_some in E as [Hm Sm]. apply multiAlloc_ok with F G; auto. rewrite Sm. auto.
  - apply findM_none in E. destruct (Z.eqb_spec (objSize2bksize sz) 0); [lia|].
    apply multiAlloc_ok with F G; auto.
    + apply add_multi; auto. lia.
    + left; auto.
Qed.

(** ** writing *)
Lemma write_ok F G s live p v : Inv sz0 F G s live -> In p (map addr live) ->
  exists s' F', write sz0 p v s = Ok s' /\ Inv sz0 F' G s' live.
Proof.
  intros I H. apply in_map_iff in H as ([[q n] o] & E & H). cbn [addr fst] in E. subst q.
  pose proof (ivC _ _ _ _ _ I) as IC. pose proof (icN _ _ _ IC) as ND.
  destruct (ilB _ _ _ _ (ivL _ _ _ _ _ I) _ _ _ H) as (L & c & i & Hc & Bc & Sc & E & R & NI). subst o.
  pose proof (icC _ _ _ IC c Hc) as CIc.
  assert (My : isMyPtr sz0 c p (cSize c) = true) by (rewrite E; apply isMyPtr_ok; auto; apply CIc).
  assert (CO : clusterOf sz0 p (sClusters s) = Some c).
  { assert (X : forall l, (forall d, In d l -> In d (sClusters s)) -> In c l -> clusterOf sz0 p l = Some c).
    { induction l as [|d l IH]; intros A Hl; [destruct Hl|]. cbn [clusterOf]. destruct (isMyPtr sz0 d p (cSize d)) eqn:Md.
      - f_equal. destruct (isMyPtr_area sz0 ltac:(lia) c p My) as [A1 A2]. destruct (isMyPtr_area sz0 ltac:(lia) d p Md) as [D1 D2].
        apply (area_unique sz0 F (sClusters s) d c p); auto. apply A. left; auto.
      - apply IH; [intros e He; apply A; right; auto|]. destruct Hl as [->|Hl]; auto. congruence. }
    apply X; auto. }
  unfold write. rewrite CO. destruct (poke_ok sz0 c _ i v CIc R NI) as (c' & Q & H' & SC & _). rewrite E, Q. cbn [obind].
  exists (setClusters (putC c' (sClusters s)) s), (set F (cBase c) (F (cBase c))). split; auto.
  pose proof (sameC_G _ _ SC) as SG. split; cbn [setClusters sClusters sMultis].
  - apply InvC_put; auto.
  - apply InvG_put; auto; [apply I|tauto|apply SC].
  - apply InvL_put_same; auto. apply I.
  - apply (InvA_put sz0 s c); auto. apply I.
Qed.

(** ** clear *)
Lemma leaksAll_ok F cs : InvC sz0 F cs -> exists l, leaksAll sz0 cs = Ok l /\ NoDup l /\
  forall p, In p l <-> exists c i, In c cs /\ p = mapIndex sz0 c i /\ 0 <= i < cCount c /\ ~ In i (F (cBase c)).
Proof.
  intros IC. assert (X : forall l, nodupB l -> (forall d, In d l -> In d cs) -> exists r, leaksAll sz0 l = Ok r /\ NoDup r /\
    forall p, In p r <-> exists c i, In c l /\ p = mapIndex sz0 c i /\ 0 <= i < cCount c /\ ~ In i (F (cBase c))).
  { induction l as [|d l IH]; intros N A.
    - exists []. split; auto. split; [constructor|]. intros p. split; [intros []|intros (c & i & [] & _)].
    - unfold nodupB in N. cbn [map] in N. apply NoDup_cons_iff in N as [N1 N2].
      destruct (IH N2 ltac:(intros e He; apply A; right; auto)) as (r & Q & D & R).
      destruct (leaksC_ok sz0 d (F (cBase d)) (icC _ _ _ IC d (A d (or_introl eq_refl)))) as (r1 & Q1 & D1 & R1).
      exists (r1 ++ r). cbn [leaksAll]. rewrite Q1, Q. cbn [obind]. split; auto. split.
      + apply nodup_app; auto. intros p H1 H2. apply R1 in H1 as (i & E & Ri & Ni). apply R in H2 as (c & j & Hc & E2 & Rj & Nj).
        destruct (block_eq sz0 ltac:(lia) F cs d c i j IC) as [-> _]; auto; [apply A; left; auto|apply A; right; auto|congruence|].
        apply N1. apply in_map; auto.
      + intros p. rewrite in_app_iff, R1, R. split.
        * intros [(i & E)|(c & i & Hc & E)]; [exists d, i; split; [left; auto|tauto]|exists c, i; split; [right; auto|tauto]].
        * intros (c & i & [<-|Hc] & E); [left; exists i; tauto|right; exists c, i; tauto]. }
  apply X; auto. apply IC.
Qed.

Lemma clear_ok F G s live : Inv sz0 F G s live -> exists l s' F' G', clear sz0 s = Ok (l, s') /\
  Permutation l (map addr live) /\ Inv sz0 F' G' s' [] /\ sClusters s' = [].
Proof.
  intros I. destruct (leaksAll_ok F (sClusters s) (ivC _ _ _ _ _ I)) as (l & Q & D & R). unfold clear. rewrite Q. cbn [obind].
  eexists l, _, (fun _ => []), (fun _ => []). split; [reflexivity|]. split; [|split; [|reflexivity]].
  - apply NoDup_Permutation; auto; [apply (ivL _ _ _ _ _ I)|]. intros p. rewrite R. split.
    + intros (c & i & Hc & -> & Ri & Ni). apply (ilU _ _ _ _ (ivL _ _ _ _ _ I)); auto.
    + intros H. apply in_map_iff in H as ([[q n] o] & E & H). cbn [addr fst] in E. subst q.
      destruct (ilB _ _ _ _ (ivL _ _ _ _ _ I) _ _ _ H) as (_ & c & i & Hc & <- & _ & E & Ri & Ni). exists c, i. auto.
  - pose proof (Inv_empty sz0) as E. split; try apply E. unfold InvA, areas. cbn [sClusters sObtained sReturned map app].
    rewrite Permutation_app_comm. apply I.
Qed.

(** ** histories *)
Lemma castep_ok F G s live op : Inv sz0 F G s live -> legal sz0 [op] s live -> exact op ->
  exists s' a F' G', castep sz0 op s = Ok (s', a) /\ canswer op live a /\ Inv sz0 F' G' s' (liveAfter op a live).
Proof.
  intros I (A & B & _) Ex. destruct op as [sz a|p sz|o p sz|p v|]; cbn [castep callowed] in *.
  - destruct (clusterAlloc_ok F G s live sz a I A B) as (p & b & s' & F' & G' & Q & I'). rewrite Q. cbn [obind].
    exists s', (ABlock p b), F', G'. split; auto. split; auto. exists p, b. split; auto. intros q n o' Hq.
    apply (Inv_apart sz0 Sz F' G' s' _ p sz b q n o' I'); [left; auto|right; auto|]. intros ->.
    pose proof (ilN _ _ _ _ (ivL _ _ _ _ _ I')) as D. cbn [map addr fst] in D. apply NoDup_cons_iff in D as [D _]. apply D.
    apply in_map_iff. exists (q, n, o'). auto.
  - destruct A as (o & A). destruct (clusterDealloc_ok sz0 Sz F G s live p sz o I A) as (s' & F' & G' & Q & I'). rewrite Q. cbn [obind].
    exists s', ADone, F', G'. split; [auto|split; [reflexivity|exact I']].
  - destruct (ownerDealloc_ok sz0 Sz F G s live p sz o I A Ex) as (s' & F' & G' & Q & I'). rewrite Q. cbn [obind].
    exists s', ADone, F', G'. split; [auto|split; [reflexivity|exact I']].
  - destruct A as [A1 A2]. destruct (write_ok F G s live p v I A1) as (s' & F' & Q & I'). rewrite Q. cbn [obind].
    exists s', ADone, F', G. split; [auto|split; [reflexivity|exact I']].
  - destruct (clear_ok F G s live I) as (l & s' & F' & G' & Q & P & I' & _). rewrite Q. cbn [obind].
    exists s', (ALeaks l), F', G'. split; auto. split; auto. exists l. auto.
Qed.

Lemma carun_ok : forall ops F G s live done l, Inv sz0 F G s live -> chistory done l live -> legal sz0 ops s live -> Forall exact ops ->
  exists s' l' live' F' G', carun sz0 ops s live = Ok (s', l', live') /\ chistory (done ++ ops) (l ++ l') live' /\
    Inv sz0 F' G' s' live'.
Proof.
  induction ops as [|op ops IH]; intros F G s live done l I H L Ex; cbn [carun].
  - exists s, [], live, F, G. rewrite !app_nil_r. auto.
  - cbn [legal] in L. destruct L as (A & B & C). apply Forall_cons_iff in Ex as [Ex1 Ex2].
    destruct (castep_ok F G s live op I) as (s1 & a & F1 & G1 & Q & An & I1); auto. { cbn [legal]. auto. }
    rewrite Q. cbn [obind].
    destruct (IH F1 G1 s1 (liveAfter op a live) (done ++ [op]) (l ++ [a]) I1 (ch_step _ _ _ _ _ H A An) (C _ _ Q) Ex2)
      as (s2 & l2 & live2 & F2 & G2 & Q2 & H2 & I2).
    rewrite Q2. cbn [obind]. exists s2, (a :: l2), live2, F2, G2. split; auto. rewrite <- !app_assoc in H2. auto.
Qed.
End All.
