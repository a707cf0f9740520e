From Coq Require Import Permutation.
From Verif Require Import Common RefCnt_Spec SharedPtr_Model SharedRing_Proof SharedPtr_Proof.
From Verif Require RefCntStep_Proof RefCntRun_Proof.

Lemma liveCount_le t : liveCount t <= length t.
Proof.
  unfold liveCount. induction t as [|a t IH]; cbn [filter length]; [lia|]. destruct (pExists a); cbn [length]; lia.
Qed.

Lemma pvalue_nth t i v : nth_error t i = Some v -> pvalue t i = pRefers v.
Proof. intros H. unfold pvalue. rewrite H. auto. Qed.

(** ** destruction *)
Lemma destruct_outer h i : Inv h [] -> pouter (view h) i ->
  exists h', destruct_ h i = Ok h' /\ Inv h' [] /\ Shr [i] h h'.
Proof.
  intros [R I] (v & Hv & E & O). apply destroyAll_ok.
  - split; auto. split.
    + exact (oA _ _ _ _ I). + exact (oB _ _ _ _ I).
    + intros k w x Hw Ew Iw. left. destruct (oO _ _ _ _ I k w x Hw Ew Iw) as [|[]]; auto.
    + split; [constructor; [auto|constructor]|]. intros k [<-|[]]. exists v. split; auto. split; auto. congruence.
    + exact (oD _ _ _ _ I).
  - pose proof (liveCount_le (view h)). rewrite view_len in H. lia.
Qed.

Definition kept (h : world) (i : nat) : Prop :=
  pvalue (view h) i = None \/ exists k, k <> i /\ pthere (view h) k /\ pvalue (view h) k = pvalue (view h) i.

Lemma destruct_kept h i s : Inv h [] -> nth_error (nodes h) i = Some s -> nLive s = true -> kept h i ->
  exists h', destruct_ h i = Ok h' /\ Inv h' [] /\ view h' = upd (view h) i (PV false (nOwner s) None) /\
    alive h' = alive h /\ gone h' = gone h.
Proof.
  intros [R I] Hs L K. pose proof (view_nth _ _ _ Hs) as Hv.
  destruct (bury_ok h i s R Hs L) as (h1 & Q & V & A & G & R1).
  pose proof (ring_shared h i s R Hs L) as Sh.
  assert (I' : OI (alive h) (gone h) (upd (view h) i (PV false (nOwner s) None)) []).
  { eapply OI_keep; eauto.
    - constructor. - cbn. tauto.
    - intros x Rf. cbn in Rf. destruct K as [K|(k & Nk & Tk & Pk)].
      + rewrite (pvalue_nth _ _ _ Hv) in K. cbn in K. congruence.
      + exists k. rewrite Pk, (pvalue_nth _ _ _ Hv). auto. }
  unfold destruct_. cbn [destroyAll]. rewrite (getN_ok _ _ _ Hs L). cbn [obind].
  exists (bury h1 i s). split; [|split; [split; [auto|rewrite V, A, G; auto]|auto]].
  destruct (isSharedN i s).
  - rewrite Q. cbn [obind]. destruct (length (nodes h)); reflexivity.
  - injection Q as <-. destruct (nPtr s) as [x|] eqn:E; [|destruct (length (nodes h)); reflexivity].
    exfalso. destruct K as [K|(k & Nk & Tk & Pk)].
    + rewrite (pvalue_nth _ _ _ Hv) in K. cbn in K. congruence.
    + apply (Sh k x Nk Tk eq_refl). rewrite Pk, (pvalue_nth _ _ _ Hv). auto.
Qed.

(** ** joining *)
Lemma OI_more al go t i o w p : OI al go t [] -> nth_error t i = Some (PV false w None) ->
  (forall x, p = Some x -> nth_error al x = Some true) -> (forall y, o = Some y -> nth_error al y = Some true) ->
  OI al go (upd t i (PV true o p)) [].
Proof.
  intros I Hi Hp Ho. pose proof (nth_len _ _ _ Hi) as L.
  assert (C : forall k v, nth_error (upd t i (PV true o p)) k = Some v -> v = PV true o p \/ nth_error t k = Some v).
  { intros k v Hk. destruct (Nat.eq_dec k i) as [->|N].
    - rewrite nth_error_upd_eq in Hk by auto. left. congruence.
    - rewrite nth_error_upd_ne in Hk by auto. auto. }
  split.
  - intros k v x Hk E Rf. apply C in Hk as [->|Hk]; [cbn in Rf; auto|]. eapply (oA _ _ _ _ I); eauto.
  - intros x Hx. destruct (oB _ _ _ _ I x Hx) as (k & v & Hk & E & Rf). exists k, v.
    rewrite nth_error_upd_ne; auto. intros ->. rewrite Hi in Hk. injection Hk as <-. discriminate.
  - intros k v x Hk E Iv. apply C in Hk as [->|Hk]; [cbn in Iv; auto|]. eapply (oO _ _ _ _ I); eauto.
  - split; [constructor|]. intros k [].
  - exact (oD _ _ _ _ I).
Qed.

Lemma copyInto_ok h i j s : Inv h [] -> nth_error (nodes h) i = Some s -> vw s = died (nOwner s) ->
  pthere (view h) j -> (forall y, nOwner s = Some y -> nth_error (alive h) y = Some true) ->
  exists h', copyInto h i j = Ok h' /\ Inv h' [] /\ alive h' = alive h /\ gone h' = gone h /\
    view h' = upd (view h) i (PV true (nOwner s) (pvalue (view h) j)).
Proof.
  intros [R I] Hs D Hj Ho. pose proof (view_nth _ _ _ Hs) as Hv. pose proof (nth_len _ _ _ Hs) as L.
  destruct (there_get h j Hj) as (sj & Hsj & Lj & Gj & Nj & Pj).
  assert (Ds : nLive s = false) by (injection D as ->; auto).
  assert (Nij : i <> j) by (intros ->; congruence).
  unfold copyInto. rewrite Gj. cbn [obind]. rewrite Hs.
  set (h1 := putN h i (mkNode true (nOwner s) (nPtr sj) (nNext sj))).
  assert (V1 : view h1 = upd (view h) i (PV true (nOwner s) (nPtr sj))) by (apply view_put).
  assert (Hj1 : pthere (view h1) j).
  { rewrite V1. destruct Hj as (v & H1 & H2). exists v. rewrite nth_error_upd_ne; auto. }
  destruct (setNext_ok h1 j i Hj1) as (h' & Q & (V' & A' & G') & E1 & F1). exists h'. split; auto.
  assert (Ti : ~ pthere (view h) i).
  { intros (v & H1 & H2). rewrite Hv in H1. injection H1 as <-. cbn in H2. congruence. }
  rewrite V', V1, A', G', Pj. split; [|auto]. split.
  - unfold Rings. rewrite V', V1.
    apply RI_join with (pthere (view h)) (nx h) (pvalue (view h)) i j; auto.
    + intros k. unfold pthere. destruct (Nat.eq_dec k i) as [->|Nk].
      * rewrite nth_error_upd_eq by (rewrite view_len; auto). split; eauto.
      * rewrite nth_error_upd_ne by auto. split; [auto|]. intros [H|H]; [auto|contradiction].
    + rewrite F1 by auto. unfold h1. rewrite nx_put_eq by auto. cbn. congruence.
    + intros k K1 K2. rewrite F1 by auto. unfold h1. apply nx_put_ne; auto.
    + rewrite Pj. unfold pvalue at 1. rewrite nth_error_upd_eq by (rewrite view_len; auto). reflexivity.
    + intros k Nk. apply pvalue_upd_ne; auto.
  - rewrite V', V1, A', G'. apply OI_more with (nOwner s); auto.
    + rewrite Hv. rewrite D. reflexivity.
    + intros x Hx. destruct Hj as (v & H1 & H2). apply (oA _ _ _ _ I j v x); auto.
      rewrite (pvalue_nth _ _ _ H1) in Pj. congruence.
Qed.

(** ** new variables *)
Lemma view_add h b o p : view (addNode h b o p) = view h ++ [PV b o p].
Proof. unfold view, addNode. cbn [nodes]. rewrite map_app. reflexivity. Qed.

Lemma pthere_app t v k : pthere (t ++ [v]) k <-> pthere t k \/ (k = length t /\ pExists v = true).
Proof.
  unfold pthere. split.
  - intros (w & Hw & E). destruct (Nat.lt_ge_cases k (length t)) as [L|L].
    + rewrite nth_error_app1 in Hw by auto. eauto.
    + rewrite nth_error_app2 in Hw by auto. destruct (k - length t) as [|[|]] eqn:X; try discriminate.
      injection Hw as ->. right. split; [lia|auto].
  - intros [(w & Hw & E)|[-> E]].
    + exists w. split; auto. apply RefCntStep_Proof.nth_app_some; auto.
    + exists v. split; auto. apply RefCntStep_Proof.nth_last.
Qed.
Lemma pthere_lt t k : pthere t k -> k < length t.
Proof. intros (v & H & _). eapply nth_len; eauto. Qed.
Lemma pvalue_app t v k : k < length t -> pvalue (t ++ [v]) k = pvalue t k.
Proof. intros L. unfold pvalue. rewrite nth_error_app1; auto. Qed.
Lemma pvalue_app_last t v : pvalue (t ++ [v]) (length t) = pRefers v.
Proof. unfold pvalue. rewrite RefCntStep_Proof.nth_last. auto. Qed.
Lemma pvalue_out t k : length t <= k -> pvalue t k = None.
Proof. intros L. unfold pvalue. apply nth_error_None in L. rewrite L. auto. Qed.

Lemma nx_add h b o p k : nx (addNode h b o p) k = if k =? length (nodes h) then length (nodes h) else nx h k.
Proof.
  unfold nx, addNode. cbn [nodes]. destruct (Nat.eqb_spec k (length (nodes h))) as [->|N].
  - rewrite RefCntStep_Proof.nth_last. reflexivity.
  - destruct (Nat.lt_ge_cases k (length (nodes h))).
    + rewrite nth_error_app1; auto.
    + rewrite nth_error_app2 by auto. destruct (k - length (nodes h)) as [|[|]] eqn:X; try lia; cbn;
        destruct (nth_error (nodes h) k) eqn:Y; auto; apply nth_len in Y; lia.
Qed.

Lemma Rings_add h b o p : Rings h -> (forall k x, pthere (view h) k -> p = Some x -> pvalue (view h) k <> Some x) ->
  Rings (addNode h b o p).
Proof.
  intros R U. unfold Rings. rewrite view_add. destruct b.
  - apply RI_alone with (pthere (view h)) (nx h) (pvalue (view h)) (length (nodes h)); auto.
    + intros H. apply there_len in H. lia.
    + intros k. rewrite pthere_app, view_len. cbn. tauto.
    + rewrite nx_add, Nat.eqb_refl. auto.
    + intros k Nk. rewrite nx_add. apply Nat.eqb_neq in Nk. rewrite Nk. auto.
    + intros k Nk. destruct (Nat.lt_ge_cases k (length (view h))) as [L|L]; [apply pvalue_app; auto|].
      rewrite (pvalue_out (view h)) by auto. apply pvalue_out. rewrite app_length, view_len in *. cbn. lia.
    + intros k x Hk. rewrite <- view_len, pvalue_app_last. cbn. intros E. eapply U; eauto.
  - apply RI_ext with (pthere (view h)) (nx h) (pvalue (view h)); auto.
    + intros k. rewrite pthere_app. cbn. intuition congruence.
    + intros k Hk. rewrite nx_add. apply there_len in Hk. destruct (Nat.eqb_spec k (length (nodes h))); [lia|auto].
    + intros k Hk. apply pvalue_app. apply pthere_lt; auto.
Qed.

Lemma view_members m o : forall h, view (addMembers m o h) = view h ++ repeat (PV true (Some o) None) m.
Proof.
  induction m as [|m IH]; intros h; cbn [addMembers repeat].
  - rewrite app_nil_r. auto.
  - rewrite IH, view_add, <- app_assoc. reflexivity.
Qed.
Lemma Rings_members m o : forall h, Rings h -> Rings (addMembers m o h).
Proof.
  induction m as [|m IH]; intros h R; cbn [addMembers]; auto. apply IH, Rings_add; auto. congruence.
Qed.
Lemma members_same m o : forall h, alive (addMembers m o h) = alive h /\ gone (addMembers m o h) = gone h.
Proof. induction m as [|m IH]; intros h; cbn [addMembers]; auto. apply (IH (addNode h true (Some o) None)). Qed.

Lemma nth_app_cases {A} (l l' : list A) k v : nth_error (l ++ l') k = Some v -> nth_error l k = Some v \/ In v l'.
Proof.
  intros H. destruct (Nat.lt_ge_cases k (length l)).
  - rewrite nth_error_app1 in H; auto.
  - rewrite nth_error_app2 in H by auto. right. eapply nth_error_In; eauto.
Qed.

Lemma OI_add al go t v : OI al go t [] -> pRefers v = None -> pInside v = None -> OI al go (t ++ [v]) [].
Proof.
  intros I R0 I0. split.
  - intros k w x Hk E Rf. apply nth_app_cases in Hk as [Hk|[<-|[]]]; [eapply (oA _ _ _ _ I); eauto|congruence].
  - intros x Hx. destruct (oB _ _ _ _ I x Hx) as (k & w & Hk & E & Rf). exists k, w. split; auto.
    apply RefCntStep_Proof.nth_app_some; auto.
  - intros k w x Hk E Iw. apply nth_app_cases in Hk as [Hk|[<-|[]]]; [eapply (oO _ _ _ _ I); eauto|congruence].
  - split; [constructor|]. intros k [].
  - exact (oD _ _ _ _ I).
Qed.

Lemma OI_new al go t m : OI al go t [] ->
  OI (al ++ [true]) go (t ++ repeat (PV true (Some (length al)) None) m ++ [PV true None (Some (length al))]) [].
Proof.
  intros I. assert (Al : forall x, nth_error al x = Some true -> nth_error (al ++ [true]) x = Some true).
  { intros x. apply RefCntStep_Proof.nth_app_some. }
  assert (C : forall k v, nth_error (t ++ repeat (PV true (Some (length al)) None) m ++ [PV true None (Some (length al))]) k = Some v ->
     nth_error t k = Some v \/ v = PV true (Some (length al)) None \/ v = PV true None (Some (length al))).
  { intros k v Hk. apply nth_app_cases in Hk as [Hk|Hk]; auto. right. apply in_app_iff in Hk as [Hk|[Hk|[]]]; auto.
    left. apply repeat_spec in Hk. auto. }
  pose proof (RefCntStep_Proof.nth_last al true) as Last.
  split.
  - intros k v x Hk E Rf. apply C in Hk as [Hk|[->| ->]].
    + apply Al. eapply (oA _ _ _ _ I); eauto. + discriminate.
    + cbn in Rf. injection Rf as <-. auto.
  - intros x Hx. destruct (nth_app_cases _ _ _ _ Hx) as [Hx'|_].
    + destruct (oB _ _ _ _ I x Hx') as (k & w & Hk & E & Rf). exists k, w. split; auto.
      apply RefCntStep_Proof.nth_app_some; auto.
    + destruct (Nat.eq_dec x (length al)) as [->|Nx].
      * exists (length (t ++ repeat (PV true (Some (length al)) None) m)), (PV true None (Some (length al))).
        rewrite app_assoc, RefCntStep_Proof.nth_last. auto.
      * pose proof (nth_len _ _ _ Hx) as Lx. rewrite app_length in Lx. cbn in Lx.
        rewrite nth_error_app1 in Hx by lia.
        destruct (oB _ _ _ _ I x Hx) as (k & w & Hk & E & Rf). exists k, w. split; auto.
        apply RefCntStep_Proof.nth_app_some; auto.
  - intros k v x Hk E Iv. apply C in Hk as [Hk|[->| ->]].
    + destruct (oO _ _ _ _ I k v x Hk E Iv) as [X|[]]. auto.
    + cbn in Iv. injection Iv as <-. auto. + discriminate.
  - split; [constructor|]. intros k [].
  - destruct (oD _ _ _ _ I) as [Dn Dd]. split; auto. intros x. rewrite Dd. split.
    + apply RefCntStep_Proof.nth_app_some.
    + intros H. apply nth_app_cases in H as [H|[H|[]]]; [auto|discriminate].
Qed.

(** ** the specification *)
Lemma to_without h w : Inv h [] -> length (view h) = length w ->
  (forall k v, nth_error w k = Some v -> nth_error (view h) k = Some v \/
     exists x, pInside v = Some x /\ In x (gone h) /\ nth_error (view h) k = Some (died (pInside v))) ->
  without (gone h) w (view h).
Proof.
  intros [R I] L V. split; auto. intros k v Hk. specialize (V k v Hk).
  destruct (pInside v) as [x|] eqn:Iv.
  - destruct (oD _ _ _ _ I) as [_ Dd]. split.
    + intros Gx. destruct V as [V|(y & _ & _ & V)]; [|eexists; split; [exact V|reflexivity]].
      exists v. split; auto. destruct (pExists v) eqn:E; auto. exfalso.
      destruct (oO _ _ _ _ I k v x V E Iv) as [X|[]]. apply Dd in Gx. congruence.
    + intros Gx. destruct V as [V|(y & E & G & _)]; auto. congruence.
  - destruct V as [V|(y & E & _)]; [auto|discriminate].
Qed.

Lemma to_settled h : Inv h [] -> settled (length (alive h)) (view h) (gone h).
Proof.
  intros [R I]. destruct (oD _ _ _ _ I) as [Dn Dd]. split; auto. split.
  - intros x Hx. apply Dd in Hx. eapply nth_len; eauto.
  - intros x Lx. rewrite Dd. destruct (nth_error (alive h) x) as [[]|] eqn:E.
    + pose proof (oB _ _ _ _ I x E). split; [discriminate|contradiction].
    + split; auto. intros _ (k & v & Hk & Ev & Rf). pose proof (oA _ _ _ _ I _ _ _ Hk Ev Rf). congruence.
    + apply nth_error_None in E. lia.
Qed.

(** the operations of the theorem; null pointers may be linked too, so isShared
    says something about the object only when there is one *)
Definition spUsed (op : pop) (t : list pvar) : Prop :=
  match op with
  | PNull | PNew _ | PCopy _ | PAssign _ _ | PDrop _ => True
  | PShared i => pvalue t i <> None
  | _ => False
  end.

Lemma Inv_same h h' : same h h' -> Rings h' -> Inv h [] -> Inv h' [].
Proof. intros (V & A & G) R' [R I]. split; auto. rewrite V, A, G. auto. Qed.

Lemma pset_same t i v : nth_error t i = Some v -> pset t i (pRefers v) = t.
Proof. intros H. unfold pset. rewrite H. apply RefCntRun_Proof.upd_id. destruct v. auto. Qed.

(** linking two rings when one of them has a single member *)
Lemma link_ok h i j s sj : Inv h [] -> i <> j -> nth_error (nodes h) i = Some s -> nLive s = true ->
  nth_error (nodes h) j = Some sj -> nLive sj = true -> nPtr s = nPtr sj -> nNext s = i ->
  exists h1 h2, setNext h i (nNext sj) = Ok h1 /\ setNext h1 j i = Ok h2 /\ same h h2 /\ Inv h2 [].
Proof.
  intros [R I] Nij Hs L Hsj Lj P Al.
  assert (Ti : pthere (view h) i) by (apply there_node; eauto).
  assert (Tj : pthere (view h) j) by (apply there_node; eauto).
  destruct (setNext_ok h i (nNext sj) Ti) as (h1 & Q1 & S1 & E1 & F1).
  assert (Tj1 : pthere (view h1) j) by (destruct S1 as [-> _]; exact Tj).
  destruct (setNext_ok h1 j i Tj1) as (h2 & Q2 & S2 & E2 & F2).
  exists h1, h2. split; auto. split; auto. pose proof (same_trans _ _ _ S1 S2) as S3. split; auto.
  apply (Inv_same h); auto; [|split; auto]. unfold Rings. destruct S3 as [-> _].
  apply RI_join with (fun k => pthere (view h) k /\ k <> i) (nx h) (pvalue (view h)) i j; auto.
  - apply RI_drop_alone; auto. rewrite (nx_node _ _ _ Hs). auto.
  - tauto.
  - intros k. destruct (Nat.eq_dec k i) as [->|Nk]; tauto.
  - rewrite F2, E1 by auto. rewrite (nx_node _ _ _ Hsj). auto.
  - intros k K1 K2. rewrite F2, F1; auto.
  - rewrite (pvalue_view _ _ _ Hs), (pvalue_view _ _ _ Hsj). auto.
Qed.

Lemma samePtr_spec a b : samePtr a b = true <-> a = b.
Proof.
  destruct a, b; cbn; split; try congruence.
  - intros E. apply Nat.eqb_eq in E. congruence. - intros E. injection E as ->. apply Nat.eqb_refl.
Qed.

Lemma assign_ok h i j : Inv h [] -> i <> j -> pthere (view h) i -> pthere (view h) j -> psafe (view h) i j ->
  exists h', sassign h i j = Ok h' /\ Inv h' [] /\ length (alive h') = length (alive h) /\
    (forall x, In x (gone h) -> In x (gone h')) /\
    without (gone h') (pset (view h) i (pvalue (view h) j)) (view h').
Proof.
  intros J N Ti Tj Sf. assert (J' := J). destruct J' as [R I].
  destruct (there_get h i Ti) as (s & Hs & L & G & Nx & Pv).
  destruct (there_get h j Tj) as (sj & Hsj & Lj & Gj & Nxj & Pvj).
  pose proof (view_nth _ _ _ Hs) as Hv. pose proof (view_nth _ _ _ Hsj) as Hvj.
  unfold sassign. apply Nat.eqb_neq in N as Nb. rewrite Nb, G, Gj. cbn [obind].
  destruct (samePtr (nPtr s) (nPtr sj)) eqn:Sm.
  - apply samePtr_spec in Sm.
    assert (W : pset (view h) i (pvalue (view h) j) = view h).
    { rewrite Pvj, <- Sm. apply (pset_same _ _ _ Hv). }
    assert (Done : forall h', same h h' -> Inv h' [] -> Inv h' [] /\ length (alive h') = length (alive h) /\
      (forall x, In x (gone h) -> In x (gone h')) /\ without (gone h') (pset (view h) i (pvalue (view h) j)) (view h')).
    { intros h' (V & A & G') I'. split; auto. rewrite A. split; auto. rewrite W. split; [rewrite G'; auto|].
      apply to_without; auto; rewrite V; auto. }
    unfold isSharedN. destruct (Nat.eqb_spec (nNext s) i) as [Ei|Ei]; cbn [negb].
    + destruct (link_ok h i j s sj J N Hs L Hsj Lj Sm Ei) as (h1 & h2 & Q1 & Q2 & S2 & I2).
      rewrite Q1. cbn [obind]. rewrite Q2. exists h2. split; auto.
    + destruct (Nat.eqb_spec (nNext sj) j) as [Ej|Ej]; cbn [negb].
      * assert (Sm' : nPtr sj = nPtr s) by auto.
        destruct (link_ok h j i sj s J (not_eq_sym N) Hsj Lj Hs L Sm' Ej) as (h1 & h2 & Q1 & Q2 & S2 & I2).
        rewrite Q1. cbn [obind]. rewrite Q2. exists h2. split; auto.
      * assert (Q : searchRing (length (nodes h)) h i i (nPtr sj) = Ok None).
        { destruct (length (nodes h)); cbn [searchRing]; rewrite G; cbn [obind];
            (destruct (Nat.eqb_spec (nNext s) i) as [X|X]; [contradiction|]);
            (replace (samePtr (nPtr s) (nPtr sj)) with true by (symmetry; apply samePtr_spec; auto)); auto. }
        rewrite Q. cbn [obind]. exists h. split; auto. apply Done; auto. repeat split; auto.
  - assert (X : exists h1 s1, destruct_ h i = Ok h1 /\ Inv h1 [] /\ length (alive h1) = length (alive h) /\
       (forall x, In x (gone h) -> In x (gone h1)) /\
       nth_error (nodes h1) i = Some s1 /\ vw s1 = died (nOwner s) /\ nth_error (view h1) j = Some (vw sj) /\
       length (view h1) = length (view h) /\
       (forall y, nOwner s = Some y -> nth_error (alive h1) y = Some true) /\
       (forall k v, k <> i -> nth_error (view h) k = Some v -> nth_error (view h1) k = Some v \/
          exists x, pInside v = Some x /\ In x (gone h1) /\ nth_error (view h1) k = Some (died (pInside v)))).
    { assert (K : kept h i \/ (pouter (view h) i /\ pouter (view h) j)).
      { destruct Sf as [H|[H|H]]; [right; auto|left; left; auto|left; right; auto]. }
      destruct K as [K|[Oi Oj]].
      - destruct (destruct_kept h i s J Hs L K) as (h1 & Q & I1 & V & A & Go).
        assert (Hi1 : nth_error (view h1) i = Some (died (nOwner s))).
        { rewrite V. apply nth_error_upd_eq. rewrite view_len. eapply nth_len; eauto. }
        apply nth_view in Hi1 as (s1 & Hs1 & D1). exists h1, s1. rewrite A, Go, V. repeat split; auto; try apply I1.
        + rewrite nth_error_upd_ne; auto.
        + apply upd_length.
        + intros y Hy. destruct (oO _ _ _ _ I i (vw s) y Hv L Hy) as [|[]]. auto.
        + intros k v Nk Hk. left. rewrite nth_error_upd_ne; auto.
      - destruct (destruct_outer h i J Oi) as (h1 & Q & I1 & S1). destruct S1 as [L1 L2 L3 L4].
        destruct Oi as (v & Hv' & _ & Oi). rewrite Hv in Hv'. injection Hv' as <-. cbn in Oi.
        destruct Oj as (v & Hv' & _ & Oj). rewrite Hvj in Hv'. injection Hv' as <-. cbn in Oj.
        destruct (L4 i (vw s) Hv) as [[_ X]|[X _]]; [exfalso; apply X; cbn; auto|].
        cbn in X. apply nth_view in X as (s1 & Hs1 & D1). exists h1, s1. repeat split; auto; try apply I1.
        + destruct (L4 j (vw sj) Hvj) as [[X _]|[_ [X|(x & X & _)]]]; auto.
          * destruct X as [X|[]]. congruence. * cbn in X. congruence.
        + congruence.
        + intros k w Nk Hk. destruct (L4 k w Hk) as [[X _]|[X [[Y|[]]|(x & Y & Z)]]]; auto; [congruence|].
          right. exists x. auto. }
    destruct X as (h1 & s1 & Q & I1 & A1 & G1 & Hs1 & D1 & Hj1 & Len & Ow & Fr). rewrite Q. cbn [obind].
    assert (Os : nOwner s1 = nOwner s) by (injection D1; auto).
    destruct (copyInto_ok h1 i j s1 I1 Hs1) as (h2 & Q2 & I2 & A2 & G2 & V2).
    { rewrite Os. auto. } { exists (vw sj). split; auto. } { rewrite Os. auto. }
    exists h2. split; auto. split; auto. rewrite A2, G2. split; auto. split; auto.
    rewrite <- G2. unfold pset. rewrite Hv. cbn [vw pExists pInside]. rewrite L. apply to_without; auto.
    + rewrite V2, !upd_length. auto.
    + intros k v Hk. rewrite V2. destruct (Nat.eq_dec k i) as [->|Nk].
      * rewrite nth_error_upd_eq in Hk by (rewrite view_len; eapply nth_len; eauto). injection Hk as <-. left.
        rewrite nth_error_upd_eq by (rewrite view_len; eapply nth_len; eauto).
        rewrite Os, (pvalue_nth _ _ _ Hj1), Pvj. reflexivity.
      * rewrite nth_error_upd_ne in Hk |- * by auto. rewrite G2. apply Fr; auto.
Qed.

Lemma step_ok h op : Inv h [] -> pallowed op (view h) -> spUsed op (view h) ->
  exists h' a, spstep op h = Ok (h', a) /\ Inv h' [] /\
    length (alive h') = length (alive h) + (if pcreates op then 1 else 0) /\
    without (gone h') (pwanted (length (alive h)) op (view h)) (view h') /\
    (forall x, In x (gone h) -> In x (gone h')) /\ panswer op (view h) a.
Proof.
  intros J Al Us. assert (J' := J). destruct J' as [R I].
  destruct op as [|m|j|j|i j|i j|i|i|i j|i m|i]; cbn [spUsed] in Us; try contradiction;
    cbn [spstep pallowed pcreates pwanted panswer] in *.
  - (* null *)
    assert (I' : Inv (addNode h true None None) []).
    { split; [apply Rings_add; auto; congruence|]. rewrite view_add. apply OI_add; auto. }
    eexists _, _. split; [reflexivity|]. split; auto. split; [cbn [addNode alive]; lia|].
    split; [|auto]. apply to_without; auto; rewrite view_add; auto.
  - (* new *)
    set (n := length (alive h)). set (h1 := mkWorld (alive h ++ [true]) (nodes h) (gone h)).
    pose proof (members_same m n h1) as [A1 G1]. pose proof (view_members m n h1) as V1.
    assert (V : view (addNode (addMembers m n h1) true None (Some n)) =
                view h ++ repeat (PV true (Some n) None) m ++ [PV true None (Some n)]).
    { rewrite view_add, V1, <- app_assoc. reflexivity. }
    assert (I' : Inv (addNode (addMembers m n h1) true None (Some n)) []).
    { split.
      - apply Rings_add; [apply Rings_members; exact R|]. intros k x (v & Hk & E) Ex. injection Ex as <-.
        rewrite (pvalue_nth _ _ _ Hk). rewrite V1 in Hk. apply nth_app_cases in Hk as [Hk|Hk].
        + intros Rf. pose proof (oA _ _ _ _ I k v n Hk E Rf) as X. apply nth_len in X. unfold n in X. lia.
        + apply repeat_spec in Hk. subst v. discriminate.
      - rewrite V. cbn [addNode alive gone]. rewrite A1, G1. apply OI_new. exact I. }
    eexists _, _. split; [reflexivity|]. split; auto.
    split; [cbn [addNode alive]; rewrite A1; cbn [h1 alive]; unfold h1; cbn [alive]; rewrite app_length; auto|].
    split; [apply to_without; auto; rewrite V; auto|]. cbn [addNode gone]. rewrite G1. auto.
  - (* copy *)
    set (h1 := addNode h false None None).
    assert (V1 : view h1 = view h ++ [PV false None None]) by apply view_add.
    assert (I1 : Inv h1 []).
    { split; [apply Rings_add; auto; congruence|]. rewrite V1. apply OI_add; auto. }
    destruct (copyInto_ok h1 (length (nodes h)) j (mkNode false None None (length (nodes h))) I1) as (h2 & Q & I2 & A2 & G2 & V2).
    { apply RefCntStep_Proof.nth_last. } { reflexivity. }
    { rewrite V1. apply pthere_app. auto. } { discriminate. }
    rewrite Q. cbn [obind]. eexists _, _. split; [reflexivity|]. split; auto.
    split; [rewrite A2; cbn [h1 addNode alive]; unfold h1; cbn; lia|].
    assert (V : view h2 = view h ++ [PV true None (pvalue (view h) j)]).
    { rewrite V2, V1. rewrite <- view_len, RefCntStep_Proof.upd_last. cbn [nOwner].
      rewrite pvalue_app by (apply pthere_lt; auto). reflexivity. }
    split; [apply to_without; auto; rewrite V; auto|]. rewrite G2. auto.
  - (* assign *)
    destruct Al as (N & Ti & Tj & Sf). destruct (assign_ok h i j J N Ti Tj Sf) as (h' & Q & I' & A' & G' & W').
    rewrite Q. cbn [obind]. eexists _, _. split; [reflexivity|]. split; auto. split; [lia|]. auto.
  - (* drop *)
    destruct (destruct_outer h i J Al) as (h' & Q & I' & S'). rewrite Q. cbn [obind]. destruct S' as [L1 L2 L3 L4].
    eexists _, _. split; [reflexivity|]. split; auto. split; [lia|]. split; [|auto].
    destruct Al as (v & Hv & E & O). rewrite Hv. apply to_without; auto.
    + rewrite upd_length. auto.
    + intros k w Hk. destruct (Nat.eq_dec k i) as [->|Nk].
      * rewrite nth_error_upd_eq in Hk by (eapply nth_len; eauto). injection Hk as <-. left.
        destruct (L4 i v Hv) as [[_ X]|[X _]]; [exfalso; apply X; cbn; auto|exact X].
      * rewrite nth_error_upd_ne in Hk by auto.
        destruct (L4 k w Hk) as [[X _]|[X [[Y|[]]|(x & Y & Z)]]]; auto; [congruence|]. right. exists x. auto.
  - (* isShared *)
    destruct (there_get h i Al) as (s & Hs & L & G & Nx & Pv). rewrite G. cbn [obind].
    eexists _, _. split; [reflexivity|]. split; auto. split; [lia|].
    split; [apply to_without; auto|]. split; auto. exists (isSharedN i s). split; auto.
    pose proof (ring_shared h i s R Hs L) as Sh. rewrite Pv in *. destruct (isSharedN i s).
    + split; auto. intros _. destruct Sh as (k & Nk & Tk & Pk). destruct (nPtr s) as [x|]; [|congruence].
      exists k, x. auto.
    + split; [discriminate|]. intros (k & x & Nk & Tk & P1 & P2). exfalso. eapply Sh; eauto.
Qed.

(** ** histories *)
Lemma sprun_app : forall a b h, sprun (a ++ b) h =
  let! (h1, l1) := sprun a h in let! (h2, l2) := sprun b h1 in Ok (h2, l1 ++ l2).
Proof.
  induction a as [|op a IH]; intros b h.
  - cbn [app sprun obind]. destruct (sprun b h) as [[h2 l2]| | |]; reflexivity.
  - cbn [app sprun]. destruct (spstep op h) as [[h1 x]| | |]; cbn [obind]; auto.
    rewrite IH. destruct (sprun a h1) as [[h2 l2]| | |]; cbn [obind]; auto.
    destruct (sprun b h2) as [[h3 l3]| | |]; reflexivity.
Qed.

Lemma Inv_empty : Inv emptyWorld [].
Proof.
  split.
  - intros i (v & Hv & _). destruct i; discriminate.
  - split; cbn.
    + intros [|i]; discriminate. + intros [|x]; discriminate. + intros [|i]; discriminate.
    + split; [constructor|]. intros i [].
    + split; [constructor|]. intros [|x]; split; try discriminate; intros [].
Qed.

Definition legal (ops : list pop) : Prop :=
  forall pre op post h l, ops = pre ++ op :: post -> sprun pre emptyWorld = Ok (h, l) ->
    pallowed op (view h) /\ spUsed op (view h).

Lemma run_ok : forall ops, legal ops ->
  exists h l, sprun ops emptyWorld = Ok (h, l) /\ Inv h [] /\
    phistory ops (length (alive h)) (view h) (gone h) l.
Proof.
  induction ops as [|op ops IH] using rev_ind; intros L.
  - exists emptyWorld, []. split; [reflexivity|]. split; [apply Inv_empty|constructor].
  - destruct IH as (h & l & R & I & P).
    { intros pre o post h l E R. apply (L pre o (post ++ [op]) h l); auto. rewrite E, <- app_assoc. reflexivity. }
    destruct (L ops op [] h l eq_refl R) as [A U].
    destruct (step_ok h op I A U) as (h' & a & R' & I' & Ln & W & G & An).
    exists h', (l ++ [a]). split.
    { rewrite sprun_app, R. cbn [obind sprun]. rewrite R'. reflexivity. }
    split; auto. eapply ph_step; eauto. apply to_settled; auto.
Qed.

(** ** defects *)
Lemma no_members h o : (forall k v, nth_error (view h) k = Some v -> pExists v = true -> pInside v <> Some o) ->
  membersFrom 0 o (nodes h) = [].
Proof.
  intros H. destruct (membersFrom 0 o (nodes h)) as [|q l] eqn:E; auto. exfalso.
  assert (X : In q (membersFrom 0 o (nodes h))) by (rewrite E; cbn; auto).
  apply members_view in X as (w & Hw & Ew & Iw). apply (H q w Hw Ew Iw).
Qed.

Lemma setVal_ok h i s p : nth_error (nodes h) i = Some s -> nLive s = true ->
  setVal h i p = Ok (putN h i (mkNode true (nOwner s) p (nNext s))).
Proof. intros Hs L. unfold setVal. rewrite (getN_ok _ _ _ Hs L). reflexivity. Qed.

Lemma setVals_out : forall l p h h' j, setVals l p h = Ok h' -> ~ In j l ->
  nth_error (nodes h') j = nth_error (nodes h) j.
Proof.
  induction l as [|k l IH]; intros p h h' j Q N; cbn [setVals] in Q; [congruence|].
  apply obind_ok in Q as (h1 & Q1 & Q). rewrite (IH _ _ _ j Q) by (cbn in N; tauto).
  unfold setVal in Q1. apply obind_ok in Q1 as (s & _ & Q1). injection Q1 as <-.
  cbn [putN nodes]. apply nth_error_upd_ne. cbn in N. intuition congruence.
Qed.
