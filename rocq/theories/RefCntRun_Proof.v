From Verif Require Import Common RefCnt_Spec RefCnt_Model RefCnt_Proof RefCntStep_Proof.

(** ** destroyed objects stay destroyed *)
Lemma releaseAll_mono : forall f todo h h', releaseAll f todo h = Ok h' ->
  forall x, In x (destroyed h) -> In x (destroyed h').
Proof.
  induction f as [|f IH]; intros [|o rest] h h' R x Hx; cbn [releaseAll] in R; try congruence.
  - destruct (nth_error (objs h) o) as [[[|[|c]] []]|]; try discriminate.
    + rewrite kill_eq in R. eapply IH; eauto. cbn. apply in_or_app. auto.
    + eapply IH; eauto.
Qed.
Lemma relPtr_mono h p h' : relPtr h p = Ok h' -> forall x, In x (destroyed h) -> In x (destroyed h').
Proof. destruct p; cbn [relPtr]; [apply releaseAll_mono|congruence]. Qed.
Lemma setPtr_des h i p h' : setPtr h i p = Ok h' -> destroyed h' = destroyed h.
Proof.
  unfold setPtr. destruct (nth_error (slots h) i) as [s|]; [|discriminate].
  destruct (sLive s); [|discriminate]. intros E. injection E as <-. reflexivity.
Qed.
Lemma addRef_des h p h' : addRef h p = Ok h' -> destroyed h' = destroyed h.
Proof.
  destruct p as [o|]; cbn [addRef]; [|congruence].
  destruct (nth_error (objs h) o) as [[c []]|]; try discriminate. intros E. injection E as <-. reflexivity.
Qed.
Lemma releasePtr_mono h i h' : releasePtr h i = Ok h' -> forall x, In x (destroyed h) -> In x (destroyed h').
Proof.
  unfold releasePtr. intros R. apply obind_ok in R as (p & _ & R). apply obind_ok in R as (h1 & E & R).
  apply setPtr_des in E. rewrite <- E. eapply relPtr_mono; eauto.
Qed.

Lemma rstep_mono op h h' a : rstep op h = Ok (h', a) -> forall x, In x (destroyed h) -> In x (destroyed h').
Proof.
  intros R x Hx. destruct op as [|m|j|j|i j|i j|i|i|i j|i m|i]; cbn [rstep] in R.
  - injection R as <- _. exact Hx.
  - rewrite newObj_eq in R. apply obind_ok in R as (h1 & E & R). injection R as <- _.
    apply addRef_des in E. rewrite E. exact Hx.
  - apply obind_ok in R as (p & _ & R). apply obind_ok in R as (h1 & E & R). injection R as <- _.
    apply addRef_des in E. rewrite E. exact Hx.
  - apply obind_ok in R as (p & _ & R). apply obind_ok in R as (h1 & E & R). injection R as <- _.
    apply setPtr_des in E. rewrite E. exact Hx.
  - apply obind_ok in R as (p & _ & R). apply obind_ok in R as (h1 & E1 & R).
    apply obind_ok in R as (h2 & E2 & R). apply obind_ok in R as (q & _ & R).
    apply obind_ok in R as (h3 & E3 & R). injection R as <- _.
    apply addRef_des in E1. apply setPtr_des in E3. rewrite E3.
    eapply releasePtr_mono; eauto. rewrite E1. exact Hx.
  - destruct (i =? j). { injection R as <- _. exact Hx. }
    apply obind_ok in R as (h2 & E2 & R). apply obind_ok in R as (q & _ & R).
    apply obind_ok in R as (h3 & E3 & R). apply obind_ok in R as (h4 & E4 & R). injection R as <- _.
    apply setPtr_des in E3, E4. rewrite E4, E3. eapply releasePtr_mono; eauto.
  - apply obind_ok in R as (h2 & E2 & R). injection R as <- _. eapply releasePtr_mono; eauto.
  - destruct (nth_error (slots h) i) as [s|]; [|discriminate]. destruct (sLive s); [|discriminate].
    apply obind_ok in R as (h2 & E2 & R). injection R as <- _. eapply relPtr_mono; eauto.
  - apply obind_ok in R as (p & _ & R). apply obind_ok in R as (q & _ & R).
    apply obind_ok in R as (h3 & E3 & R). apply obind_ok in R as (h4 & E4 & R). injection R as <- _.
    apply setPtr_des in E3, E4. rewrite E4, E3. exact Hx.
  - apply obind_ok in R as (p & _ & R). apply obind_ok in R as (h1 & E1 & R).
    apply obind_ok in R as (h2 & E2 & R). rewrite newObj_eq in R.
    apply obind_ok in R as (h3 & E3 & R). apply obind_ok in R as (h4 & E4 & R). injection R as <- _.
    apply setPtr_des in E1, E3. apply addRef_des in E4. rewrite E4, E3. cbn [withObj destroyed].
    destruct p as [o|].
    + destruct (nth_error (objs h1) o) as [[c []]|]; try discriminate. rewrite kill_eq in E2.
      eapply releaseAll_mono; eauto. cbn. apply in_or_app. left. rewrite E1. exact Hx.
    + injection E2 as <-. rewrite E1. exact Hx.
  - apply obind_ok in R as (p & _ & R). destruct p as [o|].
    + destruct (nth_error (objs h) o) as [[c []]|]; try discriminate. injection R as <- _. exact Hx.
    + injection R as <- _. exact Hx.
Qed.

(** ** the invariant says what the specification asks for *)
Lemma referred_cnt h x : referred (view h) x <-> 1 <= cnt (targets (slots h)) x.
Proof.
  split.
  - intros (i & v & Hv & E & R). unfold view in Hv. rewrite nth_error_map in Hv.
    destruct (nth_error (slots h) i) as [s|] eqn:Hi; [|discriminate]. injection Hv as <-.
    eapply targets_in; eauto.
  - intros G. assert (P : cnt (targets (slots h)) x > 0) by lia. apply count_occ_In in P.
    apply in_flat_map in P as (s & Hs & Ht). apply In_nth_error in Hs as [i Hi].
    exists i, (vw s). unfold view. rewrite nth_error_map, Hi. split; auto.
    unfold starget in Ht. cbn. destruct (sLive s); [|destruct Ht]. split; auto.
    destruct (sPtr s); cbn in Ht; [destruct Ht as [->|[]]; auto|destruct Ht].
Qed.

Lemma Inv_settled h : Inv h [] -> settled (length (objs h)) (view h) (destroyed h).
Proof.
  intros I. destruct (iD _ _ I) as [Dn Dd]. split; auto. split.
  - intros x Hx. apply Dd in Hx as [c Hc]. eapply nth_len; eauto.
  - intros x Lx. rewrite Dd, referred_cnt. pose proof (iC _ _ I x) as C. cbn [count_occ] in C.
    destruct (nth_error (objs h) x) as [[c []]|] eqn:E.
    + split; [intros [c' Hc']; congruence|lia].
    + split; [lia|eauto].
    + apply nth_error_None in E. lia.
Qed.

Lemma Inv_empty : Inv emptyHeap [].
Proof.
  split; cbn.
  - intros o. destruct o; cbn; auto.
  - intros [|i]; discriminate.
  - split; [constructor|]. intros o. split; [intros []|]. intros [c Hc]. destruct o; discriminate.
Qed.

Lemma rrun_app : forall a b h, rrun (a ++ b) h =
  let! (h1, l1) := rrun a h in let! (h2, l2) := rrun b h1 in Ok (h2, l1 ++ l2).
Proof.
  induction a as [|op a IH]; intros b h.
  - cbn [app rrun obind]. destruct (rrun b h) as [[h2 l2]| | |]; reflexivity.
  - cbn [app rrun]. destruct (rstep op h) as [[h1 x]| | |]; cbn [obind]; auto.
    rewrite IH. destruct (rrun a h1) as [[h2 l2]| | |]; cbn [obind]; auto.
    destruct (rrun b h2) as [[h3 l3]| | |]; reflexivity.
Qed.

Definition legal (ops : list pop) : Prop :=
  forall pre op post h l, ops = pre ++ op :: post -> rrun pre emptyHeap = Ok (h, l) -> pallowed op (view h).

Lemma run_ok : forall ops, legal ops ->
  exists h l, rrun ops emptyHeap = Ok (h, l) /\ Inv h [] /\
    phistory ops (length (objs h)) (view h) (destroyed h) l.
Proof.
  induction ops as [|op ops IH] using rev_ind; intros L.
  - exists emptyHeap, []. split; [reflexivity|]. split; [apply Inv_empty|constructor].
  - destruct IH as (h & l & R & I & P).
    { intros pre o post h l E R. apply (L pre o (post ++ [op]) h l); auto. rewrite E, <- app_assoc. reflexivity. }
    pose proof (L ops op [] h l eq_refl R) as A.
    destruct (step_ok h op I A) as (h' & a & w & R' & I' & W & S' & Ln & An).
    exists h', (l ++ [a]). split.
    { rewrite rrun_app, R. cbn [obind rrun]. rewrite R'. reflexivity. }
    split; auto. eapply ph_step; eauto.
    + rewrite <- W. apply Shr_without; auto.
    + apply Inv_settled; auto.
    + eapply rstep_mono; eauto.
Qed.

(** ** the three defects *)
Lemma upd_id {A} (l : list A) : forall i x, nth_error l i = Some x -> upd l i x = l.
Proof.
  induction l as [|a l IH]; intros [|i] x H; cbn in *; try discriminate.
  - injection H as ->. auto. - rewrite IH; auto.
Qed.

Lemma self_assign h i s x : Inv h [] -> nth_error (slots h) i = Some s -> sLive s = true -> sPtr s = Some x ->
  rstep (PAssign i i) h = Ok (setSlot h i (mkSlot true (sOwner s) None), None).
Proof.
  intros I Hi Li Hp. cbn [rstep]. rewrite (getPtr_ok _ _ _ Hi Li), Hp. cbn [obind addRef].
  destruct (slot_alive h [] i s x I Hi Li Hp) as [c Hc]. rewrite Hc. cbn [obind].
  pose proof (iC _ _ I x) as C. rewrite Hc in C. destruct c as [|c]; [lia|].
  pose proof (nth_len _ _ _ Hi) as Ls. pose proof (nth_len _ _ _ Hc) as Lc.
  unfold releasePtr. unfold getPtr at 1. cbn [slots]. rewrite Hi, Li, Hp. cbn [obind].
  unfold setPtr at 1. cbn [slots]. rewrite Hi, Li. cbn [obind relPtr setSlot slots objs releaseAll].
  rewrite nth_error_upd_eq by auto. rewrite upd_upd, (upd_id _ _ _ Hc).
  cbn [setSlot objs slots destroyed]. rewrite upd_length.
  replace (releaseAll (length (slots h)) [] (mkHeap (objs h) (upd (slots h) i (mkSlot true (sOwner s) None)) (destroyed h)))
    with (Ok (mkHeap (objs h) (upd (slots h) i (mkSlot true (sOwner s) None)) (destroyed h)))
    by (destruct (length (slots h)); reflexivity).
  cbn [obind]. unfold getPtr. cbn [slots]. rewrite nth_error_upd_eq by auto. cbn [sLive sPtr obind].
  unfold setPtr. cbn [slots]. rewrite nth_error_upd_eq by auto. cbn [sLive sOwner obind].
  unfold setSlot. cbn [slots objs destroyed]. rewrite upd_upd. reflexivity.
Qed.

(** a member of the only target of [i] does not exist after releasing *)
Lemma release_member h i s x j sj D : Inv h D -> nth_error (slots h) i = Some s -> sLive s = true ->
  sPtr s = Some x -> cnt (targets (slots h)) x = 1 -> cnt D x = 0 -> i <> j ->
  nth_error (slots h) j = Some sj -> sLive sj = true -> sOwner sj = Some x ->
  exists h', releasePtr h i = Ok h' /\ getPtr h' j = Undef.
Proof.
  intros I Hi Li Hp C1 CD N Hj Lj Wj.
  destruct (releasePtr_ok h i s D I Hi Li) as (h' & R & I' & [_ S'] & L).
  exists h'. split; auto.
  assert (Ej : nth_error (upd (slots h) i (mkSlot true (sOwner s) None)) j = Some sj)
    by (rewrite nth_error_upd_ne; auto).
  destruct (S' _ _ Ej) as [E|[_ (y & _ & _ & E)]].
  2:{ unfold getPtr. rewrite E. reflexivity. }
  exfalso. destruct (iO _ _ I' j sj x E Lj Wj) as [c Hc].
  (* nobody refers to x any more *)
  pose proof (iC _ _ I' x) as C. rewrite Hc in C. rewrite CD in C.
  destruct (slot_alive h D i s x I Hi Li Hp) as [c0 Hc0].
  pose proof (iC _ _ I x) as C0. rewrite Hc0, C1, CD in C0. assert (c0 = 1) by lia. subst c0.
  pose proof (targets_upd (slots h) i s (mkSlot true (sOwner s) None) x Hi) as T.
  unfold starget at 1 2 in T. cbn [sLive sPtr occ] in T. rewrite Li, Hp in T. cbn [occ] in T.
  rewrite count_occ_cons_eq in T by auto. cbn [count_occ] in T.
  unfold releasePtr in R. rewrite (getPtr_ok _ _ _ Hi Li), Hp in R. cbn [obind] in R.
  unfold setPtr in R. rewrite Hi, Li in R. cbn [obind relPtr setSlot slots objs releaseAll] in R.
  rewrite Hc0 in R. rewrite kill_eq in R.
  assert (In x (destroyed h')).
  { eapply releaseAll_mono; eauto. cbn. apply in_or_app. cbn. auto. }
  apply (iD _ _ I') in H as [c' Hc']. congruence.
Qed.

Lemma assign_member h i s x j sj : Inv h [] -> nth_error (slots h) i = Some s -> sLive s = true ->
  sPtr s = Some x -> cnt (targets (slots h)) x = 1 -> i <> j ->
  nth_error (slots h) j = Some sj -> sLive sj = true -> sOwner sj = Some x ->
  rstep (PAssign i j) h = Undef /\ rstep (PMove i j) h = Undef.
Proof.
  intros I Hi Li Hp C1 N Hj Lj Wj. cbn [rstep]. split.
  - rewrite (getPtr_ok _ _ _ Hj Lj). cbn [obind].
    destruct (addRef_ok h (sPtr sj) [] I) as (h1 & R & I1 & S1 & D1 & L1).
    { intros o Ho. eapply slot_alive with (i := j); eauto. }
    rewrite R. cbn [obind].
    destruct (release_member h1 i s x j sj (occ (sPtr sj) ++ [])) as (h2 & R2 & G); auto; try (rewrite S1; auto).
    + rewrite app_nil_r. destruct (sPtr sj) as [y|] eqn:Ey; auto. cbn [occ].
      destruct (Nat.eq_dec y x) as [->|Ne]; [|rewrite count_occ_cons_neq; auto].
      assert (2 <= cnt (targets (slots h)) x); [|lia]. eapply two_refs; eauto 8.
    + rewrite R2. cbn [obind]. rewrite G. reflexivity.
  - rewrite (proj2 (Nat.eqb_neq i j) N).
    destruct (release_member h i s x j sj []) as (h2 & R2 & G); auto.
    rewrite R2. cbn [obind]. rewrite G. reflexivity.
Qed.

Lemma kill_none o l : (forall i s, nth_error l i = Some s -> sLive s = true -> sOwner s <> Some o) ->
  map (kslot o) l = l /\ flat_map (kt o) l = [].
Proof.
  induction l as [|s l IH]; intros H; cbn [map flat_map]; auto.
  destruct IH as [A B]. { intros i. apply (H (S i)). }
  assert (M : isMember o s = false).
  { specialize (H 0 s eq_refl). unfold isMember. destruct (sLive s); auto. cbn.
    destruct (sOwner s) as [y|]; auto. apply Nat.eqb_neq. intros ->. apply H; auto. }
  unfold kslot at 1, kt at 1. rewrite M, A, B. auto.
Qed.

Lemma create_shared h i s x m k sk : Inv h [] -> nth_error (slots h) i = Some s -> sLive s = true ->
  sPtr s = Some x -> (forall i s, nth_error (slots h) i = Some s -> sLive s = true -> sOwner s <> Some x) ->
  k <> i -> nth_error (slots h) k = Some sk -> sLive sk = true -> sPtr sk = Some x ->
  exists h', rstep (PCreate i m) h = Ok (h', None) /\ In x (destroyed h') /\ nth_error (slots h') k = Some sk.
Proof.
  intros I Hi Li Hp M N Hk Lk Pk. cbn [rstep]. rewrite (getPtr_ok _ _ _ Hi Li), Hp. cbn [obind].
  unfold setPtr at 1. rewrite Hi, Li. cbn [obind].
  destruct (slot_alive h [] i s x I Hi Li Hp) as [c Hc]. pose proof (nth_len _ _ _ Hi) as Ls.
  cbn [setSlot objs]. rewrite Hc. rewrite kill_eq. cbn [slots objs destroyed setSlot].
  destruct (kill_none x (upd (slots h) i (mkSlot true (sOwner s) None))) as [K1 K2].
  { intros q sq Hq Lq. destruct (Nat.eq_dec q i) as [->|Ne].
    - rewrite nth_error_upd_eq in Hq by auto. injection Hq as <-. cbn. eapply M; eauto.
    - rewrite nth_error_upd_ne in Hq by auto. eapply M; eauto. }
  rewrite K1, K2. cbn [releaseAll obind]. rewrite newObj_eq. cbn [objs].
  unfold setPtr. cbn [withObj slots objs destroyed].
  rewrite (nth_app_some _ _ _ (mkSlot true (sOwner s) None)) by (apply nth_error_upd_eq; auto).
  cbn [sLive obind addRef setSlot objs withObj slots destroyed]. rewrite nth_last. cbn [obind].
  eexists. split; [reflexivity|]. cbn [destroyed slots]. split.
  - apply in_or_app. cbn. auto.
  - rewrite nth_error_upd_ne by auto. apply nth_app_some. rewrite nth_error_upd_ne; auto.
Qed.
