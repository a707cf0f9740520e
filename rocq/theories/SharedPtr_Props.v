(** Properties of the shared pointer (owners linked in a ring). *)
From Verif Require Import Common RefCnt_Spec SharedPtr_Model SharedRing_Proof SharedPtr_Proof SharedPtrRun_Proof.

(** C30.  [view h] is the table of the pointer variables of the program.  In
    every history of creating, copying, assigning and destroying shared pointers
    each variable refers to what the operations say and the destroyed objects
    are at any moment exactly those no existing variable refers to, each
    destroyed once. *)
Theorem sharedptr_destroys_unreferenced : forall ops, legal ops ->
  exists h l, sprun ops emptyWorld = Ok (h, l) /\
    phistory ops (length (alive h)) (view h) (gone h) l.
Proof. intros ops L. destruct (run_ok ops L) as (h & l & R & _ & P). eauto. Qed.
Print Assumptions sharedptr_destroys_unreferenced.

(** C30.  The ring of a variable holds each existing variable that refers to the
    same object, once, and no other: what count and forEachInstance visit. *)
Theorem sharedptr_ring_is_owners : forall ops h l i x, legal ops -> sprun ops emptyWorld = Ok (h, l) ->
  pthere (view h) i -> pvalue (view h) i = Some x ->
  exists r, ringOf h i = Ok r /\ NoDup r /\
    forall k, In k r <-> pthere (view h) k /\ pvalue (view h) k = Some x.
Proof.
  intros ops h l i x L R T V. destruct (run_ok ops L) as (h0 & l0 & R0 & [Ri _] & _).
  rewrite R in R0. injection R0 as <- <-. destruct (ringOf_ok h i Ri T) as (r & Q & N & A & B).
  exists (i :: r). split; auto. split; auto. intros k. split.
  - intros [<-|Hk]; auto. destruct (A k Hk). split; [auto|congruence].
  - intros [Tk Pk]. eapply B; eauto.
Qed.
Print Assumptions sharedptr_ring_is_owners.

(** redirect, C122: all owners of the object, and nobody else, get the new
    object *)
Theorem sharedptr_redirect : forall ops h l i x p, legal ops -> sprun ops emptyWorld = Ok (h, l) ->
  pthere (view h) i -> pvalue (view h) i = Some x ->
  exists h', redirect h i p = Ok h' /\ alive h' = alive h /\ gone h' = gone h /\
    forall k, pthere (view h) k -> pthere (view h') k /\
      pvalue (view h') k = match pvalue (view h) k with Some y => if y =? x then p else Some y | None => None end.
Proof.
  intros ops h l i x p L R T V. destruct (sharedptr_ring_is_owners ops h l i x L R T V) as (r & Q & N & E).
  unfold redirect. rewrite Q. cbn [obind]. clear Q T V R L ops l i.
  assert (G : forall r h, NoDup r -> (forall k, In k r -> pthere (view h) k) ->
    exists h', setVals r p h = Ok h' /\ alive h' = alive h /\ gone h' = gone h /\
      forall k, pthere (view h) k -> pthere (view h') k /\ pvalue (view h') k = if in_dec Nat.eq_dec k r then p else pvalue (view h) k).
  { clear. induction r as [|q r IH]; intros h N A; cbn [setVals].
    - exists h. split; auto.
    - apply NoDup_cons_iff in N as [Nq N]. destruct (there_get h q (A q (or_introl eq_refl))) as (s & Hs & Ls & _ & _ & _).
      rewrite (setVal_ok _ _ _ p Hs Ls). cbn [obind].
      set (h1 := putN h q (mkNode true (nOwner s) p (nNext s))).
      assert (V1 : view h1 = upd (view h) q (PV true (nOwner s) p)) by apply view_put.
      assert (Lq : q < length (view h)) by (rewrite view_len; eapply nth_len; eauto).
      assert (T1 : forall k, pthere (view h) k -> pthere (view h1) k).
      { intros k (v & Hv & Ev). rewrite V1. destruct (Nat.eq_dec k q) as [->|Nk].
        - exists (PV true (nOwner s) p). rewrite nth_error_upd_eq; auto.
        - exists v. rewrite nth_error_upd_ne; auto. }
      destruct (IH h1 N) as (h' & Q & A' & G' & F). { intros k Hk. apply T1, A. cbn. auto. }
      exists h'. split; auto. split; auto. split; auto. intros k Tk. destruct (F k (T1 k Tk)) as [F1 F2]. split; auto.
      rewrite F2. destruct (Nat.eq_dec k q) as [->|Nk].
      + destruct (in_dec Nat.eq_dec q r); [contradiction|].
        destruct (in_dec Nat.eq_dec q (q :: r)) as [_|X]; [|exfalso; apply X; cbn; auto].
        rewrite V1. unfold pvalue. rewrite nth_error_upd_eq by auto. reflexivity.
      + rewrite V1, pvalue_upd_ne by auto.
        destruct (in_dec Nat.eq_dec k r) as [K|K]; destruct (in_dec Nat.eq_dec k (q :: r)) as [X|X]; auto.
        * exfalso. apply X. cbn. auto. * destruct X; [congruence|contradiction]. }
  destruct (G r h N) as (h' & Q & A' & G' & F). { intros k Hk. apply E in Hk. tauto. }
  exists h'. split; auto. split; auto. split; auto. intros k Tk. destruct (F k Tk) as [F1 F2]. split; auto.
  rewrite F2. destruct (in_dec Nat.eq_dec k r) as [K|K].
  - apply E in K as [_ K]. rewrite K, Nat.eqb_refl. auto.
  - destruct (pvalue (view h) k) as [y|] eqn:Pk; auto. destruct (Nat.eqb_spec y x) as [->|]; auto.
    exfalso. apply K. apply E. auto.
Qed.
Print Assumptions sharedptr_redirect.

(** assigning a shared pointer to itself changes nothing (unlike the counted
    pointer, C117) *)
Theorem sharedptr_self_assign : forall h i, spstep (PAssign i i) h = Ok (h, None).
Proof. intros h i. cbn [spstep]. unfold sassign. rewrite Nat.eqb_refl. reflexivity. Qed.
Print Assumptions sharedptr_self_assign.

(** C123 is false: when both variables are null and already linked to other null
    variables, the assignment does nothing; a later redirect of one of them does
    not reach the other *)
Theorem sharedptr_assign_null_refuted : forall ops h l i j ri rj, legal ops -> sprun ops emptyWorld = Ok (h, l) ->
  i <> j -> pthere (view h) i -> pthere (view h) j ->
  pvalue (view h) i = None -> pvalue (view h) j = None ->
  ringOf h i = Ok ri -> ringOf h j = Ok rj -> 2 <= length ri -> 2 <= length rj -> ~ In j ri ->
  spstep (PAssign i j) h = Ok (h, None) /\
  forall p, exists h', redirect h i p = Ok h' /\ pvalue (view h') i = p /\ pvalue (view h') j = None.
Proof.
  intros ops h l i j ri rj L R N Ti Tj Pi Pj Qi Qj Li Lj D.
  destruct (run_ok ops L) as (h0 & l0 & R0 & [Ri I] & _). rewrite R in R0. injection R0 as <- <-.
  assert (Sh : forall k r, pthere (view h) k -> ringOf h k = Ok r -> 2 <= length r -> nx h k <> k).
  { intros k r Tk Q G E. destruct (there_get h k Tk) as (s & _ & _ & Gk & Ek & _). unfold ringOf in Q.
    destruct (length (nodes h)); cbn [ringFrom] in Q; rewrite Gk in Q; cbn [obind] in Q;
      rewrite <- Ek, E, Nat.eqb_refl in Q; injection Q as <-; cbn in G; lia. }
  pose proof (Sh i ri Ti Qi Li) as Si. pose proof (Sh j rj Tj Qj Lj) as Sj.
  destruct (there_get h i Ti) as (s & Hs & _ & Gi & Ei & Vi). destruct (there_get h j Tj) as (sj & Hsj & _ & Gj & Ej & Vj).
  split.
  - cbn [spstep]. unfold sassign. apply Nat.eqb_neq in N. rewrite N, Gi, Gj. cbn [obind].
    rewrite <- Vi, <- Vj, Pi, Pj. cbn [samePtr]. unfold isSharedN. rewrite <- Ei, <- Ej.
    destruct (Nat.eqb_spec (nx h i) i); [contradiction|]. destruct (Nat.eqb_spec (nx h j) j); [contradiction|].
    cbn [negb]. destruct (length (nodes h)); cbn [searchRing]; rewrite Gi; cbn [obind]; rewrite <- Ei;
      (destruct (Nat.eqb_spec (nx h i) i); [contradiction|]); rewrite <- Vi, Pi; reflexivity.
  - intros p. unfold redirect. rewrite Qi. cbn [obind].
    destruct (ringOf_ok h i Ri Ti) as (r & Q & Nd & A & B). rewrite Q in Qi. injection Qi as <-.
    assert (G : forall r h, (forall k, In k r -> pthere (view h) k) -> exists h', setVals r p h = Ok h' /\
      (forall k, In k r -> pvalue (view h') k = p)).
    { clear. induction r as [|q r IH]; intros h A; cbn [setVals].
      - exists h. split; [auto|]. intros k [].
      - destruct (there_get h q (A q (or_introl eq_refl))) as (s & Hs & Ls & _ & _ & _).
        rewrite (setVal_ok _ _ _ p Hs Ls). cbn [obind]. set (h1 := putN h q (mkNode true (nOwner s) p (nNext s))).
        assert (V1 : view h1 = upd (view h) q (PV true (nOwner s) p)) by apply view_put.
        assert (Lq : q < length (view h)) by (rewrite view_len; eapply nth_len; eauto).
        destruct (IH h1) as (h' & Q & F).
        { intros k Hk. destruct (A k (or_intror Hk)) as (v & Hv & Ev). rewrite V1. destruct (Nat.eq_dec k q) as [->|Nk].
          - exists (PV true (nOwner s) p). rewrite nth_error_upd_eq; auto.
          - exists v. rewrite nth_error_upd_ne; auto. }
        exists h'. split; auto. intros k Hk. destruct (in_dec Nat.eq_dec k r) as [K|K]; [auto|].
        destruct Hk as [<-|]; [|contradiction]. unfold pvalue, view. rewrite nth_error_map.
        rewrite (setVals_out _ _ _ _ _ Q K). cbn [h1 putN nodes]. unfold h1, putN. cbn [nodes].
        rewrite nth_error_upd_eq by (rewrite <- view_len; auto). reflexivity. }
    destruct (G (i :: r) h) as (h' & Q' & F). { intros k [<-|Hk]; auto. apply A; auto. }
    exists h'. split; auto. split; [apply F; cbn; auto|].
    unfold pvalue, view. rewrite nth_error_map, (setVals_out _ _ _ _ _ Q' D), Hsj. cbn. congruence.
Qed.
Print Assumptions sharedptr_assign_null_refuted.

(** C124 is false: clear (inherited) destroys the object although another
    variable still refers to it *)
Theorem sharedptr_clear_refuted : forall ops h l i k x, legal ops -> sprun ops emptyWorld = Ok (h, l) ->
  pthere (view h) i -> pvalue (view h) i = Some x ->
  k <> i -> pthere (view h) k -> pvalue (view h) k = Some x ->
  (forall q v, nth_error (view h) q = Some v -> pExists v = true -> pInside v <> Some x) ->
  exists h', spstep (PClear i) h = Ok (h', None) /\ In x (gone h') /\
    pthere (view h') k /\ pvalue (view h') k = Some x.
Proof.
  intros ops h l i k x L R Ti V N Tk Vk M. destruct (run_ok ops L) as (h0 & l0 & R0 & [Ri I] & _).
  rewrite R in R0. injection R0 as <- <-. destruct (there_get h i Ti) as (s & Hs & Ls & Gi & _ & Vi).
  cbn [spstep]. unfold sclear. rewrite Gi. cbn [obind]. rewrite <- Vi, V, (setVal_ok _ _ _ None Hs Ls). cbn [obind].
  set (h1 := putN h i (mkNode true (nOwner s) None (nNext s))).
  assert (V1 : view h1 = upd (view h) i (PV true (nOwner s) None)) by apply view_put.
  change (alive h1) with (alive h). rewrite V in Vi.
  pose proof (oA _ _ _ _ I i (vw s) x (view_nth _ _ _ Hs) Ls (eq_sym Vi)) as Ax. rewrite Ax.
  cbn [nodes]. rewrite (no_members h1 x).
  - cbn [destroyAll obind]. eexists. split; [reflexivity|]. cbn [gone]. split; [apply in_or_app; cbn; auto|].
    change (view (mkWorld (upd (alive h) x false) (nodes h1) (gone h1 ++ [x]))) with (view h1). rewrite V1.
    split; [|rewrite pvalue_upd_ne; auto]. destruct Tk as (v & Hv & Ev). exists v. rewrite nth_error_upd_ne; auto.
  - intros q v Hq Ev. rewrite V1 in Hq. destruct (Nat.eq_dec q i) as [->|Nq].
    + rewrite nth_error_upd_eq in Hq by (rewrite view_len; eapply nth_len; eauto). injection Hq as <-. cbn.
      apply (M i (vw s)); auto. apply view_nth; auto.
    + rewrite nth_error_upd_ne in Hq by auto. eapply M; eauto.
Qed.
Print Assumptions sharedptr_clear_refuted.

(** C125 is false: swap (inherited) exchanges the objects but not the rings.
    When [i] shares [x] with [k] and [j] is the only owner of its object, after
    the swap destroying [j] destroys [x], which [k] still refers to *)
Theorem sharedptr_swap_refuted : forall ops h l i j k x y, legal ops -> sprun ops emptyWorld = Ok (h, l) ->
  pthere (view h) i -> pvalue (view h) i = Some x ->
  k <> i -> pthere (view h) k -> pvalue (view h) k = Some x ->
  pouter (view h) j -> pvalue (view h) j = Some y -> x <> y -> ringOf h j = Ok [j] ->
  (forall q v, nth_error (view h) q = Some v -> pExists v = true -> pInside v <> Some x) ->
  exists h1 h2, spstep (PSwap i j) h = Ok (h1, None) /\ spstep (PDrop j) h1 = Ok (h2, None) /\
    In x (gone h2) /\ pthere (view h2) k /\ pvalue (view h2) k = Some x.
Proof.
  intros ops h l i j k x y L R Ti V N Tk Vk Oj Vj Nxy Qj M. destruct (run_ok ops L) as (h0 & l0 & R0 & [Ri I] & _).
  rewrite R in R0. injection R0 as <- <-.
  assert (Tj : pthere (view h) j) by (destruct Oj as (v & H1 & H2 & _); exists v; auto).
  assert (Nij : i <> j) by (intros ->; congruence). assert (Nkj : k <> j) by (intros ->; congruence).
  destruct (there_get h i Ti) as (s & Hs & Ls & Gi & _ & Vi). destruct (there_get h j Tj) as (sj & Hsj & Lj & Gj & Ej & Vj').
  assert (Al : nNext sj = j).
  { unfold ringOf in Qj. destruct (length (nodes h)) as [|n]; cbn [ringFrom] in Qj; rewrite Gj in Qj; cbn [obind] in Qj;
      destruct (Nat.eqb_spec (nNext sj) j) as [|X]; auto; try discriminate.
    apply obind_ok in Qj as (r & Q & E). injection E as ->.
    destruct n; cbn [ringFrom] in Q; destruct (getN h (nNext sj)); cbn [obind] in Q; try discriminate;
      destruct (nNext a =? j); try discriminate; apply obind_ok in Q as (r & _ & Q); discriminate. }
  cbn [spstep]. unfold sswap. rewrite Gi, Gj. cbn [obind]. rewrite (setVal_ok _ _ _ (nPtr sj) Hs Ls). cbn [obind].
  set (h1 := putN h i (mkNode true (nOwner s) (nPtr sj) (nNext s))).
  assert (Hj1 : nth_error (nodes h1) j = Some sj) by (unfold h1; cbn [putN nodes]; rewrite nth_error_upd_ne; auto).
  rewrite (setVal_ok h1 j sj (nPtr s) Hj1 Lj). cbn [obind].
  set (sj2 := mkNode true (nOwner sj) (nPtr s) (nNext sj)). set (h2 := putN h1 j sj2).
  exists h2.
  assert (V2 : view h2 = upd (upd (view h) i (PV true (nOwner s) (nPtr sj))) j (PV true (nOwner sj) (nPtr s))).
  { unfold h2, h1. rewrite !view_put. reflexivity. }
  assert (Hj2 : nth_error (nodes h2) j = Some sj2).
  { unfold h2. cbn [putN nodes]. apply nth_error_upd_eq. eapply nth_len; eauto. }
  unfold destruct_. cbn [destroyAll]. rewrite (getN_ok _ _ _ Hj2 eq_refl). cbn [obind].
  unfold isSharedN. cbn [nNext sj2]. rewrite Al, Nat.eqb_refl. cbn [negb nPtr sj2]. unfold sj2 at 1. cbn [nPtr].
  rewrite <- Vi, V. change (alive h2) with (alive h). rewrite V in Vi.
  pose proof (oA _ _ _ _ I i (vw s) x (view_nth _ _ _ Hs) Ls (eq_sym Vi)) as Ax. rewrite Ax.
  set (h3 := bury h2 j sj2).
  assert (V3 : view h3 = upd (view h2) j (PV false (nOwner sj) None)) by exact (bury_view h2 j sj2).
  cbn [nodes]. rewrite (no_members h3 x).
  - cbn [app]. eexists. split; [reflexivity|]. split.
    { destruct (length (nodes h2)); cbn [destroyAll obind]; reflexivity. }
    cbn [gone]. split; [apply in_or_app; cbn; auto|].
    change (view (mkWorld (upd (alive h3) x false) (nodes h3) (gone h3 ++ [x]))) with (view h3). rewrite V3, V2.
    split.
    + destruct Tk as (v & Hv & Ev). exists v. rewrite !nth_error_upd_ne; auto.
    + rewrite !pvalue_upd_ne; auto.
  - intros q v Hq Ev. rewrite V3 in Hq. apply nth_upd_dead in Hq as [Nq Hq]; auto.
    rewrite V2, nth_error_upd_ne in Hq by auto. destruct (Nat.eq_dec q i) as [->|Nqi].
    + rewrite nth_error_upd_eq in Hq by (rewrite view_len; eapply nth_len; eauto). injection Hq as <-. cbn.
      apply (M i (vw s)); auto. apply view_nth; auto.
    + rewrite nth_error_upd_ne in Hq by auto. eapply M; eauto.
Qed.
Print Assumptions sharedptr_swap_refuted.

(** C126 is false: replacing the only pointer to an object by a pointer stored
    in that object (the step [p = p->next]) is undefined *)
Theorem sharedptr_assign_member_refuted : forall ops h l i j x, legal ops -> sprun ops emptyWorld = Ok (h, l) ->
  pouter (view h) i -> pvalue (view h) i = Some x ->
  (forall k, k <> i -> pthere (view h) k -> pvalue (view h) k <> Some x) ->
  i <> j -> (exists v, nth_error (view h) j = Some v /\ pExists v = true /\ pInside v = Some x) ->
  spstep (PAssign i j) h = Undef.
Proof.
  intros ops h l i j x L R Oi V U N (v & Hv & Ev & Iv). destruct (run_ok ops L) as (h0 & l0 & R0 & J & _).
  rewrite R in R0. injection R0 as <- <-. assert (J' := J). destruct J' as [Ri I].
  assert (Ti : pthere (view h) i) by (destruct Oi as (w & H1 & H2 & _); exists w; auto).
  assert (Tj : pthere (view h) j) by (exists v; auto).
  destruct (there_get h i Ti) as (s & Hs & Ls & Gi & _ & Vi). destruct (there_get h j Tj) as (sj & Hsj & Lj & Gj & Ej & Vj).
  assert (Pj := U j (not_eq_sym N) Tj).
  cbn [spstep]. unfold sassign. apply Nat.eqb_neq in N as Nb. rewrite Nb, Gi, Gj. cbn [obind].
  destruct (samePtr (nPtr s) (nPtr sj)) eqn:Sm.
  { apply samePtr_spec in Sm. congruence. }
  destruct (destruct_outer h i J Oi) as (h1 & Q & [R1 I1] & S1). rewrite Q. cbn [obind]. destruct S1 as [L1 L2 L3 L4].
  assert (Ax : nth_error (alive h) x = Some true).
  { apply (oA _ _ _ _ I i (vw s) x (view_nth _ _ _ Hs) Ls). cbn. congruence. }
  assert (Dx : nth_error (alive h1) x = Some false).
  { destruct (nth_error (alive h1) x) as [[]|] eqn:E; auto.
    - exfalso. destruct (oB _ _ _ _ I1 x E) as (k & w & Hw & Ew & Rw).
      assert (Lk : k < length (view h)) by (rewrite <- L1; eapply nth_len; eauto).
      apply nth_error_Some in Lk. destruct (nth_error (view h) k) as [w0|] eqn:E0; [|congruence].
      destruct (L4 k w0 E0) as [[X Y]|[X _]].
      + assert (w0 = w) by congruence. subst w0. apply (U k).
        * intros ->. apply Y. cbn. auto. * exists w. auto. * rewrite (pvalue_nth _ _ _ E0). auto.
      + rewrite Hw in X. injection X as ->. discriminate.
    - apply nth_error_None in E. apply nth_len in Ax. lia. }
  unfold copyInto, getN. destruct (nth_error (nodes h1) j) as [s1|] eqn:E1; [|reflexivity].
  destruct (nLive s1) eqn:Lv; [|reflexivity]. exfalso.
  destruct (L4 j v Hv) as [[X _]|[X _]].
  - destruct (oO _ _ _ _ I1 j v x X Ev Iv) as [Y|[]]. congruence.
  - rewrite (view_nth _ _ _ E1) in X. injection X as X _ _. congruence.
Qed.
Print Assumptions sharedptr_assign_member_refuted.

(** ** Non-vacuity *)
Fixpoint legalb (ops : list pop) (h : world) : Prop :=
  match ops with
  | [] => True
  | op :: ops' => (pallowed op (view h) /\ spUsed op (view h)) /\
      match spstep op h with Ok (h', _) => legalb ops' h' | _ => False end
  end.
Lemma legalb_legal : forall ops h pre op post h' l, legalb ops h -> ops = pre ++ op :: post ->
  sprun pre h = Ok (h', l) -> pallowed op (view h') /\ spUsed op (view h').
Proof.
  induction ops as [|o ops IH]; intros h pre op post h' l L E R.
  - destruct pre; discriminate.
  - destruct L as [A L]. destruct pre as [|o' pre]; cbn in E; injection E as <- E.
    + cbn in R. injection R as <- _. auto.
    + cbn [sprun] in R. destruct (spstep o h) as [[h1 a]| | |]; try destruct L. cbn [obind] in R.
      apply obind_ok in R as ([h2 l2] & R & Q). injection Q as <- _. eapply IH; eauto.
Qed.

Ltac slot_at v := exists v; split; [reflexivity|]; repeat split; reflexivity.

(** a list of two nodes: node 0 has the member 0 that refers to node 1 (member 2
    is in node 1); outer pointers 1, 3 and a copy 4 of 1 *)
Definition twoNodes : list pop := [PNew 1; PNew 1; PAssign 0 3; PCopy 1; PShared 1; PDrop 3].
Example sharedptr_legal : legal (twoNodes ++ [PDrop 4; PNull; PAssign 1 5]).
Proof.
  intros pre op post h l E R. eapply legalb_legal; [|exact E|exact R].
  unfold twoNodes. cbn [app legalb pallowed spUsed].
  split; [split; exact Logic.I|]. cbn. split; [split; exact Logic.I|]. cbn. split.
  { split; [|exact Logic.I]. split; [discriminate|]. split. { slot_at (PV true (Some 0) None). }
    split. { slot_at (PV true None (Some 1)). } right. left. reflexivity. }
  split. { split; [slot_at (PV true None (Some 0))|exact Logic.I]. }
  split. { split; [slot_at (PV true None (Some 0))|]. discriminate. }
  split. { split; [slot_at (PV true None (Some 1))|exact Logic.I]. }
  split. { split; [slot_at (PV true None (Some 0))|exact Logic.I]. }
  split. { split; exact Logic.I. }
  split. { split; [|exact Logic.I]. split; [discriminate|]. split. { slot_at (PV true None (Some 0)). }
    split. { slot_at (PV true None None). } left. split. { slot_at (PV true None (Some 0)). } slot_at (PV true None None). }
  exact Logic.I.
Qed.
Example sharedptr_run_ex :
  match sprun (twoNodes ++ [PDrop 4; PNull; PAssign 1 5]) emptyWorld with
  | Ok (h, l) => gone h = [0; 1] /\ l = [None; None; None; None; Some true; None; None; None; None]
  | _ => False
  end.
Proof. vm_compute. auto. Qed.
Example sharedptr_ring_ex :
  match sprun [PNew 0; PCopy 0; PCopy 0; PNew 0; PCopy 3; PAssign 1 3] emptyWorld with
  | Ok (h, _) => ringOf h 0 = Ok [0; 2] /\ ringOf h 1 = Ok [1; 4; 3] /\
      match redirect h 4 None with Ok h' => pvalue (view h') 1 = None /\ pvalue (view h') 2 = Some 0 | _ => False end
  | _ => False
  end.
Proof. vm_compute. auto. Qed.
Example sharedptr_null_ex :
  match sprun [PNull; PCopy 0; PNull; PCopy 2] emptyWorld with
  | Ok (h, _) => ringOf h 0 = Ok [0; 1] /\ ringOf h 2 = Ok [2; 3] /\ spstep (PAssign 0 2) h = Ok (h, None)
  | _ => False
  end.
Proof. vm_compute. auto. Qed.
Example sharedptr_bugs_ex :
  match sprun [PNew 0; PCopy 0; PNew 0] emptyWorld with
  | Ok (h, _) => pvalue (view h) 1 = Some 0 /\ ringOf h 2 = Ok [2] /\
      match sprun [PSwap 0 2; PDrop 2] h with Ok (h', _) => gone h' = [0] /\ pvalue (view h') 1 = Some 0 | _ => False end /\
      match sprun [PClear 0] h with Ok (h', _) => gone h' = [0] /\ pvalue (view h') 1 = Some 0 | _ => False end
  | _ => False
  end /\
  sprun [PNew 1; PNew 0; PAssign 0 2; PAssign 1 0] emptyWorld = Undef.
Proof. vm_compute. auto 10. Qed.
