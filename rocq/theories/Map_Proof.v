(** Lemmas about the ordered map. *)
From Verif Require Import Common Avl_Model Map_Spec Map_Model Avl_Proof AvlIter_Proof.
From Coq Require Import Sorting.Sorted Sorting.Permutation.

Local Arguments Nat.max : simpl never.

(** ** Removing by a path *)
Section RemovePath.
Context {A : Type}.
Implicit Types t s : tree A.

(** a path from the root down, the highest node first *)
Inductive tpath : tree A -> list nat -> tree A -> Prop :=
| tp_here i x b l r : tpath (Node i x b l r) [i] (Node i x b l r)
| tp_down d i x b l r p s :
    tpath (link d (Node i x b l r)) p s -> tpath (Node i x b l r) (i :: p) s.

Lemma tpath_snoc t p s d j :
  tpath t p s -> addr (link d s) = Some j -> tpath t (p ++ [j]) (link d s).
Proof.
  induction 1 as [i x b l r|e i x b l r p s H IH]; intros E; cbn [app].
  - apply tp_down with (d := d). 
    destruct (link d (Node i x b l r)) eqn:El; [discriminate|]. simpl in E. injection E as <-.
    apply tp_here.
  - eapply tp_down; eauto.
Qed.

Lemma vpath_tpath t d p s R : vpath t d p s R -> tpath t (rev p) s.
Proof.
  induction 1 as [i H|p s R i x j H IH Hr Hj|p s R i j H IH Hi Hj].
  - destruct t; [discriminate|]. simpl in H. injection H as ->. constructor.
  - cbn [rev] in *. apply tpath_snoc; auto.
  - cbn [rev] in *. apply tpath_snoc; auto.
Qed.

Lemma tpath_head t p s : tpath t p s -> exists i p', addr t = Some i /\ p = i :: p'.
Proof. destruct 1; simpl; eauto. Qed.

Lemma removePath_same t i p done : addr t = Some i -> removePath (i :: p) t done = removePath p t done.
Proof.
  destruct t; [discriminate|]. simpl. intros [= ->]. rewrite Nat.eqb_refl. auto.
Qed.

Lemma removePath_ok t p i x b l r :
  tpath t p (Node i x b l r) -> uniq t -> balanced t ->
  exists t' done l1 l2, removePath p t false = Ok (t', done) /\ shrunk t t' done /\
    elems t = l1 ++ (i, x) :: l2 /\ elems t' = l1 ++ l2.
Proof.
  remember (Node i x b l r) as s eqn:Es.
  induction 1 as [i' x' b' l' r'|d j y c lt rt p s H IH]; intros U B.
  - injection Es as -> -> -> -> ->.
    destruct (removeRootNode_ok _ _ _ _ _ B) as (t' & dn & E & S & L).
    exists t', dn, (elems l), (elems r). split; auto.
    cbn [removePath]. rewrite Nat.eqb_refl. destruct r; exact E.
  - specialize (IH Es). destruct (uniq_node _ _ _ _ _ U) as (Ul & Ur & N1 & N2 & D).
    pose proof B as (Bl & Br & _).
    destruct (tpath_head _ _ _ H) as (k & p' & Ek & ->).
    rewrite removePath_same in IH by auto.
    rewrite removePath_same by auto. cbn [removePath].
    pose proof (addr_in _ _ Ek) as Ik.
    destruct d; cbn [link] in *.
    + assert (k <> j) by (intros ->; auto).
      rewrite (proj2 (Nat.eqb_neq k j)) by auto.
      assert (F : eqAddr (addr lt) k = false).
      { destruct (addr lt) as [q|] eqn:Eq; auto. simpl. apply Nat.eqb_neq. intros ->.
        apply addr_in in Eq. eauto. }
      rewrite F. destruct (IH Ur Br) as (r' & dn & l1 & l2 & E & S & L1 & L2).
      rewrite E. cbn [obind].
      destruct (balanceAfterRemove_ok true j y j y c lt rt r' dn B S) as (t' & dn' & Et & St & Lt).
      cbn [setLink] in Et, Lt.
      exists t', dn', (elems lt ++ (j, y) :: l1), l2. rewrite Et. split; auto. split; auto.
      rewrite Lt. cbn [elems]. rewrite L1, L2.
      repeat rewrite <- ?app_assoc, <- ?app_comm_cons. auto.
    + assert (k <> j) by (intros ->; auto).
      rewrite (proj2 (Nat.eqb_neq k j)) by auto.
      rewrite Ek. cbn [eqAddr]. rewrite Nat.eqb_refl.
      destruct (IH Ul Bl) as (l' & dn & l1 & l2 & E & S & L1 & L2).
      rewrite E. cbn [obind].
      destruct (balanceAfterRemove_ok false j y j y c lt rt l' dn B S) as (t' & dn' & Et & St & Lt).
      cbn [setLink] in Et, Lt.
      exists t', dn', l1, (l2 ++ (j, y) :: elems rt). rewrite Et. split; auto. split; auto.
      rewrite Lt. cbn [elems]. rewrite L1, L2.
      repeat rewrite <- ?app_assoc, <- ?app_comm_cons. auto.
Qed.

(** ** Writing through a reference *)
Lemma modify_elems f a t :
  elems (modify f a t) = map (fun e => if fst e =? a then (fst e, f (snd e)) else e) (elems t).
Proof.
  induction t as [|i x b l IHl r IHr]; simpl; auto.
  rewrite map_app. simpl. rewrite IHl, IHr. destruct (i =? a); auto.
Qed.

Lemma modify_height f a t : height (modify f a t) = height t.
Proof. induction t as [|i x b l IHl r IHr]; simpl; auto. Qed.

Lemma modify_balanced f a t : balanced t -> balanced (modify f a t).
Proof.
  induction t as [|i x b l IHl r IHr]; simpl; auto. unfold bOf. rewrite !modify_height.
  intros (Bl & Br & E & R). auto.
Qed.

Lemma modify_node f a t i : uniq t ->
  In i (map fst (elems t)) -> exists s, node (modify f a t) i = Some s.
Proof.
  intros _. induction t as [|j x b l IHl r IHr]; simpl; [tauto|].
  rewrite map_app, in_app_iff. simpl.
  destruct (Nat.eqb_spec j i) as [->|N]; eauto.
  intros [H|[H|H]]; [|tauto|].
  - destruct (IHl H) as [s ->]. eauto.
  - destruct (node (modify f a l) i); eauto.
Qed.

(** ** Height *)
Lemma fib_SS n : fib (S (S n)) = (fib (S n) + fib n)%N.
Proof. reflexivity. Qed.

Lemma fib_mono n m : n <= m -> (fib n <= fib m)%N.
Proof.
  induction 1 as [|m H IH]; [lia|]. destruct m; [simpl in *; lia|].
  rewrite fib_SS. lia.
Qed.

Lemma balanced_fib t : balanced t -> (fib (S (height t)) <= N.of_nat (length (elems t)) + 1)%N.
Proof.
  induction t as [|i x b l IHl r IHr]; intros B; [simpl; lia|].
  destruct B as (Bl & Br & E & R). specialize (IHl Bl). specialize (IHr Br).
  unfold bOf in *. cbn [height elems]. rewrite app_length. cbn [length].
  set (hl := height l) in *. set (hr := height r) in *.
  rewrite fib_SS.
  assert (H1 : fib (S (Nat.max hl hr)) = fib (S hl) /\ (fib (Nat.max hl hr) <= fib (S hr))%N \/
               fib (S (Nat.max hl hr)) = fib (S hr) /\ (fib (Nat.max hl hr) <= fib (S hl))%N).
  { destruct (Nat.le_ge_cases hl hr) as [L|L].
    - right. rewrite Nat.max_r by auto. split; auto. apply fib_mono. lia.
    - left. rewrite Nat.max_l by auto. split; auto. apply fib_mono. lia. }
  lia.
Qed.

Fixpoint fib2 (n : nat) : N * N :=
  match n with O => (1, 1)%N | S m => let (a, b) := fib2 m in (b, (a + b)%N) end.

Lemma fib2_ok n : fib2 n = (fib n, fib (S n)).
Proof.
  induction n as [|n IH]; [reflexivity|]. cbn [fib2]. rewrite IH, fib_SS. f_equal. lia.
Qed.

Lemma fib2_fst n : fib n = fst (fib2 n).
Proof. rewrite fib2_ok. reflexivity. Qed.

Lemma fib_65 : fib 65 = 27777890035288%N.
Proof. rewrite fib2_fst. vm_compute. reflexivity. Qed.

Lemma height_63 t : balanced t -> (N.of_nat (length (elems t)) < 2 ^ 44)%N -> height t <= 63.
Proof.
  intros B L. pose proof (balanced_fib t B) as F.
  destruct (Nat.le_gt_cases (height t) 63) as [H|H]; auto. exfalso.
  assert (G : (fib 65 <= fib (S (height t)))%N) by (apply fib_mono; lia).
  rewrite fib_65 in G. change (2 ^ 44)%N with 17592186044416%N in L. lia.
Qed.

(** the bound with the logarithm, without real numbers *)
Lemma phi_step (a c f1 f2 : N) :
  (a <= f1 * c)%N -> (a * 377 <= f2 * (c * 233))%N ->
  (a * 142129 <= (f2 + f1) * (c * 54289))%N.
Proof. intros. nia. Qed.

Lemma fib_exp n : (377 ^ N.of_nat n <= fib (S n) * 233 ^ N.of_nat n)%N /\
                  (377 ^ N.of_nat (S n) <= fib (S (S n)) * 233 ^ N.of_nat (S n))%N.
Proof.
  induction n as [|n [I1 I2]]; [split; vm_compute; discriminate|].
  split; auto. rewrite fib_SS. 
  replace (N.of_nat (S (S n))) with (N.of_nat n + 2)%N by lia.
  replace (N.of_nat (S n)) with (N.of_nat n + 1)%N in * by lia.
  rewrite !N.pow_add_r in *. 
  change (377 ^ 1)%N with 377%N in *. change (233 ^ 1)%N with 233%N in *.
  change (377 ^ 2)%N with 142129%N. change (233 ^ 2)%N with 54289%N.
  apply phi_step; auto.
Qed.

Lemma phi_const : (2 ^ 84 * 233 ^ 121 <= 377 ^ 121)%N.
Proof. apply N.leb_le. vm_compute. reflexivity. Qed.

Lemma pow_swap (a p q : N) : ((a ^ p) ^ q = (a ^ q) ^ p)%N.
Proof. rewrite <- !N.pow_mul_r. f_equal. lia. Qed.

Lemma log_bound (two r c h n p q : N) :
  (0 < c)%N -> (r ^ h <= n * c ^ h)%N -> (two ^ p * c ^ q <= r ^ q)%N ->
  (two ^ (p * h) <= n ^ q)%N.
Proof.
  intros Hc H1 H2.
  assert (A1 : ((two ^ p * c ^ q) ^ h <= (r ^ q) ^ h)%N) by (apply N.pow_le_mono_l; auto).
  assert (A2 : ((r ^ h) ^ q <= (n * c ^ h) ^ q)%N) by (apply N.pow_le_mono_l; auto).
  rewrite N.pow_mul_l in A1, A2. rewrite <- N.pow_mul_r in A1.
  rewrite (pow_swap r q h) in A1. rewrite (pow_swap c q h) in A1.
  assert (H : (0 < (c ^ h) ^ q)%N).
  { apply N.neq_0_lt_0, N.pow_nonzero, N.pow_nonzero. intros ->. discriminate Hc. }
  apply (proj2 (N.mul_le_mono_pos_r _ _ _ H)). eapply N.le_trans; eauto.
Qed.

Lemma height_log t : balanced t ->
  (2 ^ (84 * N.of_nat (height t)) <= (N.of_nat (length (elems t)) + 2) ^ 121)%N.
Proof.
  intros B. apply (log_bound 2 377 233 (N.of_nat (height t)) (N.of_nat (length (elems t)) + 2) 84 121).
  - reflexivity.
  - destruct (fib_exp (height t)) as [F _]. pose proof (balanced_fib t B) as G.
    eapply N.le_trans; [exact F|]. apply N.mul_le_mono_r. lia.
  - exact phi_const.
Qed.

(** the height the library computes *)
Lemma maxHeight_ok t : balanced t -> maxHeight t = height t.
Proof.
  induction t as [|i x b l IHl r IHr]; auto. intros (Bl & Br & E & R). unfold bOf in *.
  simpl. rewrite IHl, IHr by auto. destruct (b =? 1)%Z eqn:Eb; lia.
Qed.
End RemovePath.
