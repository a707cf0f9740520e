(** Lemmas for DList_Props.v *)
From Coq Require Import ZArith Permutation.
From Verif Require Import Common DList_Spec DList_Model.
Open Scope nat_scope.

Definition nx (h : mem) i := option_map nxt (h i).
Definition pv (h : mem) i := option_map prv (h i).
Definition rf (h : mem) i := option_map refs (h i).
Definition vl (h : mem) i := option_map val (h i).
Lemma nx_some h p y : nx h p = Some y -> exists n, h p = Some n /\ nxt n = y.
Proof. unfold nx. destruct (h p) as [n|]; cbn; [|discriminate]. intros Q. injection Q as <-. eauto. Qed.
Lemma load_ok h p y : nx h p = Some y -> exists n, load h p = Ok n /\ nxt n = y /\ pv h p = Some (prv n) /\ vl h p = Some (val n).
Proof. intros N. destruct (nx_some _ _ _ N) as (n & E & Y). exists n. unfold load, pv, vl. rewrite E. auto. Qed.
Lemma setNext_ok h p x y : nx h p = Some y -> exists h', setNext h p x = Ok h' /\ (forall i, nx h' i = if i =? p then Some x else nx h i) /\
  (forall i, pv h' i = pv h i) /\ (forall i, rf h' i = rf h i) /\ (forall i, vl h' i = vl h i).
Proof.
  intros N. destruct (nx_some _ _ _ N) as (n & E & Y). unfold setNext, load. rewrite E. cbn [obind]. eexists. split; [reflexivity|]. unfold nx, pv, rf, vl, set.
  repeat split; intros i; destruct (i =? p) eqn:Q; try reflexivity; apply Nat.eqb_eq in Q; subst; rewrite E; reflexivity.
Qed.
Lemma setPrev_ok h p x y : nx h p = Some y -> exists h', setPrev h p x = Ok h' /\ (forall i, pv h' i = if i =? p then Some x else pv h i) /\
  (forall i, nx h' i = nx h i) /\ (forall i, rf h' i = rf h i) /\ (forall i, vl h' i = vl h i).
Proof.
  intros N. destruct (nx_some _ _ _ N) as (n & E & Y). unfold setPrev, load. rewrite E. cbn [obind]. eexists. split; [reflexivity|]. unfold nx, pv, rf, vl, set.
  repeat split; intros i; destruct (i =? p) eqn:Q; try reflexivity; apply Nat.eqb_eq in Q; subst; rewrite E; reflexivity.
Qed.

Definition some (n : nat) : option nat := match n with O => None | S _ => Some n end.
Definition MI (h : mem) (k : nat -> nat) : Prop := forall i, rf h i = some (k i).
Lemma MI_ext h k k' : (forall i, k i = k' i) -> MI h k -> MI h k'.
Proof. intros E M i. rewrite M, E. reflexivity. Qed.
Lemma MI_pres h k p : MI h k -> 0 < k p -> exists n, h p = Some n /\ refs n = k p.
Proof. intros M K. specialize (M p). unfold rf in M. destruct (h p) as [n|]; cbn in M; destruct (k p) eqn:E; cbn in M; try lia; try discriminate. injection M as M. eauto. Qed.
Lemma MI_nx h k p : MI h k -> 0 < k p -> exists y, nx h p = Some y.
Proof. intros M K. destruct (MI_pres h k p M K) as (n & E & _). exists (nxt n). unfold nx. rewrite E. reflexivity. Qed.
Definition inc (p : nat) (k : nat -> nat) : nat -> nat := fun i => if i =? p then S (k i) else k i.
Definition dec (p : nat) (k : nat -> nat) : nat -> nat := fun i => if i =? p then k i - 1 else k i.
Lemma addRef_ok h k p : MI h k -> 0 < k p -> exists h', addRef h p = Ok h' /\ MI h' (inc p k) /\ (forall i, nx h' i = nx h i) /\ (forall i, pv h' i = pv h i) /\ (forall i, vl h' i = vl h i).
Proof.
  intros M K. destruct (MI_pres h k p M K) as (n & E & R). unfold addRef, load. rewrite E. cbn [obind]. eexists. split; [reflexivity|]. split.
  - intros i. unfold rf, set, inc. destruct (i =? p) eqn:Q; [|apply M]. apply Nat.eqb_eq in Q. subst i. cbn. rewrite R. reflexivity.
  - unfold nx, pv, vl, set. repeat split; intros i; destruct (i =? p) eqn:Q; try reflexivity; apply Nat.eqb_eq in Q; subst; rewrite E; reflexivity.
Qed.
Lemma release_ok h k p : MI h k -> 0 < k p -> exists h', release h p = Ok h' /\ MI h' (dec p k) /\
  (forall i, i <> p \/ 1 < k p -> nx h' i = nx h i /\ pv h' i = pv h i /\ vl h' i = vl h i) /\ (k p = 1 -> h' p = None).
Proof.
  intros M K. destruct (MI_pres h k p M K) as (n & E & R). unfold release, load. rewrite E. cbn [obind]. destruct (refs n) as [|[|r]] eqn:RN; [lia|..].
  - eexists. split; [reflexivity|]. split; [|split].
    + intros i. unfold rf, set, dec. destruct (i =? p) eqn:Q; [|apply M]. apply Nat.eqb_eq in Q. subst i. cbn. rewrite <- R. reflexivity.
    + intros i [N|N]; [|lia]. unfold nx, pv, vl, set. destruct (i =? p) eqn:Q; [apply Nat.eqb_eq in Q; congruence|auto].
    + intros _. unfold set. rewrite Nat.eqb_refl. reflexivity.
  - eexists. split; [reflexivity|]. split; [|split; [|lia]].
    + intros i. unfold rf, set, dec. destruct (i =? p) eqn:Q; [|apply M]. apply Nat.eqb_eq in Q. subst i. cbn. rewrite <- R. reflexivity.
    + intros i _. unfold nx, pv, vl, set. destruct (i =? p) eqn:Q; [|auto]. apply Nat.eqb_eq in Q. subst i. rewrite E. auto.
Qed.

(** * Links *)
Fixpoint links (h : mem) (l : list nat) : Prop :=
  match l with a :: (b :: _) as t => (nx h a = Some b /\ pv h b = Some a) /\ links h t | _ => True end.
Lemma links_cons h a b t : links h (a :: b :: t) <-> (nx h a = Some b /\ pv h b = Some a) /\ links h (b :: t).
Proof. reflexivity. Qed.
Lemma links_app h p a q : links h (p ++ a :: q) <-> links h (p ++ [a]) /\ links h (a :: q).
Proof.
  induction p as [|x p IH]; cbn [app].
  - cbn [links]. tauto.
  - destruct p as [|y p]; cbn [app] in *.
    + rewrite !links_cons. cbn [links] in *. tauto.
    + rewrite !links_cons, IH. tauto.
Qed.
Lemma links_ext h h' l : (forall a, In a (removelast l) -> nx h' a = nx h a) -> (forall b, In b (tl l) -> pv h' b = pv h b) -> links h l -> links h' l.
Proof.
  induction l as [|a [|b t] IH]; intros N P L; [exact I|exact I|]. apply links_cons in L. destruct L as [[L1 L2] L]. apply links_cons. split; [split|].
  - rewrite N; [exact L1|]. cbn. auto.
  - rewrite P; [exact L2|]. cbn. auto.
  - apply IH; [intros x X; apply N|intros x X; apply P|exact L].
    + cbn [removelast]. right. exact X.
    + cbn [tl]. right. exact X.
Qed.
Lemma removelast_mid {A} (p : list A) a q : removelast (p ++ a :: q) = p ++ removelast (a :: q).
Proof. apply removelast_app. discriminate. Qed.
Lemma tl_mid {A} (p : list A) a q : p <> [] -> tl (p ++ a :: q) = tl p ++ a :: q.
Proof. destruct p; [congruence|reflexivity]. Qed.
(** the ring with the anchor at both ends *)
Definition ring (l : list nat) := 0 :: l ++ [0].
Lemma ring_rl l : removelast (ring l) = 0 :: l.
Proof. unfold ring. rewrite app_comm_cons. apply removelast_last. Qed.
Lemma ring_nd l p a q : NoDup (0 :: l) -> ring l = p ++ a :: q -> NoDup (p ++ removelast (a :: q)) /\ NoDup (tl (p ++ [a]) ++ q).
Proof.
  intros N E. split.
  - rewrite <- removelast_mid, <- E, ring_rl. exact N.
  - assert (T : tl (p ++ [a]) ++ q = l ++ [0]).
    { destruct p as [|x p]; cbn [app tl] in *; unfold ring in E; injection E as E1 E2; [symmetry; exact E2|]. rewrite <- app_assoc. cbn. symmetry. exact E2. }
    rewrite T. apply (Permutation_NoDup (Permutation_cons_append l 0)). exact N.
Qed.
Lemma ins_links h h' l p a b q x : NoDup (0 :: l) -> ring l = p ++ a :: b :: q -> ~ In x (ring l) -> links h (ring l) ->
  (forall i, nx h' i = if i =? x then Some b else if i =? a then Some x else nx h i) ->
  (forall i, pv h' i = if i =? x then Some a else if i =? b then Some x else pv h i) -> links h' (p ++ a :: x :: b :: q).
Proof.
  intros ND E NX L HN HP. destruct (ring_nd _ _ _ _ ND E) as [N1 N2]. rewrite E in L, NX. apply links_app in L. destruct L as [L1 L2]. apply links_cons in L2. destruct L2 as [_ L2].
  assert (XA : x <> a) by (intros ->; apply NX; apply in_or_app; cbn; auto). assert (XB : x <> b) by (intros ->; apply NX; apply in_or_app; cbn; auto).
  apply links_app. split; [|apply links_cons; split; [split|apply links_cons; split; [split|]]].
  - apply (links_ext h); [..|exact L1].
    + intros i I. rewrite removelast_last in I. rewrite HN. destruct (i =? x) eqn:Q1; [apply Nat.eqb_eq in Q1; subst; destruct NX; apply in_or_app; auto|]. destruct (i =? a) eqn:Q2; [|reflexivity].
      apply Nat.eqb_eq in Q2. subst i. cbn [removelast] in N1. apply NoDup_remove_2 in N1. destruct N1. apply in_or_app. auto.
    + intros i I. rewrite HP. destruct (i =? x) eqn:Q1; [apply Nat.eqb_eq in Q1; subst i; destruct NX; apply in_or_app; destruct p as [|y p]; cbn in I; [destruct I|]; apply in_app_or in I; destruct I as [I|[I|[]]]; cbn; auto|].
      destruct (i =? b) eqn:Q2; [|reflexivity]. apply Nat.eqb_eq in Q2. subst i. apply NoDup_remove_2 in N2. destruct N2. apply in_or_app. auto.
  - rewrite HN. rewrite (proj2 (Nat.eqb_neq a x)) by congruence. rewrite Nat.eqb_refl. reflexivity.
  - rewrite HP, Nat.eqb_refl. reflexivity.
  - rewrite HN, Nat.eqb_refl. reflexivity.
  - rewrite HP. rewrite (proj2 (Nat.eqb_neq b x)) by congruence. rewrite Nat.eqb_refl. reflexivity.
  - apply (links_ext h); [..|exact L2].
    + intros i I. rewrite HN. assert (I2 : In i (b :: q)) by (rewrite (app_removelast_last 0) by discriminate; apply in_or_app; auto).
      destruct (i =? x) eqn:Q1; [apply Nat.eqb_eq in Q1; subst; destruct NX; apply in_or_app; right; right; exact I2|]. destruct (i =? a) eqn:Q2; [|reflexivity].
      apply Nat.eqb_eq in Q2. subst i. change (removelast (a :: b :: q)) with (a :: removelast (b :: q)) in N1. apply NoDup_remove_2 in N1. destruct N1. apply in_or_app. auto.
    + intros i I. cbn [tl] in I. rewrite HP. destruct (i =? x) eqn:Q1; [apply Nat.eqb_eq in Q1; subst; destruct NX; apply in_or_app; cbn; auto|]. destruct (i =? b) eqn:Q2; [|reflexivity].
      apply Nat.eqb_eq in Q2. subst i. apply NoDup_remove_2 in N2. destruct N2. apply in_or_app. auto.
Qed.
Lemma rem_links h h' l p a b q x : NoDup (0 :: l) -> ring l = p ++ a :: x :: b :: q -> x <> 0 -> links h (ring l) ->
  (forall i, i <> x -> nx h' i = if i =? a then Some b else nx h i) ->
  (forall i, i <> x -> pv h' i = if i =? b then Some a else pv h i) -> links h' (p ++ a :: b :: q).
Proof.
  intros ND E X0 L HN HP. destruct (ring_nd _ _ _ _ ND E) as [N1 N2].
  assert (E' : ring l = (p ++ [a]) ++ x :: b :: q) by (rewrite <- app_assoc; exact E). destruct (ring_nd _ _ _ _ ND E') as [N3 N4].
  change (removelast (x :: b :: q)) with (x :: removelast (b :: q)) in N3. apply NoDup_remove_2 in N3. rewrite tl_mid in N4 by (destruct p; discriminate). rewrite <- app_assoc in N4. cbn [app] in N4. apply NoDup_remove_2 in N4.
  rewrite E in L. apply links_app in L. destruct L as [L1 L2]. apply links_cons in L2. destruct L2 as [_ L2]. apply links_cons in L2. destruct L2 as [_ L2].
  assert (AX : a <> x) by (intros ->; apply N3; apply in_or_app; left; apply in_or_app; cbn; auto). assert (BX : b <> x) by (intros ->; apply N4; apply in_or_app; right; left; reflexivity).
  apply links_app. split; [|apply links_cons; split; [split|]].
  - apply (links_ext h); [..|exact L1].
    + intros i I. rewrite removelast_last in I. rewrite HN by (intros ->; apply N3; apply in_or_app; left; apply in_or_app; auto). destruct (i =? a) eqn:Q2; [|reflexivity].
      apply Nat.eqb_eq in Q2. subst i. change (removelast (a :: x :: b :: q)) with (a :: removelast (x :: b :: q)) in N1. apply NoDup_remove_2 in N1. destruct N1. apply in_or_app. auto.
    + intros i I. rewrite HP by (intros ->; apply N4; apply in_or_app; left; exact I). destruct (i =? b) eqn:Q2; [|reflexivity].
      apply Nat.eqb_eq in Q2. subst i. exfalso. assert (N5 : NoDup ((tl (p ++ [a]) ++ [x]) ++ b :: q)) by (rewrite <- app_assoc; exact N2). apply NoDup_remove_2 in N5. apply N5. apply in_or_app. left. apply in_or_app. auto.
  - rewrite HN by exact AX. rewrite Nat.eqb_refl. reflexivity.
  - rewrite HP by exact BX. rewrite Nat.eqb_refl. reflexivity.
  - apply (links_ext h); [..|exact L2].
    + intros i I. rewrite HN by (intros ->; apply N3; apply in_or_app; auto). destruct (i =? a) eqn:Q2; [|reflexivity].
      apply Nat.eqb_eq in Q2. subst i. change (removelast (a :: x :: b :: q)) with (a :: x :: removelast (b :: q)) in N1. apply NoDup_remove_2 in N1. destruct N1. apply in_or_app. right. right. exact I.
    + intros i I. cbn [tl] in I. rewrite HP by (intros ->; apply N4; apply in_or_app; right; right; exact I). destruct (i =? b) eqn:Q2; [|reflexivity].
      apply Nat.eqb_eq in Q2. subst i. exfalso. assert (N5 : NoDup ((tl (p ++ [a]) ++ [x]) ++ b :: q)) by (rewrite <- app_assoc; exact N2). apply NoDup_remove_2 in N5. apply N5. apply in_or_app. auto.
Qed.

(** * Places *)
Definition addr (p : place) : nat := match p with None => 0 | Some n => n end.
Lemma first_split l : exists q, l ++ [0] = addr (first l) :: q.
Proof. destruct l; cbn; eauto. Qed.
Lemma last_split l : exists q, 0 :: l = q ++ [addr (first (rev l))].
Proof. induction l as [|x l _] using rev_ind; [exists []; reflexivity|]. rewrite rev_app_distr. cbn. exists (0 :: l). reflexivity. Qed.
Lemma live_in n l : live (Some n) l = true <-> In n l.
Proof. cbn. rewrite existsb_exists. split; [intros (x & I & E); apply Nat.eqb_eq in E; subst; exact I|]. intros I. exists n. split; [exact I|apply Nat.eqb_refl]. Qed.
Lemma live_split n l : NoDup l -> live (Some n) l = true -> exists l1 l2, l = l1 ++ n :: l2 /\ ~ In n l1 /\ ~ In n l2.
Proof.
  intros ND L. apply live_in in L. apply in_split in L. destruct L as (l1 & l2 & ->). exists l1, l2. split; [reflexivity|]. apply NoDup_remove_2 in ND. split; intros I; apply ND; apply in_or_app; auto.
Qed.
Lemma succ_split n l1 l2 : ~ In n l1 -> succ_in n (l1 ++ n :: l2) = first l2.
Proof. induction l1 as [|x t IH]; cbn; intros N; [rewrite Nat.eqb_refl; reflexivity|]. destruct (n =? x) eqn:E; [apply Nat.eqb_eq in E; subst; tauto|]. apply IH. tauto. Qed.
Lemma rsucc_split n l1 l2 : ~ In n l2 -> succ_in n (rev (l1 ++ n :: l2)) = first (rev l1).
Proof. intros N. rewrite rev_app_distr. cbn [rev]. rewrite <- app_assoc. cbn [app]. apply succ_split. rewrite <- in_rev. exact N. Qed.
Lemma put_after_split n x l1 l2 : ~ In n l1 -> put_after n x (l1 ++ n :: l2) = l1 ++ n :: x :: l2.
Proof. induction l1 as [|y t IH]; cbn; intros N; [rewrite Nat.eqb_refl; reflexivity|]. destruct (n =? y) eqn:E; [apply Nat.eqb_eq in E; subst; tauto|]. rewrite IH by tauto. reflexivity. Qed.
Lemma put_before_split n x l1 l2 : ~ In n l1 -> put_before n x (l1 ++ n :: l2) = l1 ++ x :: n :: l2.
Proof. induction l1 as [|y t IH]; cbn; intros N; [rewrite Nat.eqb_refl; reflexivity|]. destruct (n =? y) eqn:E; [apply Nat.eqb_eq in E; subst; tauto|]. rewrite IH by tauto. reflexivity. Qed.
Lemma remove_split n l1 l2 : ~ In n l1 -> ~ In n l2 -> remove Nat.eq_dec n (l1 ++ n :: l2) = l1 ++ l2.
Proof. intros A B. rewrite remove_app, remove_cons, !notin_remove by assumption. reflexivity. Qed.

Definition put_a (p : place) (x : nat) (l : list nat) := match p with None => x :: l | Some n => put_after n x l end.
Definition put_b (p : place) (x : nat) (l : list nat) := match p with None => l ++ [x] | Some n => put_before n x l end.
Lemma after_split p x l : NoDup l -> live p l = true -> exists u q, ring l = u ++ addr p :: addr (behind p l) :: q /\ ring (put_a p x l) = u ++ addr p :: x :: addr (behind p l) :: q.
Proof.
  intros ND L. destruct p as [n|]; cbn [addr behind put_a].
  - destruct (live_split n l ND L) as (l1 & l2 & -> & A & B). rewrite succ_split, put_after_split by exact A. destruct (first_split l2) as (q & Q). exists (0 :: l1), q. unfold ring. rewrite <- !app_assoc. cbn [app]. rewrite Q. auto.
  - destruct (first_split l) as (q & Q). exists [], q. unfold ring. cbn [app]. rewrite Q. auto.
Qed.
Lemma before_split p x l : NoDup l -> live p l = true -> exists u q, ring l = u ++ addr (behind p (rev l)) :: addr p :: q /\ ring (put_b p x l) = u ++ addr (behind p (rev l)) :: x :: addr p :: q.
Proof.
  intros ND L. destruct p as [n|]; cbn [addr behind put_b].
  - destruct (live_split n l ND L) as (l1 & l2 & -> & A & B). rewrite rsucc_split by exact B. rewrite put_before_split by exact A. destruct (last_split l1) as (u & Q). exists u, (l2 ++ [0]). unfold ring.
    rewrite !app_comm_cons, Q, <- !app_assoc. cbn [app]. rewrite ?app_comm_cons. rewrite <- ?app_assoc. cbn [app]. auto.
  - destruct (last_split l) as (u & Q). exists u, []. unfold ring. rewrite !app_comm_cons, Q, <- !app_assoc. cbn [app]. auto.
Qed.
Lemma step_nx h p l : links h (ring l) -> NoDup l -> live p l = true -> nx h (addr p) = Some (addr (step true p l)) /\ pv h (addr p) = Some (addr (step false p l)).
Proof.
  intros K ND L. split.
  - destruct (after_split p 0 l ND L) as (u & q & E & _). rewrite E in K. apply links_app in K. destruct K as [_ K]. apply links_cons in K. apply K.
  - destruct (before_split p 0 l ND L) as (u & q & E & _). rewrite E in K. apply links_app in K. destruct K as [_ K]. apply links_cons in K. apply K.
Qed.
Lemma step_live fw p l : live (step fw p l) l = true.
Proof.
  assert (F : forall l, live (first l) l = true) by (intros [|x t]; cbn; [reflexivity|rewrite Nat.eqb_refl; reflexivity]).
  assert (S : forall n l, live (succ_in n l) l = true).
  { intros n. induction l0 as [|x t IH]; [reflexivity|]. cbn [succ_in]. destruct (n =? x).
    - specialize (F t). destruct (first t); cbn in *; [rewrite F; apply Bool.orb_true_r|reflexivity].
    - destruct (succ_in n t); cbn in *; [rewrite IH; apply Bool.orb_true_r|reflexivity]. }
  assert (RV : forall q, live q (rev l) = true -> live q l = true) by (intros [n|]; [|reflexivity]; rewrite !live_in, <- in_rev; auto).
  destruct fw, p as [n|]; cbn [step behind]; auto.
Qed.

(** * The invariant *)
Record LI (l : lst) (L : list nat) (k : nat -> nat) (V : list (nat * Z)) : Prop := {
  i_links : links (m l) (ring L);
  i_nd : NoDup (0 :: L);
  i_mi : MI (m l) k;
  i_k : forall i, In i (0 :: L) -> 0 < k i;
  i_vals : forall i v, i <> 0 -> vl (m l) i = Some v -> value i V = Some v;
  i_brk : 0 < brk l /\ forall i, brk l <= i -> k i = 0;
  i_cnt : count l = length L;
}.
Lemma LI_ext l L k k' V : (forall i, k i = k' i) -> LI l L k V -> LI l L k' V.
Proof.
  intros E [A B C D F [G H] J]. constructor; auto; [apply (MI_ext _ k); assumption|intros i I; rewrite <- E; auto|]. split; [exact G|]. intros i I. rewrite <- E. auto.
Qed.
Lemma nd_tail L : NoDup (0 :: L) -> NoDup L.
Proof. inversion 1; assumption. Qed.
Lemma ring_in L i : In i (ring L) <-> In i (0 :: L).
Proof. unfold ring. cbn. rewrite in_app_iff. cbn. tauto. Qed.
Lemma LI_nx l L k V i : LI l L k V -> 0 < k i -> exists y, nx (m l) i = Some y.
Proof. intros W K. apply (MI_nx _ _ _ (i_mi _ _ _ _ W) K). Qed.
Lemma links_nx h l i : links h l -> In i (removelast l) -> exists y, nx h i = Some y.
Proof.
  induction l as [|a [|b t] IH]; cbn [removelast]; intros L I; [destruct I|destruct I|]. apply links_cons in L. destruct L as [[L1 _] L]. destruct I as [<-|I]; [eauto|apply IH; assumption].
Qed.

Lemma create_ok v l L k V : LI l L k V -> let '(l1, x) := create v l in x = brk l /\ brk l1 = S (brk l) /\ count l1 = count l /\ MI (m l1) (inc x k) /\ k x = 0 /\ ~ In x (0 :: L) /\
  (forall i, nx (m l1) i = if i =? x then Some x else nx (m l) i) /\ (forall i, pv (m l1) i = if i =? x then Some x else pv (m l) i) /\ (forall i, vl (m l1) i = if i =? x then Some v else vl (m l) i).
Proof.
  intros [A B C D F [G H] J]. unfold create. cbn [brk count m]. split; [reflexivity|]. split; [reflexivity|]. split; [reflexivity|]. assert (K0 : k (brk l) = 0) by (apply H; lia).
  split; [|split; [exact K0|split; [intros I; apply D in I; lia|]]].
  - intros i. unfold rf, set, inc. destruct (i =? brk l) eqn:Q; [|apply C]. apply Nat.eqb_eq in Q. subst i. cbn. rewrite K0. reflexivity.
  - unfold nx, pv, vl, set. repeat split; intros i; destruct (i =? brk l); reflexivity.
Qed.
Ltac eqb := repeat match goal with |- context [?a =? ?b] => destruct (Nat.eqb_spec a b); subst end; try congruence; try tauto; auto.
Lemma link_done v l L k V l1 h3 u a b q x L' : LI l L k V -> create v l = (l1, x) -> ring L = u ++ a :: b :: q -> ring L' = u ++ a :: x :: b :: q ->
  (forall i, nx h3 i = if i =? x then Some b else if i =? a then Some x else nx (m l) i) ->
  (forall i, pv h3 i = if i =? x then Some a else if i =? b then Some x else pv (m l) i) ->
  (forall i, rf h3 i = rf (m l1) i) -> (forall i, vl h3 i = vl (m l1) i) ->
  exists l2, (let! h := addRef h3 x in let! h := release h x in Ok (mkL h (count l1 + 1) (brk l1))) = Ok l2 /\ LI l2 L' (inc x k) ((x, v) :: V) /\ brk l2 = S x.
Proof.
  intros W C R R' HN HP HR HV. pose proof (create_ok v l L k V W) as Q. rewrite C in Q. destruct Q as (X & B1 & C1 & M1 & K0 & NI & _ & _ & V1).
  assert (M3 : MI h3 (inc x k)) by (intros i; rewrite HR; apply M1). destruct (addRef_ok h3 (inc x k) x M3) as (h4 & E4 & M4 & N4 & P4 & V4); [unfold inc; rewrite Nat.eqb_refl; lia|]. rewrite E4. cbn [obind].
  destruct (release_ok h4 (inc x (inc x k)) x M4) as (h5 & E5 & M5 & S5 & _); [unfold inc; rewrite Nat.eqb_refl; lia|]. rewrite E5. cbn [obind]. eexists. split; [reflexivity|].
  assert (S : forall i, nx h5 i = nx h3 i /\ pv h5 i = pv h3 i /\ vl h5 i = vl h3 i).
  { intros i. destruct (S5 i) as (T1 & T2 & T3); [right; unfold inc; rewrite Nat.eqb_refl; lia|]. rewrite T1, T2, T3, N4, P4, V4. auto. }
  destruct W as [WA WB WC WD WE [WF WG] WH].
  assert (LR : ring L' = ring (tl (removelast (ring L')))) by (rewrite ring_rl; reflexivity).
  assert (P' : Permutation (0 :: L') (x :: 0 :: L)).
  { rewrite <- !ring_rl, R', R. replace (u ++ a :: x :: b :: q) with ((u ++ [a]) ++ x :: b :: q) by (rewrite <- app_assoc; reflexivity). rewrite removelast_mid.
    change (removelast (x :: b :: q)) with (x :: removelast (b :: q)). rewrite <- Permutation_middle. apply perm_skip. rewrite removelast_mid. change (removelast (a :: b :: q)) with (a :: removelast (b :: q)). rewrite <- app_assoc. reflexivity. }
  split; [|cbn; rewrite X; exact B1]. constructor; cbn [m count brk].
  - rewrite R'. apply (ins_links (m l) h5 L u a b q x WB R); auto.
    + rewrite ring_in. exact NI.
    + intros i. destruct (S i) as (-> & _). apply HN.
    + intros i. destruct (S i) as (_ & -> & _). apply HP.
  - apply (Permutation_NoDup (Permutation_sym P')). constructor; assumption.
  - apply (MI_ext _ (dec x (inc x (inc x k)))); [|exact M5]. intros i. unfold dec, inc. destruct (i =? x); lia.
  - intros i I. apply (Permutation_in _ P') in I. unfold inc. destruct I as [<-|I]; [rewrite Nat.eqb_refl; lia|]. specialize (WD i I). destruct (i =? x); lia.
  - intros i w I0 VW. destruct (S i) as (_ & _ & S3). rewrite S3, HV, V1 in VW. cbn. destruct (i =? x); [exact VW|]. apply WE; assumption.
  - rewrite B1. split; [lia|]. intros i I. unfold inc. destruct (Nat.eqb_spec i x); [lia|]. apply WG. lia.
  - apply Permutation_length in P'. cbn in P'. lia.
Qed.
Lemma addAfter_ok v l L k V p : LI l L k V -> live p L = true -> let '(l1, x) := create v l in
  exists l2, addAfterItm (addr p) x l1 = Ok l2 /\ LI l2 (put_a p (brk l) L) (inc (brk l) k) ((brk l, v) :: V) /\ brk l2 = S (brk l).
Proof.
  intros W LP. destruct (create v l) as [l1 x] eqn:C. pose proof (create_ok v l L k V W) as Q. rewrite C in Q. destruct Q as (X & B1 & C1 & M1 & K0 & NI & N1 & P1 & V1). rewrite <- X.
  pose proof (nd_tail _ (i_nd _ _ _ _ W)) as ND. destruct (after_split p x L ND LP) as (u & q & R & R'). destruct (step_nx (m l) p L (i_links _ _ _ _ W) ND LP) as [SN SP]. cbn [step] in SN, SP.
  set (a := addr p) in *. set (b := addr (behind p L)) in *.
  assert (XA : a <> x) by (intros E; apply NI; rewrite <- E; rewrite <- ring_in, R; apply in_or_app; cbn; auto). assert (XB : b <> x) by (intros E; apply NI; rewrite <- E; rewrite <- ring_in, R; apply in_or_app; cbn; auto).
  assert (NB : exists y, nx (m l) b = Some y) by (apply (LI_nx _ _ _ _ _ W); apply (i_k _ _ _ _ W); rewrite <- ring_in, R; apply in_or_app; cbn; auto). destruct NB as (y & NB).
  assert (N1a : nx (m l1) a = Some b) by (rewrite N1; destruct (Nat.eqb_spec a x); [congruence|exact SN]).
  unfold addAfterItm. destruct (load_ok _ _ _ N1a) as (na & LA & NA & _). rewrite LA. cbn [obind]. rewrite NA.
  destruct (setNext_ok (m l1) x b x) as (h1 & E1 & HN1 & HP1 & HR1 & HV1); [rewrite N1, Nat.eqb_refl; reflexivity|]. rewrite E1. cbn [obind].
  destruct (setPrev_ok h1 x a b) as (h2 & E2 & HP2 & HN2 & HR2 & HV2); [rewrite HN1, Nat.eqb_refl; reflexivity|]. rewrite E2. cbn [obind].
  destruct (setNext_ok h2 a x b) as (h3 & E3 & HN3 & HP3 & HR3 & HV3); [rewrite HN2, HN1; destruct (Nat.eqb_spec a x); [congruence|exact N1a]|]. rewrite E3. cbn [obind].
  assert (N3x : nx h3 x = Some b) by (rewrite HN3; destruct (Nat.eqb_spec x a); [congruence|]; rewrite HN2, HN1, Nat.eqb_refl; reflexivity).
  destruct (load_ok _ _ _ N3x) as (nn & LX & NX & _). rewrite LX. cbn [obind]. rewrite NX.
  assert (N3b : exists z, nx h3 b = Some z) by (rewrite HN3; destruct (b =? a); [eauto|]; rewrite HN2, HN1, N1; destruct (Nat.eqb_spec b x); [congruence|eauto]). destruct N3b as (z & N3b).
  destruct (setPrev_ok h3 b x z N3b) as (h4 & E4 & HP4 & HN4 & HR4 & HV4). rewrite E4. cbn [obind].
  apply (link_done v l L k V l1 h4 u a b q x _ W C R R').
  - intros i. rewrite HN4, HN3, HN2, HN1, N1. eqb.
  - intros i. rewrite HP4, HP3, HP2, HP1, P1. eqb.
  - intros i. rewrite HR4, HR3, HR2, HR1. reflexivity.
  - intros i. rewrite HV4, HV3, HV2, HV1. reflexivity.
Qed.
Lemma addBefore_ok v l L k V p : LI l L k V -> live p L = true -> let '(l1, x) := create v l in
  exists l2, addBeforeItm (addr p) x l1 = Ok l2 /\ LI l2 (put_b p (brk l) L) (inc (brk l) k) ((brk l, v) :: V) /\ brk l2 = S (brk l).
Proof.
  intros W LP. destruct (create v l) as [l1 x] eqn:C. pose proof (create_ok v l L k V W) as Q. rewrite C in Q. destruct Q as (X & B1 & C1 & M1 & K0 & NI & N1 & P1 & V1). rewrite <- X.
  pose proof (nd_tail _ (i_nd _ _ _ _ W)) as ND. destruct (before_split p x L ND LP) as (u & q & R & R'). destruct (step_nx (m l) p L (i_links _ _ _ _ W) ND LP) as [SN SP]. cbn [step] in SN, SP.
  set (b := addr p) in *. set (a := addr (behind p (rev L))) in *.
  assert (XA : a <> x) by (intros E; apply NI; rewrite <- E; rewrite <- ring_in, R; apply in_or_app; cbn; auto). assert (XB : b <> x) by (intros E; apply NI; rewrite <- E; rewrite <- ring_in, R; apply in_or_app; cbn; auto).
  assert (NA : exists y, nx (m l) a = Some y) by (apply (LI_nx _ _ _ _ _ W); apply (i_k _ _ _ _ W); rewrite <- ring_in, R; apply in_or_app; cbn; auto). destruct NA as (y & NA).
  unfold addBeforeItm.
  destruct (setNext_ok (m l1) x b x) as (h1 & E1 & HN1 & HP1 & HR1 & HV1); [rewrite N1, Nat.eqb_refl; reflexivity|]. rewrite E1. cbn [obind].
  assert (N1b : nx h1 b = Some (addr (behind p L))) by (rewrite HN1, N1; destruct (Nat.eqb_spec b x); [congruence|exact SN]).
  destruct (load_ok _ _ _ N1b) as (nb & LB & _ & PB & _). rewrite LB. cbn [obind].
  assert (PA : prv nb = a) by (rewrite HP1, P1 in PB; destruct (Nat.eqb_spec b x); [congruence|]; rewrite SP in PB; injection PB as <-; reflexivity). rewrite PA.
  destruct (setPrev_ok h1 x a b) as (h2 & E2 & HP2 & HN2 & HR2 & HV2); [rewrite HN1, Nat.eqb_refl; reflexivity|]. rewrite E2. cbn [obind].
  destruct (setPrev_ok h2 b x (addr (behind p L))) as (h3 & E3 & HP3 & HN3 & HR3 & HV3); [rewrite HN2; exact N1b|]. rewrite E3. cbn [obind].
  assert (N3x : nx h3 x = Some b) by (rewrite HN3, HN2, HN1, Nat.eqb_refl; reflexivity).
  destruct (load_ok _ _ _ N3x) as (nn & LX & _ & PX & _). rewrite LX. cbn [obind].
  assert (PXA : prv nn = a) by (rewrite HP3, HP2, Nat.eqb_refl in PX; destruct (Nat.eqb_spec x b); [congruence|]; injection PX as <-; reflexivity). rewrite PXA.
  destruct (setNext_ok h3 a x y) as (h4 & E4 & HN4 & HP4 & HR4 & HV4); [rewrite HN3, HN2, HN1, N1; destruct (Nat.eqb_spec a x); [congruence|exact NA]|]. rewrite E4. cbn [obind].
  apply (link_done v l L k V l1 h4 u a b q x _ W C R R').
  - intros i. rewrite HN4, HN3, HN2, HN1, N1. eqb.
  - intros i. rewrite HP4, HP3, HP2, HP1, P1. eqb.
  - intros i. rewrite HR4, HR3, HR2, HR1. reflexivity.
  - intros i. rewrite HV4, HV3, HV2, HV1. reflexivity.
Qed.
Lemma addLI l L k V i : LI l L k V -> 0 < k i -> exists h, addRef (m l) i = Ok h /\ LI (mkL h (count l) (brk l)) L (inc i k) V.
Proof.
  intros [A B C D F [G H] J] K. destruct (addRef_ok _ _ _ C K) as (h & E & M & N & P & W). exists h. split; [exact E|]. constructor; cbn [m count brk]; auto.
  - apply (links_ext (m l)); auto.
  - intros j I. specialize (D j I). unfold inc. destruct (j =? i); lia.
  - intros j v I0. rewrite W. auto.
  - split; [exact G|]. intros j I. unfold inc. destruct (Nat.eqb_spec j i); [subst; rewrite H in K by exact I; lia|auto].
Qed.
Lemma relLI l L k V i : LI l L k V -> 0 < k i -> (In i (0 :: L) -> 2 <= k i) -> exists h, release (m l) i = Ok h /\ LI (mkL h (count l) (brk l)) L (dec i k) V.
Proof.
  intros [A B C D F [G H] J] K K2. destruct (release_ok _ _ _ C K) as (h & E & M & S & Z). exists h. split; [exact E|].
  assert (SL : forall j, In j (0 :: L) -> nx h j = nx (m l) j /\ pv h j = pv (m l) j).
  { intros j I. destruct (S j) as (S1 & S2 & _); [|auto]. destruct (Nat.eq_dec j i) as [->|]; [right; specialize (K2 I); lia|auto]. }
  constructor; cbn [m count brk]; auto.
  - apply (links_ext (m l)); [..|exact A].
    + intros j I. apply SL. rewrite ring_rl in I. exact I.
    + intros j I. apply SL. apply ring_in. right. exact I.
  - intros j I. specialize (D j I). unfold dec. destruct (Nat.eqb_spec j i); [subst; specialize (K2 I); lia|lia].
  - intros j v I0 Q. apply F; [exact I0|]. destruct (Nat.eq_dec j i) as [->|N].
    + destruct (Nat.eq_dec (k i) 1) as [K1|K1]; [|destruct (S i) as (_ & _ & S3); [right; lia|congruence]]. unfold vl in Q. rewrite Z in Q by exact K1. discriminate.
    + destruct (S j) as (_ & _ & S3); [auto|]. congruence.
  - split; [exact G|]. intros j I. unfold dec. rewrite H by exact I. destruct (j =? i); reflexivity.
Qed.
Lemma addr_in p L : live p L = true -> In (addr p) (0 :: L).
Proof. destruct p as [n|]; [rewrite live_in; cbn; auto|cbn; auto]. Qed.
Lemma moveIt_ok fw l L k V p : LI l L k V -> live p L = true -> 2 <= k (addr p) ->
  exists l', moveIt fw (addr p) l = Ok (addr (step fw p L), l') /\ LI l' L (dec (addr p) (inc (addr (step fw p L)) k)) V /\ brk l' = brk l.
Proof.
  intros W LP K. pose proof (nd_tail _ (i_nd _ _ _ _ W)) as ND. destruct (step_nx _ _ _ (i_links _ _ _ _ W) ND LP) as [SN SP]. unfold moveIt.
  destruct (load_ok _ _ _ SN) as (n & E & Y & P & _). rewrite E. cbn [obind].
  assert (Q : (if fw then nxt n else prv n) = addr (step fw p L)) by (destruct fw; [exact Y|rewrite SP in P; injection P as <-; reflexivity]). rewrite Q.
  destruct (addLI l L k V (addr (step fw p L)) W) as (h & EH & W1); [apply (i_k _ _ _ _ W), addr_in, step_live|]. rewrite EH. cbn [obind].
  assert (K2 : 2 <= inc (addr (step fw p L)) k (addr p)) by (unfold inc; destruct (addr p =? addr (step fw p L)); lia).
  destruct (relLI _ _ _ _ (addr p) W1) as (h2 & EH2 & W2); [lia|intros _; exact K2|]. cbn [m] in EH2. rewrite EH2. cbn [obind]. eexists. split; [reflexivity|]. split; [exact W2|reflexivity].
Qed.
Lemma removeItem_ok l L k V n : LI l L k V -> live (Some n) L = true -> exists l', removeItem n l = Ok l' /\ LI l' (remove Nat.eq_dec n L) (dec n k) V /\ brk l' = brk l.
Proof.
  intros W LP. pose proof (nd_tail _ (i_nd _ _ _ _ W)) as ND. destruct (live_split n L ND LP) as (l1 & l2 & E & A & B).
  destruct (step_nx _ _ _ (i_links _ _ _ _ W) ND LP) as [SN SP]. cbn [step behind addr] in SN, SP. rewrite E in SN, SP. rewrite succ_split in SN by exact A. rewrite rsucc_split in SP by exact B.
  destruct (last_split l1) as (u & U). destruct (first_split l2) as (q & Q). set (a := addr (first (rev l1))) in *. set (b := addr (first l2)) in *.
  assert (R : ring L = u ++ a :: n :: b :: q). { unfold ring. rewrite E, <- app_assoc. cbn [app]. rewrite Q. rewrite app_comm_cons, U, <- app_assoc. reflexivity. }
  assert (R' : ring (l1 ++ l2) = u ++ a :: b :: q). { unfold ring. rewrite <- app_assoc, Q. rewrite app_comm_cons, U, <- app_assoc. reflexivity. }
  assert (N0 : n <> 0). { intros ->. pose proof (i_nd _ _ _ _ W) as Z. inversion Z; subst. apply live_in in LP. contradiction. }
  assert (Hr : remove Nat.eq_dec n L = l1 ++ l2) by (rewrite E; apply remove_split; assumption). rewrite Hr.
  assert (P : Permutation L (n :: l1 ++ l2)) by (rewrite E; symmetry; apply Permutation_middle).
  assert (ND1 : NoDup (n :: l1 ++ l2)) by (apply (Permutation_NoDup P ND)). assert (NI : ~ In n (0 :: l1 ++ l2)) by (inversion ND1; subst; cbn; intros [?|?]; [congruence|contradiction]).
  assert (NA : a <> n) by (intros Z; apply NI; rewrite <- Z, <- ring_in, R'; apply in_or_app; cbn; auto). assert (NB : b <> n) by (intros Z; apply NI; rewrite <- Z, <- ring_in, R'; apply in_or_app; cbn; auto).
  assert (YA : exists y, nx (m l) a = Some y) by (apply (LI_nx _ _ _ _ _ W); apply (i_k _ _ _ _ W); rewrite <- ring_in, R; apply in_or_app; cbn; auto). destruct YA as (ya & YA).
  assert (YB : exists y, nx (m l) b = Some y) by (apply (LI_nx _ _ _ _ _ W); apply (i_k _ _ _ _ W); rewrite <- ring_in, R; apply in_or_app; cbn; auto). destruct YB as (yb & YB).
  unfold removeItem. destruct (load_ok _ _ _ SN) as (x & E1 & X1 & X2 & _). rewrite E1. cbn [obind]. rewrite SP in X2. injection X2 as X2. rewrite X1, <- X2.
  destruct (setPrev_ok (m l) b a yb YB) as (h1 & H1 & HP1 & HN1 & HR1 & HV1). rewrite H1. cbn [obind].
  assert (N1 : nx h1 n = Some b) by (rewrite HN1; exact SN). destruct (load_ok _ _ _ N1) as (x' & E2 & X1' & X2' & _). rewrite E2. cbn [obind].
  assert (X3 : prv x' = a) by (rewrite HP1 in X2'; destruct (Nat.eqb_spec n b); [congruence|]; rewrite SP in X2'; injection X2' as <-; reflexivity). rewrite X1', X3.
  destruct (setNext_ok h1 a b ya) as (h2 & H2 & HN2 & HP2 & HR2 & HV2); [rewrite HN1; exact YA|]. rewrite H2. cbn [obind].
  destruct (setNext_ok h2 n n b) as (h3 & H3 & HN3 & HP3 & HR3 & HV3); [rewrite HN2; destruct (Nat.eqb_spec n a); [congruence|exact N1]|]. rewrite H3. cbn [obind].
  destruct (setPrev_ok h3 n n n) as (h4 & H4 & HP4 & HN4 & HR4 & HV4); [rewrite HN3, Nat.eqb_refl; reflexivity|]. rewrite H4. cbn [obind].
  destruct W as [WA WB WC WD WE [WF WG] WH].
  assert (M4 : MI h4 k) by (intros i; rewrite HR4, HR3, HR2, HR1; apply WC). assert (Kn : 0 < k n) by (apply WD; right; apply live_in; exact LP).
  destruct (release_ok h4 k n M4 Kn) as (h5 & H5 & M5 & S5 & Z5). rewrite H5. cbn [obind]. eexists. split; [reflexivity|]. split; [|reflexivity]. constructor; cbn [m count brk].
  - rewrite R'. apply (rem_links (m l) h5 L u a b q n WB R N0 WA).
    + intros i I. destruct (S5 i) as (T & _); [auto|]. rewrite T, HN4, HN3, HN2, HN1. eqb.
    + intros i I. destruct (S5 i) as (_ & T & _); [auto|]. rewrite T, HP4, HP3, HP2, HP1. eqb.
  - assert (P0 : Permutation (0 :: L) (n :: 0 :: l1 ++ l2)) by (rewrite P; apply perm_swap). apply (Permutation_NoDup P0) in WB. inversion WB; assumption.
  - exact M5.
  - intros i I. unfold dec. destruct (Nat.eqb_spec i n) as [->|]; [contradiction|]. apply WD. destruct I as [I|I]; [left; exact I|right]. rewrite E. rewrite in_app_iff in *. cbn. tauto.
  - intros i v I0 Q1. apply WE; [exact I0|]. destruct (Nat.eq_dec i n) as [->|NN].
    + destruct (Nat.eq_dec (k n) 1) as [K1|K1].
      * unfold vl in Q1. rewrite Z5 in Q1 by exact K1. discriminate.
      * destruct (S5 n) as (_ & _ & T); [right; lia|]. rewrite T, HV4, HV3, HV2, HV1 in Q1. exact Q1.
    + destruct (S5 i) as (_ & _ & T); [auto|]. rewrite T, HV4, HV3, HV2, HV1 in Q1. exact Q1.
  - split; [exact WF|]. intros i I. unfold dec. rewrite WG by exact I. destruct (i =? n); reflexivity.
  - apply Permutation_length in P. cbn in P. lia.
Qed.
Lemma live_nz l L k V n : LI l L k V -> live (Some n) L = true -> n <> 0.
Proof. intros W LP ->. pose proof (i_nd _ _ _ _ W) as Z. inversion Z; subst. apply live_in in LP. contradiction. Qed.
Lemma erase_ok fw l L k V n : LI l L k V -> live (Some n) L = true -> 2 <= k n ->
  exists l', erase (n, fw) l = Ok ((addr (step fw (Some n) L), fw), l') /\ LI l' (remove Nat.eq_dec n L) (dec n (dec n (inc (addr (step fw (Some n) L)) k))) V /\ brk l' = brk l.
Proof.
  intros W LP K. pose proof (live_nz _ _ _ _ _ W LP) as N0. unfold erase. destruct (addLI l L k V n W) as (h & EH & W1); [lia|]. rewrite EH. cbn [obind]. rewrite (proj2 (Nat.eqb_neq n 0) N0).
  destruct (moveIt_ok fw _ _ _ _ (Some n) W1 LP) as (l2 & E2 & W2 & B2); [cbn [addr]; unfold inc; rewrite Nat.eqb_refl; lia|]. cbn [addr] in E2. rewrite E2. cbn [obind].
  destruct (removeItem_ok _ _ _ _ n W2 LP) as (l3 & E3 & W3 & B3). rewrite E3. cbn [obind]. set (q := addr (step fw (Some n) L)) in *. cbn [addr] in W3.
  destruct (relLI _ _ _ _ n W3) as (h4 & E4 & W4).
  - unfold dec, inc. rewrite !Nat.eqb_refl. destruct (n =? q); lia.
  - intros [I|I]; [congruence|]. apply in_remove in I. tauto.
  - rewrite E4. cbn [obind]. eexists. split; [reflexivity|]. split; [|cbn [brk] in *; congruence]. refine (LI_ext _ _ _ _ _ _ W4). intros i. unfold dec, inc. destruct (i =? n), (i =? q); lia.
Qed.
Lemma LI_bound l L k V : LI l L k V -> length L <= brk l.
Proof.
  intros W. rewrite <- (seq_length (brk l) 0). apply NoDup_incl_length; [apply nd_tail, (i_nd _ _ _ _ W)|]. intros i I. apply in_seq. pose proof (i_k _ _ _ _ W i (or_intror I)) as K.
  destruct (i_brk _ _ _ _ W) as [_ B]. destruct (Nat.lt_ge_cases i (brk l)) as [|G]; [lia|]. rewrite B in K by exact G. lia.
Qed.
Definition isin (L : list nat) (i : nat) : nat := if in_dec Nat.eq_dec i L then 1 else 0.
Lemma clear_ok fuel : forall l L k V, length L <= fuel -> LI l L k V -> exists l', clear fuel l = Ok l' /\ LI l' [] (fun i => k i - isin L i) V /\ brk l' = brk l.
Proof.
  induction fuel as [|f IH]; intros l L k V F W; pose proof (nd_tail _ (i_nd _ _ _ _ W)) as ND; destruct (step_nx (m l) None L (i_links _ _ _ _ W) ND eq_refl) as [SN SP]; cbn [addr step behind] in SN, SP;
    destruct (load_ok _ _ _ SN) as (x & E & X & P & _); rewrite SP in P; injection P as P.
  - destruct L; [|cbn in F; lia]. cbn [rev first addr] in *. cbn [clear]. unfold empty. rewrite E. cbn [obind]. rewrite X, <- P. cbn. exists l. split; [reflexivity|]. split; [|reflexivity].
    apply (LI_ext _ _ k); [|exact W]. intros i. unfold isin. cbn. lia.
  - destruct L as [|n L].
    + cbn [rev first addr] in *. cbn [clear]. unfold empty. rewrite E. cbn [obind]. rewrite X, <- P. cbn. exists l. split; [reflexivity|]. split; [|reflexivity].
      apply (LI_ext _ _ k); [|exact W]. intros i. unfold isin. cbn. lia.
    + cbn [first addr] in X. assert (LN : live (Some n) (n :: L) = true) by (cbn; rewrite Nat.eqb_refl; reflexivity). pose proof (live_nz _ _ _ _ _ W LN) as N0.
      cbn [clear]. unfold empty. rewrite E. cbn [obind]. rewrite X. rewrite (proj2 (Nat.eqb_neq n 0) N0). cbn [andb].
      destruct (removeItem_ok _ _ _ _ n W LN) as (l2 & E2 & W2 & B2). rewrite E2. cbn [obind].
      assert (Hr : remove Nat.eq_dec n (n :: L) = L) by (inversion ND; subst; rewrite remove_cons; apply notin_remove; assumption). rewrite Hr in W2.
      destruct (IH l2 L _ V ltac:(cbn in F; lia) W2) as (l3 & E3 & W3 & B3). exists l3. split; [exact E3|]. split; [|congruence]. apply (LI_ext _ _ (fun i => dec n k i - isin L i)); [|exact W3].
      intros i. unfold dec, isin. destruct (in_dec Nat.eq_dec i L) as [I|I], (in_dec Nat.eq_dec i (n :: L)) as [J|J]; destruct (Nat.eqb_spec i n) as [->|]; try lia.
      all: exfalso; cbn [In] in J; inversion ND; subst; intuition congruence.
Qed.

(** * Iterators *)
Definition im (e : place * bool) : iter := (addr (fst e), snd e).
Definition cnt (ts : list (place * bool)) (i : nat) : nat := count_occ Nat.eq_dec (map (fun e => addr (fst e)) ts) i.
Definition K (L : list nat) (ts : list (place * bool)) (i : nat) : nat := isin (0 :: L) i + cnt ts i.
Definition b2n (b : bool) : nat := if b then 1 else 0.
Lemma cnt_cons e ts i : cnt (e :: ts) i = b2n (i =? addr (fst e)) + cnt ts i.
Proof. unfold cnt. cbn [map]. destruct (Nat.eqb_spec i (addr (fst e))) as [->|N]; [rewrite count_occ_cons_eq by reflexivity; reflexivity|rewrite count_occ_cons_neq by congruence; reflexivity]. Qed.
Lemma cnt_app a b i : cnt (a ++ b) i = cnt a i + cnt b i.
Proof. unfold cnt. rewrite map_app. apply count_occ_app. Qed.
Lemma cnt_upd ts : forall i e f j, nth_error ts i = Some e -> cnt (upd ts i f) j + b2n (j =? addr (fst e)) = cnt ts j + b2n (j =? addr (fst f)).
Proof. induction ts as [|x t IH]; intros [|i] e f j H; cbn in H; try discriminate. - injection H as ->. cbn [upd]. rewrite !cnt_cons. lia. - cbn [upd]. rewrite !cnt_cons. specialize (IH i e f j H). lia. Qed.
Lemma cnt_rem ts : forall i e j, nth_error ts i = Some e -> cnt (rem i ts) j + b2n (j =? addr (fst e)) = cnt ts j.
Proof. induction ts as [|x t IH]; intros [|i] e j H; cbn in H; try discriminate. - injection H as ->. cbn [rem]. rewrite !cnt_cons. lia. - cbn [rem]. rewrite !cnt_cons. specialize (IH i e j H). lia. Qed.
Lemma cnt_pos ts i e : nth_error ts i = Some e -> 0 < cnt ts (addr (fst e)).
Proof. intros H. pose proof (cnt_rem ts i e (addr (fst e)) H) as Q. rewrite Nat.eqb_refl in Q. cbn in Q. lia. Qed.
Lemma im_upd ts : forall i e, map im (upd ts i e) = upd (map im ts) i (im e).
Proof. induction ts as [|x t IH]; intros [|i] e; cbn; try reflexivity. rewrite IH. reflexivity. Qed.
Lemma im_rem ts : forall i, map im (rem i ts) = rem i (map im ts).
Proof. induction ts as [|x t IH]; intros [|i]; cbn; try reflexivity. rewrite IH. reflexivity. Qed.
Lemma isin_in L i : In i L -> isin L i = 1.
Proof. unfold isin. destruct (in_dec Nat.eq_dec i L); tauto. Qed.
Lemma isin_out L i : ~ In i L -> isin L i = 0.
Proof. unfold isin. destruct (in_dec Nat.eq_dec i L); tauto. Qed.
Lemma isin_perm L L' i : (In i L <-> In i L') -> isin L i = isin L' i.
Proof. unfold isin. destruct (in_dec Nat.eq_dec i L), (in_dec Nat.eq_dec i L'); tauto. Qed.

Record R (s : st) (ss : sst) : Prop := {
  r_li : LI (lst_ s) (order ss) (K (order ss) (its ss)) (vals ss);
  r_it : iters s = map im (its ss);
  r_brk : brk (lst_ s) = next ss;
  r_nz : forall e, In e (its ss) -> fst e <> Some 0;
}.
Lemma upd_same {A} (l : list A) : forall i x, nth_error l i = Some x -> upd l i x = l.
Proof. induction l as [|y t IH]; intros [|i] x H; cbn in *; try congruence. rewrite IH by exact H. reflexivity. Qed.
Lemma upd_in {A} (l : list A) : forall i x y, In y (upd l i x) -> y = x \/ In y l.
Proof. induction l as [|z t IH]; intros [|i] x y H; cbn in *; try tauto; [destruct H; auto|]. destruct H as [H|H]; [auto|]. apply IH in H. tauto. Qed.
Lemma rem_in {A} (l : list A) : forall i y, In y (rem i l) -> In y l.
Proof. induction l as [|z t IH]; intros [|i] y H; cbn in *; try tauto. destruct H as [H|H]; [auto|]. right. apply (IH i y H). Qed.
Lemma rem_none {A} (l : list A) : forall i, nth_error l i = None -> rem i l = l.
Proof. induction l as [|y t IH]; intros [|i] H; cbn in *; try congruence. rewrite IH by exact H. reflexivity. Qed.
Lemma step_nz fw p l L k V : LI l L k V -> step fw p L <> Some 0.
Proof. intros W Q. pose proof (step_live fw p L) as LV. rewrite Q in LV. apply (live_nz _ _ _ _ _ W LV). reflexivity. Qed.

Lemma it_of s ss i e : R s ss -> nth_error (its ss) i = Some e -> nth_error (iters s) i = Some (im e).
Proof. intros W E. rewrite (r_it _ _ W). apply map_nth_error. exact E. Qed.
Lemma K_it s ss i e : R s ss -> nth_error (its ss) i = Some e -> 0 < K (order ss) (its ss) (addr (fst e)).
Proof. intros W E. apply cnt_pos in E. unfold K. lia. Qed.
Lemma K_live s ss i e : R s ss -> nth_error (its ss) i = Some e -> live (fst e) (order ss) = true -> 2 <= K (order ss) (its ss) (addr (fst e)).
Proof. intros W E LP. apply cnt_pos in E. unfold K. rewrite isin_in by (apply addr_in; exact LP). lia. Qed.
Lemma it_nz s ss i n fw : R s ss -> live (Some n) (order ss) = true -> nth_error (its ss) i = Some (Some n, fw) -> n <> 0.
Proof. intros W L _. apply (live_nz _ _ _ _ _ (r_li _ _ W) L). Qed.
Lemma init_R : R init sinit.
Proof.
  constructor; cbn [init lst_ iters sinit order its vals next]; try reflexivity; [|intros e []]. constructor; cbn.
  - repeat split.
  - constructor; [auto|constructor].
  - intros i. unfold K. change (cnt [] i) with 0. rewrite Nat.add_0_r. unfold rf. cbn [empty_list m]. destruct (Nat.eqb_spec i 0) as [->|N]; [rewrite isin_in by (left; reflexivity); reflexivity|]. rewrite isin_out by (cbn; intuition congruence). reflexivity.
  - intros i [<-|[]]. unfold K. rewrite isin_in by (left; reflexivity). lia.
  - intros i v N Q. unfold vl in Q. cbn in Q. destruct (Nat.eqb_spec i 0); [congruence|discriminate].
  - split; [lia|]. intros i I. unfold K. rewrite isin_out; [reflexivity|]. cbn. lia.
  - reflexivity.
Qed.
Lemma put_a_in p x L : NoDup L -> live p L = true -> forall i, In i (put_a p x L) <-> i = x \/ In i L.
Proof.
  intros ND LP i. destruct p as [n|]; cbn [put_a]; [|cbn; intuition congruence]. destruct (live_split n L ND LP) as (l1 & l2 & -> & A & B). rewrite put_after_split by exact A. rewrite !in_app_iff. cbn. intuition congruence.
Qed.
Lemma put_b_in p x L : NoDup L -> live p L = true -> forall i, In i (put_b p x L) <-> i = x \/ In i L.
Proof.
  intros ND LP i. destruct p as [n|]; cbn [put_b]; [|rewrite in_app_iff; cbn; intuition congruence]. destruct (live_split n L ND LP) as (l1 & l2 & -> & A & B). rewrite put_before_split by exact A. rewrite !in_app_iff. cbn. intuition congruence.
Qed.
Lemma K_put L L' x ts : ~ In x (0 :: L) -> (forall i, In i L' <-> i = x \/ In i L) -> forall i, inc x (K L ts) i = K L' ts i.
Proof.
  intros NI H i. unfold inc, K. destruct (Nat.eqb_spec i x) as [->|N].
  - rewrite isin_out by exact NI. rewrite isin_in; [lia|]. right. apply H. auto.
  - f_equal. apply isin_perm. cbn. rewrite H. tauto.
Qed.
Lemma fresh s ss : R s ss -> ~ In (next ss) (0 :: order ss).
Proof. intros W I. pose proof (i_k _ _ _ _ (r_li _ _ W) _ I) as Q. destruct (i_brk _ _ _ _ (r_li _ _ W)) as [_ B]. rewrite B in Q; [lia|]. rewrite (r_brk _ _ W). lia. Qed.

Lemma exec_ok o s ss x ss' : R s ss -> sexec o ss = Some (x, ss') -> exists s', exec o s = Ok (x, s') /\ R s' ss'.
Proof.
  intros W E. pose proof (r_li _ _ W) as WL. pose proof (nd_tail _ (i_nd _ _ _ _ WL)) as ND. pose proof (r_brk _ _ W) as RB. pose proof (fresh _ _ W) as FR.
  assert (AF : forall p y, live p (order ss) = true -> exists l, (let (l, i) := create y (lst_ s) in addAfterItm (addr p) i l) = Ok l /\
    R (mkSt l (iters s)) (mkS (put_a p (next ss) (order ss)) ((next ss, y) :: vals ss) (S (next ss)) (its ss))).
  { intros p y LP. pose proof (addAfter_ok y _ _ _ _ p WL LP) as Q. destruct (create y (lst_ s)) as [l1 i]. destruct Q as (l2 & E2 & W2 & B2). exists l2. split; [exact E2|].
    rewrite RB in W2, B2. constructor; cbn; [|exact (r_it _ _ W)|exact B2|exact (r_nz _ _ W)]. apply (LI_ext _ _ (inc (next ss) (K (order ss) (its ss)))); [|exact W2]. apply K_put; [exact FR|]. apply put_a_in; assumption. }
  assert (BF : forall p y, live p (order ss) = true -> exists l, (let (l, i) := create y (lst_ s) in addBeforeItm (addr p) i l) = Ok l /\
    R (mkSt l (iters s)) (mkS (put_b p (next ss) (order ss)) ((next ss, y) :: vals ss) (S (next ss)) (its ss))).
  { intros p y LP. pose proof (addBefore_ok y _ _ _ _ p WL LP) as Q. destruct (create y (lst_ s)) as [l1 i]. destruct Q as (l2 & E2 & W2 & B2). exists l2. split; [exact E2|].
    rewrite RB in W2, B2. constructor; cbn; [|exact (r_it _ _ W)|exact B2|exact (r_nz _ _ W)]. apply (LI_ext _ _ (inc (next ss) (K (order ss) (its ss)))); [|exact W2]. apply K_put; [exact FR|]. apply put_b_in; assumption. }
  assert (MV : forall i p fw d, nth_error (its ss) i = Some (p, fw) -> live p (order ss) = true -> exists l, moveIt d (addr p) (lst_ s) = Ok (addr (step d p (order ss)), l) /\
    R (mkSt l (upd (iters s) i (addr (step d p (order ss)), fw))) (mkS (order ss) (vals ss) (next ss) (upd (its ss) i (step d p (order ss), fw)))).
  { intros i p fw d N LP. destruct (moveIt_ok d _ _ _ _ p WL LP (K_live _ _ _ _ W N LP)) as (l & EM & WM & BM). exists l. split; [exact EM|]. constructor; cbn.
    - refine (LI_ext _ _ _ _ _ _ WM). intros j. unfold dec, inc, K. pose proof (cnt_upd (its ss) i _ (step d p (order ss), fw) j N) as C. cbn [fst] in C.
      destruct (j =? addr p), (j =? addr (step d p (order ss))); cbn [b2n] in C; lia.
    - rewrite im_upd, (r_it _ _ W). reflexivity.
    - congruence.
    - intros e I. apply upd_in in I. destruct I as [->|I]; [apply (step_nz _ _ _ _ _ _ WL)|apply (r_nz _ _ W _ I)]. }
  assert (PK : forall i n fw, nth_error (its ss) i = Some (Some n, fw) -> n <> 0 -> exists v, peek n (lst_ s) = Ok (Some v) /\ value n (vals ss) = Some v).
  { intros i n fw N N0. destruct (LI_nx _ _ _ _ n WL (K_it _ _ _ _ W N)) as (y & Y). unfold peek. rewrite (proj2 (Nat.eqb_neq n 0) N0). destruct (load_ok _ _ _ Y) as (nn & EN & _ & _ & VN). rewrite EN. cbn [obind]. exists (val nn).
    split; [reflexivity|]. apply (i_vals _ _ _ _ WL n _ N0 VN). }
  destruct o as [y|y|fw|i|i|i d|i y|i y|i|i|]; cbn [sexec] in E; unfold exec.
  - injection E as <- <-. destruct (AF None y eq_refl) as (l & E1 & W1). cbn [addr] in E1. destruct (create y (lst_ s)) as [l1 j]. rewrite E1. cbn [obind]. eauto.
  - injection E as <- <-. destruct (BF None y eq_refl) as (l & E1 & W1). cbn [addr] in E1. destruct (create y (lst_ s)) as [l1 j]. rewrite E1. cbn [obind]. eauto.
  - injection E as <- <-. unfold begin_. destruct (step_nx _ None _ (i_links _ _ _ _ WL) ND eq_refl) as [SN SP]. cbn [addr] in SN, SP. destruct (load_ok _ _ _ SN) as (n & EN & Y & P & _). rewrite EN. cbn [obind].
    assert (Q : (if fw then nxt n else prv n) = addr (step fw None (order ss))) by (destruct fw; [exact Y|rewrite SP in P; injection P as <-; reflexivity]). rewrite Q.
    destruct (addLI _ _ _ _ (addr (step fw None (order ss))) WL) as (h & EH & W1); [apply (i_k _ _ _ _ WL), addr_in, step_live|]. rewrite EH. cbn [obind]. eexists. split; [reflexivity|]. constructor; cbn [lst_ iters order its vals next brk].
    + refine (LI_ext _ _ _ _ _ _ W1). intros j. unfold inc, K. rewrite cnt_app, cnt_cons. cbn [fst]. change (cnt [] j) with 0. destruct (j =? addr (step fw None (order ss))); cbn [b2n]; lia.
    + rewrite map_app, (r_it _ _ W). reflexivity.
    + exact RB.
    + intros e I. apply in_app_or in I. destruct I as [I|[<-|[]]]; [apply (r_nz _ _ W _ I)|apply (step_nz _ _ _ _ _ _ WL)].
  - destruct (nth_error (its ss) i) as [[[n|] fw]|] eqn:N; [|injection E as <- <-|discriminate].
    + destruct (live (Some n) (order ss)) eqn:LP; [|discriminate]. rewrite (it_of _ _ _ _ W N). unfold im. cbn [fst snd addr obind].
      destruct (PK i n fw N (live_nz _ _ _ _ _ WL LP)) as (v & EP & EV). rewrite EV in E. injection E as <- <-. rewrite EP. cbn [obind].
      destruct (MV i (Some n) fw fw N LP) as (l & EM & WM). cbn [addr] in EM. rewrite EM. cbn [obind]. eauto.
    + rewrite (it_of _ _ _ _ W N). cbn. eauto.
  - destruct (nth_error (its ss) i) as [[[n|] fw]|] eqn:N; [|injection E as <- <-|discriminate].
    + rewrite (it_of _ _ _ _ W N). unfold im. cbn [fst snd addr obind]. destruct (PK i n fw N) as (v & EP & EV); [intros ->; apply (r_nz _ _ W _ (nth_error_In _ _ N)); reflexivity|].
      rewrite EV in E. injection E as <- <-. rewrite EP. cbn [obind]. eauto.
    + rewrite (it_of _ _ _ _ W N). cbn. eauto.
  - destruct (nth_error (its ss) i) as [[p fw]|] eqn:N; [|discriminate]. destruct (live p (order ss)) eqn:LP; [|discriminate]. injection E as <- <-. rewrite (it_of _ _ _ _ W N). unfold im. cbn [fst snd obind].
    destruct (MV i p fw d N LP) as (l & EM & WM). rewrite EM. cbn [obind]. eauto.
  - destruct (nth_error (its ss) i) as [[p fw]|] eqn:N; [|discriminate]. destruct (live p (order ss)) eqn:LP; [|discriminate]. injection E as <- <-. rewrite (it_of _ _ _ _ W N). unfold im. cbn [fst snd obind].
    destruct (AF p y LP) as (l & E1 & W1). destruct (create y (lst_ s)) as [l1 j]. rewrite E1. cbn [obind]. eauto.
  - destruct (nth_error (its ss) i) as [[p fw]|] eqn:N; [|discriminate]. destruct (live p (order ss)) eqn:LP; [|discriminate]. injection E as <- <-. rewrite (it_of _ _ _ _ W N). unfold im. cbn [fst snd obind].
    destruct (BF p y LP) as (l & E1 & W1). destruct (create y (lst_ s)) as [l1 j]. rewrite E1. cbn [obind]. eauto.
  - destruct (nth_error (its ss) i) as [[[n|] fw]|] eqn:N; [|injection E as <- <-|discriminate]; rewrite (it_of _ _ _ _ W N); unfold im; cbn [fst snd addr obind].
    + destruct (live (Some n) (order ss)) eqn:LP; [|discriminate]. injection E as <- <-. pose proof (K_live _ _ _ _ W N LP) as K2. cbn [fst addr] in K2.
      destruct (erase_ok fw _ _ _ _ n WL LP K2) as (l & EE & WE & BE). rewrite EE. cbn [obind]. eexists. split; [reflexivity|]. constructor; cbn [lst_ iters order its vals next].
      * refine (LI_ext _ _ _ _ _ _ WE). intros j. unfold dec, inc, K. pose proof (cnt_upd (its ss) i _ (step fw (Some n) (order ss), fw) j N) as C. cbn [fst addr] in C. pose proof (live_nz _ _ _ _ _ WL LP) as N0.
        assert (I1 : isin (0 :: remove Nat.eq_dec n (order ss)) j + b2n (j =? n) = isin (0 :: order ss) j).
        { destruct (Nat.eqb_spec j n) as [EQ|Q]; [rewrite EQ in *; clear EQ|]; cbn [b2n].
          - rewrite isin_out, isin_in; [reflexivity|right; apply live_in; exact LP|]. intros [I|I]; [congruence|]. apply in_remove in I. tauto.
          - rewrite Nat.add_0_r. apply isin_perm. cbn. split; (intros [I|I]; [auto|right]); [apply in_remove in I; tauto|apply in_in_remove; assumption]. }
        destruct (j =? n), (j =? addr (step fw (Some n) (order ss))); cbn [b2n] in C, I1; lia.
      * rewrite im_upd, (r_it _ _ W). reflexivity.
      * congruence.
      * intros e I. apply upd_in in I. destruct I as [->|I]; [apply (step_nz _ _ _ _ _ _ WL)|apply (r_nz _ _ W _ I)].
    + unfold erase. destruct (addLI _ _ _ _ 0 WL) as (h & EH & W1); [apply (K_it _ _ _ _ W N)|]. rewrite EH. cbn [obind Nat.eqb].
      destruct (relLI _ _ _ _ 0 W1) as (h2 & EH2 & W2); [unfold inc; cbn; lia|intros _; unfold inc; cbn; pose proof (K_it _ _ _ _ W N) as Q; cbn in Q; lia|]. rewrite EH2. cbn [obind count brk].
      eexists. split; [reflexivity|]. constructor; cbn [lst_ iters].
      * refine (LI_ext _ _ _ _ _ _ W2). intros j. unfold dec, inc. destruct (j =? 0); lia.
      * rewrite upd_same; [apply (r_it _ _ W)|]. rewrite (it_of _ _ _ _ W N). reflexivity.
      * exact RB.
      * exact (r_nz _ _ W).
  - injection E as <- <-. destruct (nth_error (its ss) i) as [[p fw]|] eqn:N.
    + rewrite (it_of _ _ _ _ W N). unfold im. cbn [fst snd]. destruct (relLI _ _ _ _ (addr p) WL) as (h & EH & W1).
      * apply (K_it _ _ _ _ W N).
      * intros I. unfold K. rewrite isin_in by exact I. pose proof (cnt_pos _ _ _ N) as Q. cbn [fst] in Q. lia.
      * rewrite EH. cbn [obind]. eexists. split; [reflexivity|]. constructor; cbn [lst_ iters order its vals next].
        -- refine (LI_ext _ _ _ _ _ _ W1). intros j. unfold dec, K. pose proof (cnt_rem _ _ _ j N) as C. cbn [fst] in C. destruct (j =? addr p); cbn [b2n] in C; lia.
        -- rewrite im_rem, (r_it _ _ W). reflexivity.
        -- exact RB.
        -- intros e I. apply rem_in in I. apply (r_nz _ _ W _ I).
    + assert (N' : nth_error (iters s) i = None) by (rewrite (r_it _ _ W); apply nth_error_None; rewrite map_length; apply nth_error_None; exact N). rewrite N'. rewrite rem_none by exact N. destruct ss. eauto.
  - injection E as <- <-. destruct (clear_ok _ _ _ _ _ (LI_bound _ _ _ _ WL) WL) as (l & EC & WC & BC). rewrite EC. cbn [obind]. eexists. split; [reflexivity|]. constructor; cbn [lst_ iters order its vals next].
    + refine (LI_ext _ _ _ _ _ _ WC). intros j. unfold K. assert (NI : ~ In 0 (order ss)) by (pose proof (i_nd _ _ _ _ WL) as Z0; inversion Z0; assumption). destruct (Nat.eq_dec j 0) as [->|J0].
      * rewrite (isin_out (order ss) 0 NI). rewrite !isin_in by (left; reflexivity). lia.
      * rewrite (isin_out [0] j) by (cbn; intuition congruence). rewrite (isin_perm (0 :: order ss) (order ss) j) by (cbn; intuition congruence). lia.
    + exact (r_it _ _ W).
    + congruence.
    + exact (r_nz _ _ W).
Qed.
Lemma run_ok l : forall s ss outs ss', R s ss -> srun l ss = Some (outs, ss') -> exists s', run l s = Ok (outs, s') /\ R s' ss'.
Proof.
  induction l as [|o t IH]; intros s ss outs ss' W E; cbn [srun run] in *; [injection E as <- <-; eauto|].
  destruct (sexec o ss) as [[x s1]|] eqn:E1; [|discriminate]. destruct (srun t s1) as [[xs s2]|] eqn:E2; [|discriminate]. injection E as <- <-.
  destruct (exec_ok _ _ _ _ _ W E1) as (w1 & F1 & W1). rewrite F1. cbn [obind]. destruct (IH _ _ _ _ W1 E2) as (w2 & F2 & W2). rewrite F2. cbn [obind]. eauto.
Qed.

(** * Walking *)
Lemma behind_rev fw p L : step fw p L = behind p (if fw then L else rev L).
Proof. destruct fw; reflexivity. Qed.
Lemma walk_ok (fw : bool) (L : list nat) V : forall post pre fuel l k, (if fw then L else rev L) = pre ++ post -> LI l L k V -> 2 <= k (addr (first post)) -> length post < fuel ->
  exists xs, walk fuel fw (addr (first post)) l = Ok xs /\ Forall2 (fun i v => value i V = Some v) post xs.
Proof.
  induction post as [|n t IH]; intros pre [|f] l k E W K F; cbn [length] in F; try lia; cbn [walk first addr].
  - exists []. split; [reflexivity|constructor].
  - assert (IN : In n L) by (assert (I : In n (if fw then L else rev L)) by (rewrite E; apply in_or_app; cbn; auto); destruct fw; [exact I|apply in_rev; exact I]).
    pose proof (proj2 (live_in n L) IN) as LP. pose proof (live_nz _ _ _ _ _ W LP) as N0. pose proof (nd_tail _ (i_nd _ _ _ _ W)) as ND.
    destruct (step_nx _ _ _ (i_links _ _ _ _ W) ND LP) as [SN _]. cbn [addr] in SN. unfold peek. rewrite (proj2 (Nat.eqb_neq n 0) N0). destruct (load_ok _ _ _ SN) as (x & EX & _ & _ & VX). rewrite EX. cbn [obind].
    destruct (moveIt_ok fw _ _ _ _ (Some n) W LP K) as (l2 & E2 & W2 & B2). cbn [addr] in E2. rewrite E2. cbn [obind].
    assert (ND2 : NoDup (pre ++ n :: t)) by (rewrite <- E; destruct fw; [exact ND|apply NoDup_rev; exact ND]).
    assert (S : step fw (Some n) L = first t). { rewrite behind_rev, E. cbn [behind]. apply succ_split. intros I. apply NoDup_remove_2 in ND2. apply ND2. apply in_or_app. auto. }
    rewrite S in *. assert (NE : addr (first t) <> n). { destruct t as [|y t]; cbn; [congruence|]. intros ->. apply NoDup_remove_2 in ND2. apply ND2. apply in_or_app. cbn. auto. }
    destruct (IH (pre ++ [n]) f l2 _ ltac:(rewrite <- app_assoc; exact E) W2) as (xs & EW & FW).
    + unfold dec, inc. cbn [addr]. rewrite (proj2 (Nat.eqb_neq _ _) NE), Nat.eqb_refl. assert (1 <= k (addr (first t))); [|lia]. apply (i_k _ _ _ _ W). destruct t as [|y t]; cbn; [auto|].
      right. assert (I : In y (if fw then L else rev L)) by (rewrite E; apply in_or_app; cbn; auto). destruct fw; [exact I|apply in_rev; exact I].
    + lia.
    + rewrite EW. cbn [obind]. exists (val x :: xs). split; [reflexivity|]. constructor; [|exact FW]. apply (i_vals _ _ _ _ W); assumption.
Qed.
Lemma items_ok fw s ss : R s ss -> exists xs, items fw (lst_ s) = Ok xs /\ Forall2 (fun i v => value i (vals ss) = Some v) (if fw then order ss else rev (order ss)) xs.
Proof.
  intros W. destruct (exec_ok (Begin fw) _ _ _ _ W eq_refl) as (s' & E & W'). unfold items. cbn [exec] in E. destruct (begin_ fw (lst_ s)) as [[i l]| | |] eqn:EB; try discriminate E. cbn [obind] in *. injection E as <-.
  pose proof (r_li _ _ W') as WL. cbn [lst_ order its vals] in WL. pose proof (r_it _ _ W') as WI. cbn [iters its] in WI. rewrite map_app, (r_it _ _ W) in WI. apply app_inj_tail in WI. destruct WI as [_ ->]. unfold im. cbn [fst].
  pose proof (LI_bound _ _ _ _ WL) as LB. set (M := if fw then order ss else rev (order ss)).
  assert (S : step fw None (order ss) = first M) by (subst M; destruct fw; reflexivity). rewrite S in *. apply (walk_ok fw (order ss) (vals ss) M [] _ _ _ eq_refl WL).
  - unfold K. rewrite cnt_app, cnt_cons. cbn [fst]. rewrite Nat.eqb_refl. cbn [b2n]. rewrite isin_in; [lia|]. rewrite <- S. apply addr_in, step_live.
  - subst M. destruct fw; rewrite ?rev_length; lia.
Qed.
