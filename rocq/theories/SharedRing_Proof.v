(** Rings given by a successor function: joining and leaving. *)
From Coq Require Import Permutation.
From Verif Require Import Common.

(** a -> l -> b *)
Fixpoint path (N : nat -> nat) (a : nat) (l : list nat) (b : nat) : Prop :=
  match l with [] => N a = b | x :: l' => N a = x /\ path N x l' b end.

Lemma path_app N : forall l1 a c l2 b, path N a (l1 ++ c :: l2) b <-> path N a l1 c /\ path N c l2 b.
Proof.
  induction l1 as [|x l1 IH]; intros a c l2 b; cbn [app path]; [tauto|]. rewrite IH. tauto.
Qed.

Lemma path_ext N N' : forall l a b, (forall k, In k (a :: l) -> N' k = N k) -> path N a l b -> path N' a l b.
Proof.
  induction l as [|x l IH]; intros a b E; cbn [path].
  - rewrite E by (cbn; auto). auto.
  - intros [H P]. rewrite E by (cbn; auto). split; auto. apply IH; auto. intros k Hk. apply E. cbn in *. tauto.
Qed.

(** the start may be replaced by an element with the same successor *)
Lemma path_start N N' c : forall l a b, N' c = N a -> (forall k, In k l -> N' k = N k) -> path N a l b -> path N' c l b.
Proof.
  intros [|x l] a b E H; cbn [path]. - congruence.
  - intros [X P]. split; [congruence|]. apply path_ext with N; auto.
Qed.

Lemma path_det N : forall l l' a b, path N a l b -> path N a l' b -> ~ In b l -> ~ In b l' -> l = l'.
Proof.
  induction l as [|x l IH]; intros [|y l'] a b; cbn [path In].
  - auto.
  - intros H [E _] _ N'. exfalso. apply N'. left. congruence.
  - intros [E _] H N' _. exfalso. apply N'. left. congruence.
  - intros [E1 P1] [E2 P2] N1 N2. rewrite E1 in E2. subst y. f_equal. apply (IH l' x b); tauto.
Qed.

Lemma path_succ N : forall l a b c, path N a l b -> In c (a :: l) -> In (N c) (l ++ [b]).
Proof.
  induction l as [|x l IH]; intros a b c P H; cbn [path] in P.
  - destruct H as [<-|[]]. cbn. auto.
  - destruct P as [E P]. destruct H as [<-|H]; [cbn; auto|]. cbn [app In]. right. eapply IH; eauto.
Qed.

Lemma path_rotate N a l1 b l2 : path N a (l1 ++ b :: l2) a -> path N b (l2 ++ a :: l1) b.
Proof. intros P. apply path_app in P as [P1 P2]. apply path_app. auto. Qed.

Lemma NoDup_rotate (a : nat) l1 b l2 : NoDup (a :: l1 ++ b :: l2) -> NoDup (b :: l2 ++ a :: l1).
Proof.
  intros H. change (NoDup ((a :: l1) ++ b :: l2)) in H. change (NoDup ((b :: l2) ++ a :: l1)).
  eapply Permutation_NoDup; [|exact H]. apply Permutation_app_comm.
Qed.

(** L: the existing variables, N: their successors, P: what they refer to *)
Definition RI (L : nat -> Prop) (N : nat -> nat) (P : nat -> option nat) : Prop :=
  forall i, L i -> exists l, path N i l i /\ NoDup (i :: l) /\
    (forall k, In k l -> L k /\ P k = P i) /\
    (forall k x, L k -> P i = Some x -> P k = Some x -> In k (i :: l)).

Lemma RI_ext (L L' : nat -> Prop) N N' P P' : (forall k, L' k <-> L k) -> (forall k, L k -> N' k = N k) ->
  (forall k, L k -> P' k = P k) -> RI L N P -> RI L' N' P'.
Proof.
  intros EL EN EP R i Hi. apply EL in Hi. destruct (R i Hi) as (l & Pa & Nd & A & B). exists l.
  assert (Al : forall k, In k (i :: l) -> L k) by (intros k [<-|Hk]; auto; apply A; auto).
  repeat split; auto.
  - apply path_ext with N; auto.
  - apply EL. apply A; auto.
  - rewrite !EP; auto. + apply A; auto. + apply A; auto.
  - intros k x Lk Pi Pk. apply EL in Lk. rewrite EP in Pi, Pk by auto. eapply B; eauto.
Qed.

(** a variable that is alone goes *)
Lemma RI_drop_alone L N P i : RI L N P -> N i = i -> RI (fun k => L k /\ k <> i) N P.
Proof.
  intros R E k [Lk Nk]. destruct (R k Lk) as (l & Pa & Nd & A & B). exists l.
  assert (Ni : ~ In i l).
  { intros Hi. apply in_split in Hi as (l1 & l2 & ->). apply path_app in Pa as [_ P2].
    destruct l2 as [|y l2]; cbn [path] in P2; [congruence|]. destruct P2 as [Y _].
    rewrite E in Y. subst y. apply NoDup_cons_iff in Nd as [_ Nd]. apply NoDup_remove_2 in Nd. apply Nd.
    apply in_or_app. cbn. auto. }
  repeat split; auto; try (apply A; auto).
  - intros ->. contradiction.
  - intros k' x [Lk' Nk'] P1 P2. eapply B; eauto.
Qed.

(** a variable leaves its ring; [prev] is the last one before it *)
Lemma RI_leave L N N' P i l' prev : RI L N P -> path N i (l' ++ [prev]) i -> NoDup (i :: l' ++ [prev]) ->
  N' prev = N i -> (forall k, k <> prev -> k <> i -> N' k = N k) ->
  RI (fun k => L k /\ k <> i) N' P.
Proof.
  intros R Pi Ni E1 E2 k [Lk Nk]. destruct (R k Lk) as (l & Pa & Nd & A & B).
  assert (Npi : prev <> i).
  { intros ->. apply NoDup_cons_iff in Ni as [X _]. apply X. apply in_or_app. cbn. auto. }
  assert (Sp : N prev = i) by (apply path_app in Pi as [_ Q]; exact Q).
  destruct (in_dec Nat.eq_dec i l) as [Hi|Hi].
  - apply in_split in Hi as (l1 & l2 & ->). exists (l1 ++ l2).
    pose proof (path_rotate _ _ _ _ _ Pa) as Pr. pose proof (NoDup_rotate _ _ _ _ Nd) as Nr.
    assert (Eq : l' ++ [prev] = l2 ++ k :: l1).
    { eapply path_det; eauto; [apply NoDup_cons_iff in Ni; tauto|apply NoDup_cons_iff in Nr; tauto]. }
    apply path_app in Pa as [P1 P2].
    assert (Nd' : NoDup ((k :: l1) ++ l2)).
    { change (NoDup ((k :: l1) ++ i :: l2)) in Nd. apply NoDup_remove_1 in Nd. exact Nd. }
    repeat split.
    + (* the path *)
      assert (X2 : forall q, In q l2 -> N' q = N q).
      { intros q Hq. apply E2.
        - intros ->. destruct l1 as [|y l1] using rev_ind.
          + replace (l2 ++ [k]) with (l2 ++ [k]) in Eq by auto. apply app_inj_tail in Eq as [_ <-].
            apply NoDup_cons_iff in Nd' as [X _]. apply X. cbn. auto.
          + clear IHl1. rewrite app_comm_cons, app_assoc in Eq. apply app_inj_tail in Eq as [_ <-].
            cbn [app] in Nd'. apply NoDup_cons_iff in Nd' as [_ Nd'].
            rewrite <- ?app_assoc in Nd'. cbn [app] in Nd'. apply NoDup_remove_2 in Nd'. apply Nd'. apply in_or_app. auto.
        - intros ->. apply NoDup_cons_iff in Nr as [X _]. apply X. apply in_or_app. auto. }
      destruct l1 as [|y l1 _] using rev_ind.
      * apply app_inj_tail in Eq as [_ <-]. cbn [app]. apply path_start with N i; auto.
      * rewrite app_comm_cons, app_assoc in Eq. apply app_inj_tail in Eq as [_ <-].
        rewrite <- app_assoc. cbn [app]. apply path_app. apply path_app in P1 as [P1 _]. split.
        -- apply path_ext with N; auto. intros q Hq. apply E2.
           ++ intros ->. cbn [app] in Nd'. rewrite <- app_assoc in Nd'. cbn [app] in Nd'.
              change (NoDup ((k :: l1) ++ prev :: l2)) in Nd'. apply NoDup_remove_2 in Nd'.
              apply Nd'. apply in_or_app. auto.
           ++ intros ->. destruct Hq as [->|Hq]; [congruence|]. apply NoDup_cons_iff in Nr as [X _]. apply X.
              apply in_or_app. right. cbn. right. apply in_or_app. auto.
        -- apply path_start with N i; auto.
    + exact Nd'.
    + apply A. apply in_app_iff in H. apply in_or_app. cbn. tauto.
    + intros ->. apply NoDup_cons_iff in Nr as [X _]. apply X. apply in_app_iff in H. apply in_or_app. cbn. tauto.
    + apply A. apply in_app_iff in H. apply in_or_app. cbn. tauto.
    + intros k' x [Lk' Nk'] Q1 Q2. specialize (B k' x Lk' Q1 Q2). cbn in B |- *. rewrite in_app_iff in *. cbn in B.
      intuition congruence.
  - exists l. assert (Hp : ~ In prev (k :: l)).
    { intros Hp. pose proof (path_succ _ _ _ _ _ Pa Hp) as S. rewrite Sp in S. apply in_app_iff in S as [S|[S|[]]]; congruence. }
    repeat split; auto; try (apply A; auto).
    + apply path_ext with N; auto. intros q Hq. apply E2; [intros ->; contradiction|].
      intros ->. destruct Hq as [->|Hq]; congruence.
    + intros ->. contradiction.
    + intros k' x [Lk' Nk'] P1 P2. eapply B; eauto.
Qed.

(** a new variable joins behind [j] *)
Lemma RI_join (L L' : nat -> Prop) N N' P P' i j : RI L N P -> ~ L i -> L j ->
  (forall k, L' k <-> L k \/ k = i) ->
  N' i = N j -> N' j = i -> (forall k, k <> i -> k <> j -> N' k = N k) ->
  P' i = P j -> (forall k, k <> i -> P' k = P k) -> RI L' N' P'.
Proof.
  intros R Hi Hj EL E1 E2 E3 Q1 Q2.
  assert (Nij : i <> j) by (intros ->; contradiction).
  destruct (R j Hj) as (lj & Pj & Ndj & Aj & Bj).
  intros k Hk. apply EL in Hk. destruct (Nat.eq_dec k i) as [->|Nk].
  - (* the new one *)
    exists (lj ++ [j]). assert (Nl : ~ In i lj) by (intros X; apply Aj in X; tauto).
    apply NoDup_cons_iff in Ndj as [Nj Ndj]. repeat split.
    + apply path_app. split; [|exact E2]. apply path_start with N j; auto. intros q Hq. apply E3; intros ->; contradiction.
    + constructor.
      * rewrite in_app_iff. cbn. intuition congruence.
      * eapply Permutation_NoDup; [|constructor; [exact Nj|exact Ndj]].
        change (j :: lj) with ([j] ++ lj). apply Permutation_app_comm.
    + apply EL. apply in_app_iff in H as [H|[<-|[]]]; [left; apply Aj; auto|auto].
    + rewrite Q1, Q2. * apply in_app_iff in H as [H|[<-|[]]]; [apply Aj; auto|auto].
      * intros ->. apply in_app_iff in H as [H|[H|[]]]; [contradiction|congruence].
    + intros k x Lk Pi Pk. destruct (Nat.eq_dec k i) as [->|Nk]; [cbn; auto|].
      rewrite Q1 in Pi. rewrite Q2 in Pk by auto. apply EL in Lk as [Lk|]; [|contradiction].
      specialize (Bj k x Lk Pi Pk). cbn in Bj |- *. rewrite in_app_iff. cbn. tauto.
  - destruct Hk as [Lk|]; [|contradiction]. destruct (R k Lk) as (l & Pa & Nd & A & B).
    assert (Nil : ~ In i (k :: l)) by (intros [X|X]; [congruence|apply A in X; tauto]).
    destruct (in_dec Nat.eq_dec j (k :: l)) as [Hjk|Hjk].
    + (* in the ring of j: the new one is put behind j *)
      assert (X : exists l1 l2, k :: l = l1 ++ j :: l2 /\
                  path N' k (match l1 with [] => i :: l2 | _ :: l1' => l1' ++ j :: i :: l2 end) k).
      { destruct (Nat.eq_dec k j) as [->|Nkj].
        - exists [], l. split; auto. cbn [path]. split; auto. apply path_start with N j; auto.
          intros q Hq. apply E3.
          + intros ->. apply Nil. cbn. auto.
          + intros ->. apply NoDup_cons_iff in Nd. tauto.
        - destruct Hjk as [|Hjk]; [congruence|]. apply in_split in Hjk as (l1 & l2 & ->). exists (k :: l1), l2.
          split; auto. apply path_app in Pa as [P1 P2]. apply path_app.
          change (NoDup ((k :: l1) ++ j :: l2)) in Nd. pose proof (NoDup_remove_2 _ _ _ Nd) as Nr.
          split.
          + apply path_ext with N; auto. intros q Hq. apply E3.
            * intros ->. apply Nil. destruct Hq as [->|Hq]; cbn; auto. right. apply in_or_app. auto.
            * intros ->. apply Nr. apply in_or_app. auto.
          + cbn [path]. split; auto. apply path_start with N j; auto. intros q Hq. apply E3.
            * intros ->. apply Nil. cbn. right. apply in_or_app. cbn. auto.
            * intros ->. apply Nr. apply in_or_app. auto. }
      destruct X as (l1 & l2 & E & X).
      set (ll := match l1 with [] => i :: l2 | _ :: l1' => l1' ++ j :: i :: l2 end) in *.
      assert (Pm : Permutation (k :: ll) (i :: k :: l)).
      { subst ll. destruct l1 as [|y l1]; cbn [app] in E; injection E as -> ->.
        - apply perm_swap.
        - transitivity (y :: l1 ++ i :: j :: l2).
          + constructor. apply Permutation_app_head. apply perm_swap.
          + rewrite app_comm_cons, (app_comm_cons l1). symmetry. apply Permutation_middle. }
      assert (In_ll : forall q, In q (k :: ll) <-> q = i \/ In q (k :: l)).
      { intros q. split; intros Hq.
        - apply (Permutation_in _ Pm) in Hq. destruct Hq as [<-|Hq]; auto.
        - apply (Permutation_in _ (Permutation_sym Pm)). destruct Hq as [->|Hq]; cbn; auto. }
      assert (Pj' : P j = P k) by (destruct Hjk as [->|Hjk]; [auto|apply A; auto]).
      exists ll. repeat split; auto.
      * eapply Permutation_NoDup; [apply Permutation_sym; exact Pm|]. constructor; auto.
      * apply EL. destruct (proj1 (In_ll k0) (or_intror H)) as [->|[<-|Hq]]; auto. left. apply A; auto.
      * destruct (proj1 (In_ll k0) (or_intror H)) as [->|Hq].
        -- rewrite Q1, Q2 by auto. exact Pj'.
        -- destruct Hq as [<-|Hq]; auto. rewrite (Q2 k0), (Q2 k); auto. apply A; auto.
           intros ->. apply Nil. cbn. auto.
      * intros k' x Lk' Pi Pk'. apply In_ll. destruct (Nat.eq_dec k' i) as [->|Nk']; auto. right.
        rewrite Q2 in Pi, Pk' by auto. apply EL in Lk' as [Lk'|]; [|contradiction]. eapply B; eauto.
    + exists l. repeat split; auto.
      * apply path_ext with N; auto. intros q Hq. apply E3; intros ->; contradiction.
      * apply EL. left. apply A; auto.
      * rewrite (Q2 k0), (Q2 k); auto. -- apply A; auto. -- intros ->. apply Nil. cbn. auto.
      * intros k' x Lk' Pi Pk'. destruct (Nat.eq_dec k' i) as [->|Nk'].
        -- exfalso. rewrite Q2 in Pi by auto. rewrite Q1 in Pk'. apply Hjk. eapply B; eauto.
        -- rewrite Q2 in Pi, Pk' by auto. apply EL in Lk' as [Lk'|]; [|contradiction]. eapply B; eauto.
Qed.

(** a new variable that is alone *)
Lemma RI_alone (L L' : nat -> Prop) N N' P P' i : RI L N P -> ~ L i ->
  (forall k, L' k <-> L k \/ k = i) -> N' i = i -> (forall k, k <> i -> N' k = N k) ->
  (forall k, k <> i -> P' k = P k) -> (forall k x, L k -> P' i = Some x -> P k <> Some x) -> RI L' N' P'.
Proof.
  intros R Hi EL E1 E2 Q2 Q1 k Hk. apply EL in Hk. destruct (Nat.eq_dec k i) as [->|Nk].
  - exists []. repeat split; auto.
    + constructor; [auto|constructor].
    + destruct H.
    + destruct H.
    + intros k x Lk Pi Pk. apply EL in Lk as [Lk| ->]; [|cbn; auto]. exfalso.
      rewrite Q2 in Pk by (intros ->; contradiction). apply (Q1 k x Lk Pi Pk).
  - destruct Hk as [Lk|]; [|contradiction]. destruct (R k Lk) as (l & Pa & Nd & A & B). exists l.
    assert (Ni : forall q, In q (k :: l) -> q <> i).
    { intros q [<-|Hq]; auto. apply A in Hq as [Hq _]. intros ->. contradiction. }
    repeat split; auto.
    + apply path_ext with N; auto.
    + apply EL. left. apply A; auto.
    + rewrite (Q2 k0), (Q2 k); auto. * apply A; auto. * apply Ni. cbn. auto.
    + intros k' x Lk' Pi Pk'. rewrite Q2 in Pi by auto. apply EL in Lk' as [Lk'| ->].
      * rewrite Q2 in Pk' by (intros ->; contradiction). eapply B; eauto.
      * exfalso. apply (Q1 k x Lk Pk' Pi).
Qed.
