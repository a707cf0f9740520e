(** Lemmas about the allocator of indexes of thread variables. *)
From Verif Require Import Common Tls_Spec Heap_Model Heap_Proof Tls_Model.
From Coq Require Import Permutation.

Lemma lt1 : forall a b, (a <? b) = true -> (b <? a) = false.
Proof. intros *. rewrite Nat.ltb_lt, Nat.ltb_ge. lia. Qed.
Lemma lt2 : forall a b c, (b <? a) = false -> (c <? b) = false -> (c <? a) = false.
Proof. intros *. rewrite !Nat.ltb_ge. lia. Qed.

Definition full (h : heap nat) : Prop := isHeap Nat.ltb 0 h /\ hsize h = length (arr h).

Lemma heap_same n l l' : (forall k, k < n -> nth k l' 0 = nth k l 0) -> heapOrder Nat.ltb 0 n l -> heapOrder Nat.ltb 0 n l'.
Proof.
  intros E H i Hi Hn. pose proof (parent_lt Nat.ltb 0 i Hi). rewrite !E by lia. apply H; auto.
Qed.

Lemma input_ok h x : full h -> exists h', input h x = Ok h' /\ full h' /\ Permutation (arr h') (x :: arr h).
Proof.
  intros [[Hl Ho] Hs]. unfold input.
  destruct (push_ok Nat.ltb 0 lt1 lt2 (mkHeap (arr h ++ [x]) (hsize h))) as (h' & E & I & S & R).
  - split; cbn [arr hsize]; [rewrite app_length; lia|].
    eapply heap_same; [|exact Ho]. intros k Hk. apply app_nth1. lia.
  - cbn [arr hsize]. rewrite app_length. cbn. lia.
  - rewrite E. cbn [obind snd]. exists h'. split; auto. cbn [arr hsize] in *.
    pose proof (Permutation_length (ro_perm _ _ _ _ R)) as L. rewrite app_length in L. cbn in L.
    split; [split; [auto|lia]|]. eapply Permutation_trans; [apply Permutation_sym, (ro_perm _ _ _ _ R)|].
    apply Permutation_sym, Permutation_cons_append.
Qed.

Lemma output_ok h : full h -> arr h <> [] -> exists x h', output h = Ok (x, h') /\ full h' /\ Permutation (arr h) (x :: arr h').
Proof.
  intros [I Hs] N. unfold output. destruct (arr h) as [|x l] eqn:Ea; [congruence|]. clear N.
  cbn [length] in Hs.
  destruct (pop_ok Nat.ltb 0 lt1 lt2 h I ltac:(lia)) as (h' & E & [Hl' Ho'] & S & R & T).
  rewrite E. cbn [obind snd]. exists x. eexists. split; [reflexivity|].
  pose proof (Permutation_length (ro_perm _ _ _ _ R)) as L. rewrite Ea in *. cbn [length nth] in *.
  assert (Na : arr h' <> []) by (intros Q; rewrite Q in L; discriminate L).
  pose proof (app_removelast_last 0 Na) as Q.
  assert (La : length (removelast (arr h')) = hsize h').
  { apply (f_equal (@length nat)) in Q. rewrite app_length in Q. cbn in Q. lia. }
  assert (X : last (arr h') 0 = x).
  { rewrite Q, app_nth2 in T by lia. rewrite La, Nat.sub_diag in T. auto. }
  rewrite X in Q. split.
  - split; [split|]; cbn [arr hsize]; auto; [lia|].
    eapply heap_same; [|exact Ho']. intros k Hk.
    transitivity (nth k (removelast (arr h') ++ [x]) 0); [rewrite app_nth1 by lia; auto|rewrite <- Q; auto].
  - cbn [arr]. eapply Permutation_trans; [exact (ro_perm _ _ _ _ R)|]. rewrite Q at 1.
    apply Permutation_sym, Permutation_cons_append.
Qed.

Definition ainv (a : alloc) (held : list nat) (peak : nat) : Prop :=
  full (freeList a) /\ Permutation (arr (freeList a) ++ held) (seq 0 (nextIndex a)) /\
  nextIndex a <= peak /\ length held <= peak.

Lemma ainv_new : ainv newAlloc [] 0.
Proof.
  split; [|cbn; auto]. split; [split; cbn; [lia|]|reflexivity]. intros i; cbn; lia.
Qed.

Lemma take_perm (held : list nat) k i : nth_error held k = Some i ->
  Permutation held (i :: firstn k held ++ skipn (S k) held).
Proof.
  revert k. induction held as [|a held IH]; intros [|k] E; cbn in E; try discriminate E.
  - injection E as ->. cbn. auto.
  - cbn [firstn skipn app]. eapply Permutation_trans; [apply perm_skip, (IH k E)|]. apply perm_swap.
Qed.

Lemma aRun_ok l : forall a held peak, ainv a held peak ->
  exists a' held' peak', aRun l a held peak = Ok (a', held', peak') /\ ainv a' held' peak'.
Proof.
  induction l as [|o l IH]; intros a held peak I; cbn [aRun]; [eauto 8|].
  destruct I as (Fu & Pe & Np & Lp). destruct o as [|k].
  - unfold allocIndex. destruct (arr (freeList a)) as [|y ys] eqn:Ea.
    + cbn [obind fst snd]. apply IH. cbn [app] in Pe.
      pose proof (Permutation_length Pe) as L. rewrite seq_length in L.
      split; cbn [freeList nextIndex]; auto. rewrite Ea. cbn [app length]. split; [|lia].
      rewrite Nat.add_1_r, seq_S. cbn [Nat.add]. eapply Permutation_trans; [apply perm_skip, Pe|].
      apply Permutation_cons_append.
    + destruct (output_ok (freeList a) Fu ltac:(congruence)) as (x & h & E & Fu' & P). rewrite E. cbn [obind fst snd].
      apply IH. split; cbn [freeList nextIndex]; auto. rewrite <- Ea in Pe. split; [|cbn [length]; lia].
      eapply Permutation_trans; [|exact Pe]. eapply Permutation_trans; [apply Permutation_sym, Permutation_middle|].
      apply Permutation_sym. exact (Permutation_app_tail held P).
  - destruct (nth_error held k) as [i|] eqn:Ek; [|apply IH; split; auto].
    pose proof (take_perm held k i Ek) as T. set (held' := firstn k held ++ skipn (S k) held) in *.
    pose proof (Permutation_length T) as L. cbn [length] in L.
    assert (Pe' : Permutation (i :: arr (freeList a) ++ held') (seq 0 (nextIndex a))).
    { eapply Permutation_trans; [apply Permutation_middle|].
      eapply Permutation_trans; [|exact Pe]. apply Permutation_app_head, Permutation_sym, T. }
    assert (Hi : i < nextIndex a).
    { assert (X : In i (seq 0 (nextIndex a))) by (eapply Permutation_in; [exact Pe'|left; auto]). apply in_seq in X. lia. }
    unfold freeIndex. destruct (Nat.eqb_spec (i + 1) (nextIndex a)) as [E|E].
    + cbn [obind]. apply IH. split; cbn [freeList nextIndex]; auto. split; [|lia].
      destruct (nextIndex a) as [|n]; [lia|]. rewrite seq_S in Pe'. cbn [Nat.add] in Pe'.
      replace (S n - 1) with n by lia. assert (i = n) by lia. subst i.
      eapply Permutation_cons_inv. eapply Permutation_trans; [exact Pe'|].
      apply Permutation_sym, Permutation_cons_append.
    + destruct (Nat.ltb_spec i (nextIndex a)) as [_|]; [|lia].
      destruct (input_ok (freeList a) i Fu) as (h & Ei & Fu' & P). rewrite Ei. cbn [obind].
      apply IH. split; cbn [freeList nextIndex]; auto. split; [|lia].
      eapply Permutation_trans; [exact (Permutation_app_tail held' P)|exact Pe'].
Qed.
