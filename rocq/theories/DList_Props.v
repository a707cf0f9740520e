(** Theorems about the doubly linked list with iterators (containers/list.h) *)
From Coq Require Import ZArith.
From Verif Require Import Common DList_Spec DList_Model DList_Proof.

(** C373: as long as an iterator whose item was removed is only read or dropped, all results are those of the list the
    specification describes, and afterwards the list holds these items, in this order, in both directions *)
Theorem dl_refine l outs ss : srun l sinit = Some (outs, ss) ->
  exists s xs, run l init = Ok (outs, s) /\ count (lst_ s) = length (order ss) /\ NoDup (order ss) /\
    Forall2 (fun i v => value i (vals ss) = Some v) (order ss) xs /\ items true (lst_ s) = Ok xs /\ items false (lst_ s) = Ok (rev xs).
Proof.
  intros E. destruct (run_ok _ _ _ _ _ init_R E) as (s & F & W). destruct (items_ok true _ _ W) as (xs & I1 & V1). destruct (items_ok false _ _ W) as (ys & I2 & V2). exists s, xs.
  split; [exact F|]. split; [apply (i_cnt _ _ _ _ (r_li _ _ W))|]. split; [apply nd_tail, (i_nd _ _ _ _ (r_li _ _ W))|]. split; [exact V1|]. split; [exact I1|]. rewrite I2. f_equal.
  clear - V1 V2. cbn in *. revert ys V2. induction V1 as [|i v l xs Q _ IH]; intros ys V2; cbn in *; [inversion V2; reflexivity|].
  apply Forall2_app_inv_l in V2. destruct V2 as (a & b & A & B & ->). inversion B as [|? ? ? ? B1 B2]; subst. inversion B2; subst. rewrite (IH _ A). congruence.
Qed.
Print Assumptions dl_refine.
(** the list 1 2 3; an iterator goes to 2, puts 5 before and 7 behind, erases the 2 *)
Definition ex1 := [AddBack 2; AddFront 1; AddBack 3; Begin true; Next 0; InsertBefore 0 5; InsertAfter 0 7; Peek 0; Erase 0; Peek 0; Begin false; Next 1; Next 1]%Z.
Example dl_refine_ex : exists s ss, srun ex1 sinit = Some ([Nothing; Nothing; Nothing; Nothing; Value 1; Nothing; Nothing; Value 2; Nothing; Value 7; Nothing; Value 3; Value 7]%Z, ss) /\ order ss = [2; 4; 5; 3] /\
  run ex1 init = Ok ([Nothing; Nothing; Nothing; Nothing; Value 1; Nothing; Nothing; Value 2; Nothing; Value 7; Nothing; Value 3; Value 7]%Z, s) /\ items true (lst_ s) = Ok [1; 5; 7; 3]%Z.
Proof. eexists _, _. vm_compute. repeat split. Qed.

(** C374: an iterator keeps its item: it can be read, with the value it had, also when the item was removed from the list by
    another iterator or by clear *)
Theorem dl_keep l outs ss i n fw : srun l sinit = Some (outs, ss) -> nth_error (its ss) i = Some (Some n, fw) ->
  exists s v, run l init = Ok (outs, s) /\ value n (vals ss) = Some v /\ exec (Peek i) s = Ok (Value v, s).
Proof.
  intros E N. destruct (run_ok _ _ _ _ _ init_R E) as (s & F & W). exists s.
  assert (N0 : n <> 0) by (intros ->; apply (r_nz _ _ W _ (nth_error_In _ _ N)); reflexivity). destruct (LI_nx _ _ _ _ n (r_li _ _ W) (K_it _ _ _ _ W N)) as (y & Y). destruct (load_ok _ _ _ Y) as (nn & EN & _ & _ & VN).
  exists (val nn). split; [exact F|]. split; [apply (i_vals _ _ _ _ (r_li _ _ W) n _ N0 VN)|]. unfold exec. rewrite (it_of _ _ _ _ W N). unfold im. cbn [fst snd addr obind]. unfold peek.
  rewrite (proj2 (Nat.eqb_neq n 0) N0). rewrite EN. reflexivity.
Qed.
Print Assumptions dl_keep.
Example dl_keep_ex : exists s ss, srun [AddBack 4; Begin true; Begin true; Erase 1; AddBack 5]%Z sinit = Some ([Nothing; Nothing; Nothing; Nothing; Nothing], ss) /\ order ss = [2] /\ nth_error (its ss) 0 = Some (Some 1, true) /\
  run [AddBack 4; Begin true; Begin true; Erase 1; AddBack 5; Peek 0]%Z init = Ok ([Nothing; Nothing; Nothing; Nothing; Nothing; Value 4%Z], s).
Proof. eexists _, _. vm_compute. repeat split. Qed.

(** C375: no item is leaked and none is freed early: the items in memory are the list's and those on which an iterator stands *)
Theorem dl_noleak l outs ss : srun l sinit = Some (outs, ss) ->
  exists s, run l init = Ok (outs, s) /\ forall i, i <> 0 -> (m (lst_ s) i <> None <-> In i (order ss) \/ In (Some i) (map fst (its ss))).
Proof.
  intros E. destruct (run_ok _ _ _ _ _ init_R E) as (s & F & W). exists s. split; [exact F|]. intros i I0. pose proof (i_mi _ _ _ _ (r_li _ _ W) i) as M. unfold rf in M.
  assert (C : In (Some i) (map fst (its ss)) <-> 0 < cnt (its ss) i).
  { unfold cnt. change (In (Some i) (map fst (its ss)) <-> count_occ Nat.eq_dec (map (fun e => addr (fst e)) (its ss)) i > 0). rewrite <- (count_occ_In Nat.eq_dec). rewrite !in_map_iff. split.
    - intros (e & E1 & E2). exists e. rewrite E1. auto.
    - intros (e & E1 & E2). exists e. split; [|exact E2]. destruct (fst e) as [j|]; cbn in E1; congruence. }
  rewrite C. assert (D : In i (order ss) <-> isin (0 :: order ss) i = 1).
  { unfold isin. destruct (in_dec Nat.eq_dec i (0 :: order ss)) as [I|I]; cbn in I; split; intros; try lia; intuition congruence. }
  rewrite D. unfold K in M. destruct (m (lst_ s) i); cbn in M.
  - split; [intros _|congruence]. destruct (isin (0 :: order ss) i + cnt (its ss) i) eqn:Q; [discriminate|]. unfold isin in *. destruct (in_dec Nat.eq_dec i (0 :: order ss)); [auto|right; lia].
  - split; [congruence|]. destruct (isin (0 :: order ss) i + cnt (its ss) i) eqn:Q; [|discriminate]. lia.
Qed.
Print Assumptions dl_noleak.
(** hence a cleared list without iterators has no item in memory *)
Theorem dl_empty_noleak l outs ss : srun l sinit = Some (outs, ss) -> order ss = [] -> its ss = [] ->
  exists s, run l init = Ok (outs, s) /\ forall i, i <> 0 -> m (lst_ s) i = None.
Proof.
  intros E O T. destruct (dl_noleak _ _ _ E) as (s & F & M). exists s. split; [exact F|]. intros i I0. specialize (M i I0). rewrite O, T in M. cbn in M. destruct (m (lst_ s) i); [|reflexivity].
  exfalso. destruct M as [M _]. destruct M as [[]|[]]. discriminate.
Qed.
Print Assumptions dl_empty_noleak.
Example dl_noleak_ex : exists outs ss, srun [AddBack 4; AddBack 6; Begin true; Clear; Drop 0]%Z sinit = Some (outs, ss) /\ order ss = [] /\ its ss = [] /\ next ss = 3.
Proof. eexists _, _. vm_compute. repeat split. Qed.
Example dl_noleak_ex2 : exists outs ss s, srun [AddBack 4; AddBack 6; Begin true; Clear]%Z sinit = Some (outs, ss) /\ run [AddBack 4; AddBack 6; Begin true; Clear]%Z init = Ok (outs, s) /\
  m (lst_ s) 1 <> None /\ m (lst_ s) 2 = None.
Proof. eexists _, _, _. vm_compute. repeat split. discriminate. Qed.

(** C376 refuted: erase by an iterator whose item was removed meanwhile is not harmless: the item is released once more, the
    list is counted as shorter than it is, and the iterator dangles *)
Theorem dl_erase_twice_refuted : exists outs s,
  run [AddBack 4; AddBack 6; Begin true; Begin true; Erase 0; Erase 1]%Z init = Ok (outs, s) /\
  items true (lst_ s) = Ok [6%Z] /\ count (lst_ s) = 0 /\ exec (Peek 1) s = Undef /\ exec (Drop 1) s = Undef.
Proof. eexists _, _. vm_compute. repeat split. Qed.
Print Assumptions dl_erase_twice_refuted.

(** C377 refuted: an iterator whose item was removed does not go on to the rest of the list, it does not end either *)
Definition stuck (i : nat) (v : Z) (s : st) : Prop :=
  exists p fw x, nth_error (iters s) i = Some (p, fw) /\ p <> 0 /\ m (lst_ s) p = Some x /\ nxt x = p /\ prv x = p /\ val x = v /\ 0 < refs x.
Lemma stuck_next i v s : stuck i v s -> exists s', exec (Next i) s = Ok (Value v, s') /\ stuck i v s'.
Proof.
  intros (p & fw & x & N & P0 & M & NX & PX & VX & RX). unfold exec. rewrite N. cbn [obind]. unfold peek. rewrite (proj2 (Nat.eqb_neq p 0) P0). unfold load at 1. rewrite M. cbn [obind]. rewrite VX.
  unfold moveIt, load. rewrite M. cbn [obind]. replace (if fw then nxt x else prv x) with p by (destruct fw; congruence). unfold addRef, load. rewrite M. cbn [obind]. unfold release, load, set. rewrite Nat.eqb_refl. cbn [obind refs].
  destruct (refs x) as [|r] eqn:RR; [lia|]. eexists. split; [reflexivity|]. exists p, fw, (mkN (val x) (nxt x) (prv x) (S r)). cbn [iters lst_ m]. rewrite Nat.eqb_refl. cbn [val nxt prv refs].
  split; [|repeat split; auto; lia]. rewrite nth_error_upd_eq; [reflexivity|]. apply nth_error_Some. congruence.
Qed.
Theorem dl_stuck_refuted : exists outs s,
  run [AddBack 4; AddBack 6; Begin true; Begin true; Erase 0]%Z init = Ok (outs, s) /\ items true (lst_ s) = Ok [6%Z] /\
  forall k, exists s', run (repeat (Next 1) k) s = Ok (repeat (Value 4%Z) k, s').
Proof.
  eexists _, _. split; [vm_compute; reflexivity|]. split; [vm_compute; reflexivity|]. match goal with |- forall k, exists s', run _ ?s = _ => assert (S : stuck 1 4%Z s) by (exists 1, true; eexists; vm_compute; repeat split; try lia; discriminate); revert S; generalize s end.
  intros s S k. revert s S. induction k as [|k IH]; intros s S; cbn [repeat run]; [eauto|]. destruct (stuck_next _ _ _ S) as (s1 & E1 & S1). rewrite E1. cbn [obind]. destruct (IH s1 S1) as (s2 & E2). rewrite E2. cbn [obind]. eauto.
Qed.
Print Assumptions dl_stuck_refuted.

(** C378 refuted: what is inserted at such an iterator is lost, though it is counted *)
Theorem dl_lost_insert_refuted : exists outs s,
  run [AddBack 4; AddBack 6; Begin true; Begin true; Erase 0; InsertAfter 1 9]%Z init = Ok (outs, s) /\ items true (lst_ s) = Ok [6%Z] /\ count (lst_ s) = 2.
Proof. eexists _, _. vm_compute. repeat split. Qed.
Print Assumptions dl_lost_insert_refuted.
