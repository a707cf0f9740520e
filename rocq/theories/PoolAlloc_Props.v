(** Properties of PoolAlloc and MultiPoolAlloc (C356 to C360). *)
From Coq Require Import ZArith Permutation.
From Verif Require Import Common PoolAlloc_Model PoolAlloc_Proof.
Open Scope Z_scope.

Definition ops1 : list op := [Alloc true 20; Alloc true 5; Dealloc 1; Alloc true 30; Alloc true 10; Dealloc 0; Alloc false 12; FreeExtra].

(** C356: whatever is allocated and freed, nothing undefined happens, the blocks in use are all different, and each is a block of
    the system heap with room for what was asked for; all other blocks of the heap are in the list of free blocks *)
Theorem pa_alloc : forall l, exists u, run l user0 = Ok u /\ NoDup (map fst (held u)) /\
  (forall b n, In (b, n) (held u) -> exists m, In (b, m) (mem (pool u)) /\ n <= m) /\
  Permutation (map fst (mem (pool u))) (free (pool u) ++ map fst (held u)).
Proof.
  intros l. destruct (run_ok l 0 user0 ltac:(lia) init_ui) as (u & f & E & [P F] & _ & _). exists u. split; [exact E|]. destruct P as [(A & B & C) _ _ _].
  assert (ND : NoDup (free (pool u) ++ map fst (held u))) by (apply (Permutation_NoDup B); exact A). split; [|split; [|exact B]].
  - clear - ND. induction (free (pool u)) as [|x t IH]; [exact ND|]. inversion ND; auto.
  - intros b n I. rewrite Forall_forall in F. destruct (F _ I) as (m & M & L). cbn [fst snd] in *. exists m. split; [|lia]. clear - M.
    induction (mem (pool u)) as [|[j k] t IH]; cbn in *; [discriminate|]. destruct (b =? j)%nat eqn:T; [apply Nat.eqb_eq in T; injection M as ->; subst; auto|auto].
Qed.
Example pa_alloc_ex : match run ops1 user0 with Ok u => held u = [(3%nat, 12); (2%nat, 30); (1%nat, 5)] /\ mem (pool u) = [(3%nat, 30); (2%nat, 30); (1%nat, 20)] | _ => False end.
Proof. vm_compute. auto. Qed.

(** C357: if no allocation of the system failed, then after release() and after the last block is freed, the system heap has
    nothing of the pool *)
Theorem pa_noleak : forall l u, (forall n, ~ In (Alloc false n) l) -> run l user0 = Ok u -> gone u = true -> held u = [] -> mem (pool u) = [].
Proof.
  intros l u NF E G H. destruct (run_ok l 0 user0 ltac:(lia) init_ui) as (u' & f & E' & [P F] & _ & Q). rewrite E in E'. injection E' as <-.
  rewrite Q in P by (apply Forall_forall; intros [[|] n|i| |] I; try reflexivity; destruct (NF n I)). rewrite G, H in P. destruct P as [(_ & B & _) R Z0 _].
  cbn in R. rewrite Z0 in B by exact R. cbn in B. apply Permutation_sym, Permutation_nil in B. destruct (mem (pool u)); [reflexivity|discriminate].
Qed.
Example pa_noleak_ex : match run [Alloc true 20; Alloc true 5; Dealloc 1; Release; Alloc true 6; Dealloc 0; Dealloc 0] user0 with
  Ok u => gone u = true /\ held u = [] /\ mem (pool u) = [] | _ => False end.
Proof. vm_compute. auto. Qed.

(** C358: the same, without the assumption: it does not hold, because alloc counts the block before it is allocated *)
Theorem pa_fail_refuted : exists l u, run l user0 = Ok u /\ gone u = true /\ held u = [] /\ mem (pool u) <> [].
Proof. exists [Alloc true 8; Alloc false 100; Dealloc 0; Release]. eexists. split; [vm_compute; reflexivity|]. cbn. split; [reflexivity|]. split; [reflexivity|discriminate]. Qed.

(** C359: before release(), a block of [n] bytes that is freed is the one given by the next request of at most [n] bytes, and
    nothing is asked of the system heap *)
Theorem pa_reuse : forall l u b n rest n', run l user0 = Ok u -> gone u = false -> held u = (b, n) :: rest -> n' <= n ->
  exists u', run [Dealloc 0; Alloc false n'] u = Ok u' /\ held u' = (b, n') :: rest /\ mem (pool u') = mem (pool u).
Proof.
  intros l u b n rest n' E G H L. pose proof init_ui as V0. destruct (run_ok l 0 user0 ltac:(lia) V0) as (u' & f & E' & [P F] & F0 & _). rewrite E in E'. injection E' as <-.
  assert (D : destroyed (pool u) = false) by (apply (run_alive l 0 user0 u); auto; lia).
  rewrite G, H in P. cbn [map fst] in P. rewrite H in F. inversion F as [|? ? (m & M & LM) F']; subst. cbn [fst snd] in *.
  destruct P as [A R _ _]. cbn [length] in R. rewrite map_length in R.
  cbn [run exec]. rewrite H. cbn [nth_error rem]. unfold dealloc. rewrite M, D. cbn [obind]. unfold release. cbn [refs]. destruct (refs (pool u) - 1 =? 0) eqn:Z1; [lia|]. cbn [obind].
  cbn [pool held gone]. unfold alloc. cbn [free mem take]. rewrite M. destruct (n' <? 8) eqn:N8.
  - destruct (m <? 8) eqn:Q; [lia|]. cbn [obind]. eexists. split; [reflexivity|]. auto.
  - destruct (m <? n') eqn:Q; [lia|]. cbn [obind]. eexists. split; [reflexivity|]. auto.
Qed.
Example pa_reuse_ex : exists u, run [Alloc true 20; Alloc true 50; Dealloc 1; Alloc true 60] user0 = Ok u /\ gone u = false /\ exists b rest, held u = (b, 60) :: rest.
Proof. eexists. split; [vm_compute; reflexivity|]. split; [reflexivity|]. eexists. eexists. reflexivity. Qed.

(** C360: MultiPoolAlloc: whatever is allocated and freed, nothing undefined happens (so each block is returned to the pool it
    comes from), the blocks in use are all different, and each has room for what was asked for *)
Theorem mp_alloc : forall l, exists m, mrun l multi0 = Ok m /\ NoDup (map fst (inuse m)) /\
  (forall k b n, In (k, b, n) (inuse m) -> exists z,
     In (b, z) (match nth_error (pools m) k with Some s => mem s | None => std m end) /\ n <= z).
Proof.
  intros l. destruct (mrun_ok l multi0 multi0_mi) as (m & E & [ML MP MS MO]). exists m. split; [exact E|]. split.
  - assert (ND : forall k, NoDup (ids k (inuse m))).
    { intros k. destruct (nth_error (pools m) k) as [s|] eqn:EK.
      - destruct (MP k s EK) as (x & _ & [(A & B & _) _ _ _]). assert (Q : NoDup (free s ++ ids k (inuse m))) by (apply (Permutation_NoDup B); exact A).
        clear - Q. induction (free s); [exact Q|]. inversion Q; auto.
      - destruct (Nat.eq_dec k 7) as [->|N]; [apply (Permutation_NoDup (proj1 (proj2 MS))); apply MS|].
        destruct (ids k (inuse m)) as [|b t] eqn:I; [constructor|]. exfalso. assert (In b (ids k (inuse m))) as IB by (rewrite I; left; reflexivity).
        unfold ids in IB. apply in_map_iff in IB. destruct IB as ([[j d] c] & _ & IB). apply filter_In in IB. destruct IB as [IB T]. cbn in T. apply Nat.eqb_eq in T. subst j.
        destruct (MO k d c IB) as [O _]. pose proof (owner_le c). apply nth_error_None in EK. lia. }
    clear - ND. induction (inuse m) as [|[[k b] n] t IH]; cbn; [constructor|]. constructor.
    + intros I. apply in_map_iff in I. destruct I as ([[j d] c] & Q & I). cbn in Q. injection Q as -> ->. specialize (ND k). rewrite ids_cons, Nat.eqb_refl in ND. inversion ND; subst. apply in_ids in I. auto.
    + apply IH. intros j. specialize (ND j). rewrite ids_cons in ND. destruct (k =? j)%nat; [inversion ND; assumption|exact ND].
  - intros k b n I. destruct (MO k b n I) as [_ (z & Z1 & Z2)]. cbn [fst snd] in *. exists z. split; [|lia]. unfold heap_of in Z1. clear - Z1.
    destruct (nth_error (pools m) k) as [s|]; [generalize dependent (mem s)|generalize dependent (std m)]; intros h Z1;
    (induction h as [|[j c] t IH]; cbn in *; [discriminate|]; destruct (b =? j)%nat eqn:T; [apply Nat.eqb_eq in T; injection Z1 as ->; subst; auto|auto]).
Qed.
Example mp_alloc_ex : match mrun [MAlloc true 20; MAlloc true 2000; MAlloc true 17; MAlloc true 1024; MDealloc 3; MDealloc 2; MAlloc false 18] multi0 with
  Ok m => inuse m = [(1%nat, 0%nat, 18); (6%nat, 0%nat, 1024); (1%nat, 1%nat, 17)] | _ => False end.
Proof. vm_compute. auto. Qed.

Print Assumptions pa_alloc.
Print Assumptions pa_noleak.
Print Assumptions pa_fail_refuted.
Print Assumptions pa_reuse.
Print Assumptions mp_alloc.
