(** Properties of the counted pointer. *)
From Verif Require Import Common RefCnt_Spec RefCnt_Model RefCnt_Proof RefCntStep_Proof RefCntRun_Proof.

(** C29.  [view h] is the table of the pointer variables of the program and
    [legal ops] says that each operation is allowed in the state where it runs.
    Every such history runs without undefined behaviour, each variable refers
    to what the operations say, and at any moment the destroyed objects are
    exactly the ones no existing variable refers to, each destroyed once. *)
Theorem refcnt_destroys_unreferenced : forall ops, legal ops ->
  exists h l, rrun ops emptyHeap = Ok (h, l) /\
    phistory ops (length (objs h)) (view h) (destroyed h) l.
Proof. intros ops L. destruct (run_ok ops L) as (h & l & R & _ & P). eauto. Qed.
Print Assumptions refcnt_destroys_unreferenced.

(** C117 is false: assigning a variable to itself makes it null, and an object
    with no other reference is never destroyed *)
Theorem refcnt_self_assign_refuted : forall ops h l i x, legal ops -> rrun ops emptyHeap = Ok (h, l) ->
  pthere (view h) i -> pvalue (view h) i = Some x ->
  exists h', rstep (PAssign i i) h = Ok (h', None) /\
    pvalue (view h') i = None /\ destroyed h' = destroyed h /\
    ((forall k, k <> i -> pthere (view h) k -> pvalue (view h) k <> Some x) ->
     ~ referred (view h') x /\ ~ In x (destroyed h')).
Proof.
  intros ops h l i x L R T V. destruct (run_ok ops L) as (h0 & l0 & R0 & I & _).
  rewrite R in R0. injection R0 as <- <-. apply there_slot in T as (s & Hi & Li).
  rewrite (pvalue_view _ _ _ Hi) in V. eexists. split; [eapply self_assign; eauto|].
  pose proof (nth_len _ _ _ Hi) as Ls. split.
  { erewrite pvalue_view; [|cbn [setSlot slots]; apply nth_error_upd_eq; auto]. reflexivity. }
  split; [reflexivity|]. intros U. cbn [setSlot destroyed]. split.
  - intros (k & v & Hk & E & Rf). unfold view in Hk. cbn [setSlot slots] in Hk. rewrite nth_error_map in Hk.
    destruct (Nat.eq_dec k i) as [->|Ne].
    + rewrite nth_error_upd_eq in Hk by auto. injection Hk as <-. discriminate.
    + rewrite nth_error_upd_ne in Hk by auto. destruct (nth_error (slots h) k) as [sk|] eqn:Ek; [|discriminate].
      injection Hk as <-. apply (U k Ne).
      * exists (vw sk). unfold view. rewrite nth_error_map, Ek. auto.
      * rewrite (pvalue_view _ _ _ Ek). exact Rf.
  - intros Hd. apply (iD _ _ I) in Hd as [c Hc].
    destruct (slot_alive h [] i s x I Hi Li V) as [c' Hc']. congruence.
Qed.
Print Assumptions refcnt_self_assign_refuted.

(** C118 is false: replacing the only pointer to an object by a pointer stored
    in that object (the step [p = p->next] of a list) is undefined, copying or
    moving *)
Theorem refcnt_assign_member_refuted : forall ops h l i j x, legal ops -> rrun ops emptyHeap = Ok (h, l) ->
  pthere (view h) i -> pvalue (view h) i = Some x ->
  (forall k, k <> i -> pthere (view h) k -> pvalue (view h) k <> Some x) ->
  i <> j -> pthere (view h) j ->
  (exists v, nth_error (view h) j = Some v /\ pInside v = Some x) ->
  rstep (PAssign i j) h = Undef /\ rstep (PMove i j) h = Undef.
Proof.
  intros ops h l i j x L R Ti V U N Tj (v & Hv & W). destruct (run_ok ops L) as (h0 & l0 & R0 & I & _).
  rewrite R in R0. injection R0 as <- <-. apply there_slot in Ti as (s & Hi & Li).
  apply there_slot in Tj as (sj & Hj & Lj). rewrite (pvalue_view _ _ _ Hi) in V.
  unfold view in Hv. rewrite nth_error_map, Hj in Hv. injection Hv as <-. cbn in W.
  eapply assign_member; eauto.
  pose proof (targets_in _ _ _ _ Hi Li V) as G.
  destruct (Nat.le_gt_cases 2 (cnt (targets (slots h)) x)) as [G2|]; [|lia].
  apply (two_refs _ _ _ _ Hi Li V) in G2 as (k & sk & Nk & Hk & Lk & Pk). exfalso.
  apply (U k Nk).
  - exists (vw sk). unfold view. rewrite nth_error_map, Hk. auto.
  - rewrite (pvalue_view _ _ _ Hk). exact Pk.
Qed.
Print Assumptions refcnt_assign_member_refuted.

(** C119 is false: create on a variable whose object is shared destroys the
    object although another variable still refers to it *)
Theorem refcnt_create_refuted : forall ops h l i k x m, legal ops -> rrun ops emptyHeap = Ok (h, l) ->
  pthere (view h) i -> pvalue (view h) i = Some x ->
  k <> i -> pthere (view h) k -> pvalue (view h) k = Some x ->
  (forall q v, nth_error (view h) q = Some v -> pExists v = true -> pInside v <> Some x) ->
  exists h', rstep (PCreate i m) h = Ok (h', None) /\ In x (destroyed h') /\
    pthere (view h') k /\ pvalue (view h') k = Some x.
Proof.
  intros ops h l i k x m L R Ti V N Tk Vk M. destruct (run_ok ops L) as (h0 & l0 & R0 & I & _).
  rewrite R in R0. injection R0 as <- <-. apply there_slot in Ti as (s & Hi & Li).
  apply there_slot in Tk as (sk & Hk & Lk). rewrite (pvalue_view _ _ _ Hi) in V.
  rewrite (pvalue_view _ _ _ Hk) in Vk.
  destruct (create_shared h i s x m k sk I Hi Li V) as (h' & Q & D & E); auto.
  { intros q sq Hq Lq. apply (M q (vw sq)); auto. unfold view. rewrite nth_error_map, Hq. reflexivity. }
  exists h'. split; auto. split; auto. split.
  - exists (vw sk). unfold view. rewrite nth_error_map, E. auto.
  - rewrite (pvalue_view _ _ _ E). exact Vk.
Qed.
Print Assumptions refcnt_create_refuted.

(** ** Non-vacuity *)
Fixpoint legalb (ops : list pop) (h : heap) : Prop :=
  match ops with
  | [] => True
  | op :: ops' => pallowed op (view h) /\
      match rstep op h with Ok (h', _) => legalb ops' h' | _ => False end
  end.
Lemma legalb_legal : forall ops h pre op post h' l, legalb ops h -> ops = pre ++ op :: post ->
  rrun pre h = Ok (h', l) -> pallowed op (view h').
Proof.
  induction ops as [|o ops IH]; intros h pre op post h' l L E R.
  - destruct pre; discriminate.
  - destruct L as [A L]. destruct pre as [|o' pre]; cbn in E; injection E as <- E.
    + cbn in R. injection R as <- _. auto.
    + cbn [rrun] in R. destruct (rstep o h) as [[h1 a]| | |]; try destruct L. cbn [obind] in R.
      apply obind_ok in R as ([h2 l2] & R & Q). injection Q as <- _. eapply IH; eauto.
Qed.

Ltac slot_at v := exists v; split; [reflexivity|]; repeat split; reflexivity.

(** a list of two nodes: node 0 has the member 0 that refers to node 1 (member 2
    is in node 1); the outer pointers are 1, 3 and a copy 4.  Dropping the
    pointers destroys both nodes, first node 0, then node 1. *)
Definition twoNodes : list pop := [PNew 1; PNew 1; PAssign 0 3; PCopy 1; PShared 1; PClear 3].
Example refcnt_legal : legal (twoNodes ++ [PDrop 1; PMove 3 4; PShared 3; PClear 3]).
Proof.
  intros pre op post h l E R. eapply legalb_legal; [|exact E|exact R].
  unfold twoNodes. cbn [app legalb pallowed].
  split; [exact Logic.I|]. cbn. split; [exact Logic.I|]. cbn. split.
  { split; [discriminate|]. split. { slot_at (PV true (Some 0) None). }
    split. { slot_at (PV true None (Some 1)). } right. left. reflexivity. }
  split. { slot_at (PV true None (Some 0)). }
  split. { slot_at (PV true None (Some 0)). }
  split. { slot_at (PV true None (Some 1)). }
  split. { slot_at (PV true None (Some 0)). }
  split.
  { split. { slot_at (PV true None None). } split. { slot_at (PV true None (Some 0)). }
    right. right. left. reflexivity. }
  split. { slot_at (PV true None (Some 0)). }
  split. { slot_at (PV true None (Some 0)). }
  exact Logic.I.
Qed.
Example refcnt_run_ex :
  match rrun (twoNodes ++ [PDrop 1; PMove 3 4; PShared 3; PClear 3]) emptyHeap with
  | Ok (h, l) => destroyed h = [0; 1] /\ l = [None; None; None; None; Some true; None; None; None; Some false; None]
  | _ => False
  end.
Proof. vm_compute. auto. Qed.

(** the defects on the same list: here 1 and 4 refer to node 0 *)
Example refcnt_bugs_ex :
  match rrun (twoNodes ++ [PDrop 4]) emptyHeap with
  | Ok (h, _) =>
      pvalue (view h) 1 = Some 0 /\ rstep (PAssign 1 0) h = Undef /\ rstep (PMove 1 0) h = Undef /\
      match rstep (PAssign 1 1) h with Ok (h', _) => pvalue (view h') 1 = None /\ destroyed h' = [] | _ => False end
  | _ => False
  end.
Proof. vm_compute. auto 8. Qed.
Example refcnt_create_ex :
  match rrun [PNew 0; PCopy 0; PCreate 0 0] emptyHeap with
  | Ok (h, _) => destroyed h = [0] /\ pvalue (view h) 1 = Some 0
  | _ => False
  end.
Proof. vm_compute. auto. Qed.
