(** C28, C127, C128: the cluster allocator *)
From Coq Require Import ZArith Permutation.
From Verif Require Import Common ClusterAlloc_Spec ClusterAlloc_Model ClusterAlloc_Proof ClusterInv_Proof ClusterRun_Proof ClusterAll_Proof.
Local Open Scope Z_scope.

(** C28: in every history every answer is right (new blocks do not meet blocks
    in use, clear reports exactly what was not given back), blocks in use lie in
    memory the allocator holds, behind the cluster's header, and the memory
    obtained is what is held and what was given back. *)
Theorem clusteralloc_history sz0 ops : 1 <= sz0 <= 254 -> legal sz0 ops emptyAlloc [] -> Forall exact ops ->
  exists s l live, carun sz0 ops emptyAlloc [] = Ok (s, l, live) /\ chistory ops l live /\
    (forall p n o, In (p, n, o) live -> exists b k, In (b, k) (areas sz0 s) /\ b + sz0 <= p /\ p + n <= b + k) /\
    Permutation (sObtained s) (areas sz0 s ++ sReturned s).
Proof.
  intros Sz L Ex.
  destruct (carun_ok sz0 Sz ops _ _ _ _ [] [] (Inv_empty sz0) ch_nil L Ex) as (s & l & live & F & G & Q & H & I).
  exists s, l, live. split; auto. split; auto. split; [|apply I]. intros p n o Hp.
  destruct (ilB _ _ _ _ (ivL _ _ _ _ _ I) _ _ _ Hp) as (Ln & c & i & Hc & Bc & Sc & -> & R & _).
  pose proof (bksize_ok n Ln) as B. exists (cBase c), (use sz0 c). split; [apply in_map_iff; exists c; auto|].
  destruct (block_in sz0 ltac:(lia) c i ltac:(lia) R) as [_ X]. split; [|lia].
  pose proof (hdr_ok sz0 ltac:(lia)). unfold mapIndex. nia.
Qed.
Print Assumptions clusteralloc_history.

(** after everything was given back clear reports nothing, and all memory is
    back *)
Theorem clusteralloc_clear sz0 ops : 1 <= sz0 <= 254 -> legal sz0 (ops ++ [CClear]) emptyAlloc [] -> Forall exact ops ->
  exists s l live, carun sz0 (ops ++ [CClear]) emptyAlloc [] = Ok (s, l, live) /\ Permutation (sObtained s) (sReturned s).
Proof.
  intros Sz L Ex.
  assert (X : forall ops F G s live, Inv sz0 F G s live -> legal sz0 (ops ++ [CClear]) s live -> Forall exact ops ->
    exists s' l live', carun sz0 (ops ++ [CClear]) s live = Ok (s', l, live') /\ Permutation (sObtained s') (sReturned s')).
  { clear ops L Ex. induction ops as [|op ops IH]; intros F G s live I L Ex; cbn [app carun].
    - cbn [castep]. destruct (clear_ok sz0 Sz F G s live I) as (l & s' & F' & G' & Q & P & I' & E). rewrite Q. cbn [obind].
      eexists _, _, _. split; [reflexivity|]. pose proof (ivA _ _ _ _ _ I') as A. unfold InvA, areas in A. rewrite E in A. exact A.
    - cbn [app legal] in L. destruct L as (A & B & C). apply Forall_cons_iff in Ex as [Ex1 Ex2].
      destruct (castep_ok sz0 Sz F G s live op I) as (s1 & a & F1 & G1 & Q & An & I1); auto. { cbn [legal]. auto. }
      rewrite Q. cbn [obind]. destruct (IH F1 G1 s1 _ I1 (C _ _ Q) Ex2) as (s' & l & live' & Q' & P). rewrite Q'. cbn [obind]. eauto. }
  eapply X; eauto. apply Inv_empty.
Qed.
Print Assumptions clusteralloc_clear.

(** a decision procedure for histories, for the examples *)
Definition apartb (p n q m : Z) : bool := (p + n <=? q) || (q + m <=? p).
Definition beqb (x y : block) : bool :=
  match x, y with ((p, n), o), ((q, m), r) => (p =? q) && (n =? m) && (o =? r) end.
Definition allowedb (op : cop) (live : list block) : bool :=
  match op with
  | CAlloc sz _ => 1 <=? sz
  | CFree p sz => existsb (fun b => match b with ((q, m), _) => (p =? q) && (sz =? m) end) live
  | CFreeVia o p sz => existsb (beqb (p, sz, o)) live
  | CWrite p v => existsb (Z.eqb p) (map addr live) && (0 <=? v) && (v <? 256)
  | CClear => true
  end.
Fixpoint legalb (sz0 : Z) (ops : list cop) (s : cst) (live : list block) : bool :=
  match ops with
  | [] => true
  | op :: ops' =>
      allowedb op live &&
      match op with
      | CAlloc sz a => forallb (fun r => apartb a (wants sz0 sz s) (fst r) (snd r)) (areas sz0 s)
      | _ => true
      end &&
      match castep sz0 op s with
      | Ok (s', a) => legalb sz0 ops' s' (liveAfter op a live)
      | _ => true
      end
  end.
Lemma legalb_ok sz0 : forall ops s live, legalb sz0 ops s live = true -> legal sz0 ops s live.
Proof.
  induction ops as [|op ops IH]; intros s live H; cbn [legalb legal] in *; auto.
  apply andb_true_iff in H as [H H3]. apply andb_true_iff in H as [H1 H2]. split; [|split].
  - destruct op as [sz a|p sz|o p sz|p v|]; cbn [allowedb callowed] in *; auto.
    + apply Z.leb_le; auto.
    + apply existsb_exists in H1 as ([[q m] o] & Hb & E). apply andb_true_iff in E as [E1 E2]. apply Z.eqb_eq in E1, E2. subst.
      exists o; auto.
    + apply existsb_exists in H1 as ([[q m] o'] & Hb & E). cbn [beqb] in E. apply andb_true_iff in E as [E E3].
      apply andb_true_iff in E as [E1 E2]. apply Z.eqb_eq in E1, E2, E3. subst. auto.
    + apply andb_true_iff in H1 as [H1 H4]. apply andb_true_iff in H1 as [H1 H5]. apply existsb_exists in H1 as (q & Hq & E).
      apply Z.eqb_eq in E. subst q. apply Z.leb_le in H5. apply Z.ltb_lt in H4. auto.
  - destruct op; auto. intros b n Hb. rewrite forallb_forall in H2. apply H2 in Hb. cbn [fst snd] in Hb.
    unfold apartb, apart in *. apply orb_true_iff in Hb as [Hb|Hb]; apply Z.leb_le in Hb; auto.
  - intros s' a E. rewrite E in H3. auto.
Qed.

(** a history with three cluster sizes, writes, frees on both ways, and a leak *)
Definition someOps : list cop :=
  [CAlloc 16 1000; CAlloc 16 0; CAlloc 16 0; CAlloc 3 5000; CWrite 1072 200; CFree 1072 16; CAlloc 16 0; CAlloc 16 0; CAlloc 16 0;
   CAlloc 16 0; CAlloc 16 2000; CFreeVia 1000 1104 16; CFree 1072 16; CFree 1088 16; CFree 1120 16; CFree 1136 16; CFree 2072 16;
   CFree 1152 16; CAlloc 16 3000; CClear].
Example someOps_legal : legal 72 someOps emptyAlloc [] /\ Forall exact someOps.
Proof. split; [apply legalb_ok; vm_compute; reflexivity|repeat constructor]. Qed.
Example someOps_run : exists s l, carun 72 someOps emptyAlloc [] = Ok (s, l, []) /\
  nth_error l 10 = Some (ABlock 2072 2000) /\ nth_error l 19 = Some (ALeaks [5072; 1152]) /\
  sReturned s = [(2000, 184); (5000, 148); (1000, 168)].
Proof. eexists _, _. vm_compute. repeat split; reflexivity. Qed.

(** C127 is refuted: a block of 12 bytes given back to the owner the allocation
    reported is put to the free list at the wrong place, and a block in use is
    handed out again.  [sz0] covers every sizeof(AllocCluster) from 56 up to the
    limit of this model. *)
Definition twelve : list cop :=
  [CAlloc 12 1000; CAlloc 12 0; CAlloc 12 0; CAlloc 12 0; CAlloc 12 0].
Definition twiceOps (sz0 : Z) : list cop :=
  twelve ++ [CFreeVia 1000 (1000 + hdr sz0 + 48) 12; CAlloc 12 0].
Definition twiceb (sz0 : Z) : bool :=
  legalb sz0 (twiceOps sz0) emptyAlloc [] &&
  match carun sz0 (twiceOps sz0) emptyAlloc [] with
  | Ok (_, _, ((p, _), _) :: live) => existsb (Z.eqb p) (map addr live)
  | _ => false
  end.
Theorem clusteralloc_owner_free_refuted sz0 : 56 <= sz0 <= 254 ->
  exists ops s l live, legal sz0 ops emptyAlloc [] /\ carun sz0 ops emptyAlloc [] = Ok (s, l, live) /\ ~ NoDup (map addr live).
Proof.
  intros R.
  assert (A : forallb (fun k => twiceb (56 + Z.of_nat k)) (seq 0 199) = true) by (vm_compute; reflexivity).
  rewrite forallb_forall in A. specialize (A (Z.to_nat (sz0 - 56)) ltac:(apply in_seq; lia)). cbn beta in A.
  replace (56 + Z.of_nat (Z.to_nat (sz0 - 56))) with sz0 in A by lia.
  unfold twiceb in A. apply andb_true_iff in A as [A1 A2]. exists (twiceOps sz0).
  destruct (carun sz0 (twiceOps sz0) emptyAlloc []) as [[[s l] live]| | |]; try discriminate.
  destruct live as [|[[p n] o] live]; [discriminate|]. exists s, l, ((p, n, o) :: live). split; [apply legalb_ok; auto|].
  split; auto. cbn [map addr fst]. intros N. apply NoDup_cons_iff in N as [N _]. apply N.
  apply existsb_exists in A2 as (q & Hq & E). apply Z.eqb_eq in E. subst q. auto.
Qed.
Print Assumptions clusteralloc_owner_free_refuted.

(** C128 is refuted: a request for no bytes divides by zero *)
Theorem clusteralloc_zero_refuted sz0 s a : findM 0 (sMultis s) = None -> clusterAlloc sz0 0 a s = Undef.
Proof. intros H. unfold clusterAlloc. change (objSize2bksize 0) with 0. rewrite H. reflexivity. Qed.
Print Assumptions clusteralloc_zero_refuted.
Example zero_reachable : findM 0 (sMultis emptyAlloc) = None.
Proof. reflexivity. Qed.
