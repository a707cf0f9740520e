(** Theorems about the B-tree (C24, C113-C116). *)
From Verif Require Import Common Map_Spec BTree_Spec BTree_Model BTree_Proof BTreeRun_Proof.
Local Open Scope nat_scope.

(** One operation of a history on the modelled tree.  SFrom is BeginFrom and
    the usual loop of More and Next, SAll the same loop after Reset. *)
Section Run.
Context {T : Type}.
Variable less : T -> T -> bool.
Variable order : nat.

Definition bstep (op : setop) (t : btree T) : outcome (btree T * setans) :=
  match op with
  | SAdd k => let! (t, b) := badd less order t k in Ok (t, SFlag b)
  | SFind k => let! r := bfind less t k in Ok (t, SKey r)
  | SSize => Ok (t, SNum (bsize t))
  | SItem r => let! x := itemWithRank t r in Ok (t, SKey x)
  | SRankOf k => let! z := rankOf less t k in Ok (t, SNum z)
  | SAll => let! l := contents t in Ok (t, SKeys l)
  | SFrom k => let! it := beginFrom less t k in let! l := bwalk (Z.to_nat (bsize t)) t it in Ok (t, SKeys l)
  | SClear => Ok (None, SDone)
  end.

Fixpoint brun (os : list setop) (t : btree T) : outcome (btree T * list setans) :=
  match os with
  | [] => Ok (t, [])
  | op :: os' =>
      let! (t, a) := bstep op t in
      let! (t, r) := brun os' t in Ok (t, a :: r)
  end.

(** all leaves at depth [h], every node but the root holds from order-1 to
    2*order-1 keys and an inner node one child more than keys *)
Inductive shape : nat -> nat -> bnode T -> Prop :=
| ShapeLeaf lo sz items : lo <= length items <= 2 * order - 1 -> shape 0 lo (BN true sz items [])
| ShapeInner h lo sz items subs : lo <= length items <= 2 * order - 1 ->
    length subs = S (length items) -> Forall (shape h (order - 1)) subs ->
    shape (S h) lo (BN false sz items subs).

Definition treeShape (t : btree T) : Prop :=
  match t with None => True | Some n => exists h, shape h (if h =? 0 then 0 else 1) n end.
End Run.

Lemma wf_shape_ok {T} o h : forall lo (n : bnode T), wf o h lo n -> shape o h lo n.
Proof.
  induction h as [|h IH]; intros lo [l sz is ss]; cbn [wf].
  - intros (B&_&->&->). constructor; auto.
  - intros (B&_&->&L&F). constructor; auto. eapply Forall_impl; [|exact F]. apply IH.
Qed.

Lemma bstep_ok {T} (less : T -> T -> bool) o (SW : strict_weak less) (Ho : 2 <= o) op os t l :
  Inv less o t l -> freshOps less limit (op :: os) l ->
  exists t', bstep less o op t = Ok (t', snd (setSpec less op l)) /\ Inv less o t' (fst (setSpec less op l)).
Proof.
  intros I [F _]. destruct op as [k|k| |r|k| |k|]; cbn [bstep setSpec fst snd].
  - destruct F as [M L]. rewrite M. destruct (add_ok less SW o Ho t l k I M L) as (t'&->&I').
    cbn [obind]. eauto.
  - rewrite (find_ok less SW o Ho t l k I). cbn [obind]. eauto.
  - rewrite (inv_size less o t l I). eauto.
  - rewrite (item_ok less o Ho t l r I). cbn [obind]. eauto.
  - rewrite (rankOf_ok less SW o Ho t l k I). cbn [obind]. eauto.
  - rewrite (contents_ok less o Ho t l I). cbn [obind]. eauto.
  - destruct (from_ok less SW o Ho t l k I F) as (it&->&Hw). cbn [obind].
    rewrite Hw by (rewrite (inv_size less o t l I); lia). cbn [obind]. eauto.
  - eexists. split; [reflexivity|]. reflexivity.
Qed.

Lemma brun_ok {T} (less : T -> T -> bool) o (SW : strict_weak less) (Ho : 2 <= o) : forall ops t l,
  Inv less o t l -> freshOps less limit ops l ->
  exists t', brun less o ops t = Ok (t', snd (setRun less ops l)) /\ Inv less o t' (fst (setRun less ops l)).
Proof.
  induction ops as [|op ops IH]; intros t l I F; cbn [brun setRun]; [simpl; eauto|].
  destruct (bstep_ok less o SW Ho op ops t l I F) as (t1&->&I1). destruct F as [_ F].
  destruct (setSpec less op l) as [l1 a]. cbn [fst snd obind] in *.
  destruct (IH t1 l1 I1 F) as (t2&->&I2). destruct (setRun less ops l1) as [l2 r]. cbn [fst snd obind] in *. eauto.
Qed.

(** C24: a B-tree of any order answers every history of additions of new keys,
    searches, sizes, ranks and iterations like the sorted sequence of its keys,
    and stays balanced. *)
Theorem btree_refines_set {T} (less : T -> T -> bool) (order : nat) (ops : list setop) :
  strict_weak less -> 2 <= order -> freshOps less (2 ^ 50) ops [] ->
  exists t, brun less order ops None = Ok (t, snd (setRun less ops [])) /\
    contents t = Ok (fst (setRun less ops [])) /\ treeShape order t.
Proof.
  intros SW Ho. change (2 ^ 50)%N with limit.
  intros F. destruct (brun_ok less order SW Ho ops None [] eq_refl F) as (t&E&I). exists t. split; auto.
  split; [eapply contents_ok; eauto|].
  destruct t as [n|]; [|exact Logic.I]. destruct I as (_&_&h&W&_). exists h. apply wf_shape_ok; auto.
Qed.
Print Assumptions btree_refines_set.

(** the hypotheses hold for a history that splits nodes at two levels *)
Definition someOps : list (@setop Z) :=
  map SAdd [50; 20; 80; 10; 30; 70; 90; 5; 15; 25; 35; 65; 75; 85; 95; 1; 2; 3; 4]%Z ++
  [SSize; SItem 0; SItem 7; SItem 100; SRankOf 30; SRankOf 31; SFind 35; SFind 36; SAll; SFrom 26; SFrom 99; SClear; SSize]%Z.

Lemma zltb_sw : strict_weak Z.ltb.
Proof. split; intros; lia. Qed.

Example btree_fresh_example : freshOps Z.ltb (2 ^ 50) someOps [].
Proof. vm_compute. repeat split; reflexivity. Qed.

Example btree_run_example :
  (let! (t, r) := brun Z.ltb 2 someOps None in Ok (skipn 19 r)) =
  Ok [SNum 19; SKey (Some 1); SKey (Some 20); SKey (Some 95); SNum 9; SNum 10; SKey (Some 35); SKey None;
      SKeys [1; 2; 3; 4; 5; 10; 15; 20; 25; 30; 35; 50; 65; 70; 75; 80; 85; 90; 95];
      SKeys [30; 35; 50; 65; 70; 75; 80; 85; 90; 95]; SKeys []; SDone; SNum 0]%Z.
Proof. vm_compute. reflexivity. Qed.

(** C113: adding a key that is in the tree should be refused.  It is accepted,
    and the key is then there twice, when the key is the middle one of a full
    node that is not the root: the code splits the node and goes on to the
    right of the key it has just moved up. *)
Definition upto (n : nat) : list Z := map Z.of_nat (seq 1 n).

Definition addedTwice (order : nat) (n : nat) (k : Z) : Prop :=
  exists t t', brun Z.ltb order (map SAdd (upto n)) None = Ok (t, map (fun _ => SFlag true) (upto n)) /\
    bfind Z.ltb t k = Ok (Some k) /\
    badd Z.ltb order t k = Ok (t', true) /\
    bsize t' = (bsize t + 1)%Z /\
    exists a b, contents t' = Ok (a ++ k :: k :: b).

Theorem btree_add_again_refuted : addedTwice 2 5 4 /\ addedTwice 40 119 80.
Proof.
  split; unfold addedTwice.
  - eexists _, _. split; [vm_compute; reflexivity|]. split; [vm_compute; reflexivity|].
    split; [vm_compute; reflexivity|]. split; [vm_compute; reflexivity|].
    exists [1; 2; 3]%Z, [5]%Z. vm_compute. reflexivity.
  - eexists _, _. split; [vm_compute; reflexivity|]. split; [vm_compute; reflexivity|].
    split; [vm_compute; reflexivity|]. split; [vm_compute; reflexivity|].
    exists (upto 79), (map Z.of_nat (seq 81 39)). vm_compute. reflexivity.
Qed.
Print Assumptions btree_add_again_refuted.

(** what holds: in a tree small enough for one node the key is refused *)
Theorem btree_add_again_small {T} (less : T -> T -> bool) (order : nat) (ops : list setop) t r k :
  strict_weak less -> 2 <= order -> freshOps less (2 ^ 50) ops [] ->
  brun less order ops None = Ok (t, r) ->
  let keys := fst (setRun less ops []) in
  length keys <= 2 * order - 2 -> member less k keys = true ->
  badd less order t k = Ok (t, false).
Proof.
  intros SW Ho F E keys L M. subst keys.
  destruct (brun_ok less order SW Ho ops None [] eq_refl F) as (t0&E0&I). rewrite E in E0. injection E0 as <- _.
  eapply add_again_small; eauto.
Qed.
Print Assumptions btree_add_again_small.

Example btree_add_again_small_example :
  (let! (t, _) := brun Z.ltb 3 (map SAdd [3; 1; 2]%Z) None in let! (_, b) := badd Z.ltb 3 t 2%Z in Ok b) = Ok false.
Proof. reflexivity. Qed.

(** C114: Remove should take the key out and nothing else.
    - removing the only key leaves a tree that says it has one key;
    - removing a key can read through a null pointer;
    - removing a key that is in an inner node removes its neighbour instead. *)
Theorem btree_remove_refuted :
  (forall (T : Type) (less : T -> T -> bool) (x : T), strict_weak less ->
     (let! (t, _) := badd less 2 None x in let! (t, b) := bremove less 2 t x in Ok (b, bsize t)) = Ok (true, 1%Z)) /\
  (exists t r, brun Z.ltb 2 (map SAdd [1; 2; 3; 4]%Z) None = Ok (t, r) /\ bfind Z.ltb t 1%Z = Ok (Some 1%Z) /\
     bremove Z.ltb 2 t 1%Z = Undef) /\
  (exists t r t', brun Z.ltb 2 (map SAdd [1; 2; 3; 4]%Z) None = Ok (t, r) /\
     bremove Z.ltb 2 t 2%Z = Ok (t', true) /\ contents t' = Ok [1; 2; 4]%Z).
Proof.
  split; [|split].
  - intros T less x SW. cbn. rewrite !(sw_irrefl _ SW). cbn. rewrite !(sw_irrefl _ SW). cbn. reflexivity.
  - eexists _, _. split; [vm_compute; reflexivity|]. split; vm_compute; reflexivity.
  - eexists _, _, _. split; [vm_compute; reflexivity|]. split; vm_compute; reflexivity.
Qed.
Print Assumptions btree_remove_refuted.

(** what holds: in a tree small enough for one node, with at least two keys *)
Theorem btree_remove_small {T} (less : T -> T -> bool) (order : nat) (ops : list setop) t r k :
  strict_weak less -> 2 <= order -> freshOps less (2 ^ 50) ops [] ->
  brun less order ops None = Ok (t, r) ->
  let keys := fst (setRun less ops []) in
  2 <= length keys <= 2 * order - 2 ->
  exists t', bremove less order t k = Ok (t', member less k keys) /\
    contents t' = Ok (filter (fun x => negb (sameKey less x k)) keys) /\
    bsize t' = Z.of_nat (length (filter (fun x => negb (sameKey less x k)) keys)).
Proof.
  intros SW Ho F E keys L. subst keys.
  destruct (brun_ok less order SW Ho ops None [] eq_refl F) as (t0&E0&I). rewrite E in E0. injection E0 as <- _.
  destruct (remove_small less SW order Ho t _ k I L) as (t'&Er&I'). exists t'. split; auto.
  split; [eapply contents_ok; eauto|eapply inv_size; eauto].
Qed.
Print Assumptions btree_remove_small.

Example btree_remove_small_example :
  (let! (t, _) := brun Z.ltb 4 (map SAdd [5; 3; 1; 4; 2]%Z) None in
   let! (t, b) := bremove Z.ltb 4 t 3%Z in let! l := contents t in Ok (b, l)) = Ok (true, [1; 2; 4; 5]%Z).
Proof. reflexivity. Qed.

(** C115: an iteration that starts at a key of the tree.  When the key is in an
    inner node BeginFrom reads through a null pointer (default order: the
    fortieth of eighty keys). *)
Theorem btree_begin_from_refuted :
  (exists t r, brun Z.ltb 2 (map SAdd (upto 4)) None = Ok (t, r) /\ bfind Z.ltb t 2%Z = Ok (Some 2%Z) /\
     beginFrom Z.ltb t 2%Z = Undef) /\
  (exists t r, brun Z.ltb 40 (map SAdd (upto 80)) None = Ok (t, r) /\ bfind Z.ltb t 40%Z = Ok (Some 40%Z) /\
     beginFrom Z.ltb t 40%Z = Undef).
Proof.
  split; eexists _, _; (split; [vm_compute; reflexivity|]; split; vm_compute; reflexivity).
Qed.
Print Assumptions btree_begin_from_refuted.

(** C116: Previous should step back.  After an iterator has reached a key of an
    inner node (the second of four keys), Previous reads through a null
    pointer. *)
Fixpoint nexts {T} (n : nat) (t : btree T) (it : biter) : outcome (list (option T) * biter) :=
  match n with
  | O => Ok ([], it)
  | S n' => let! (x, it) := bnext t it in let! (l, it) := nexts n' t it in Ok (x :: l, it)
  end.

Theorem btree_previous_refuted :
  exists t r it it', brun Z.ltb 2 (map SAdd (upto 4)) None = Ok (t, r) /\ breset t = Some it /\
    nexts 2 t it = Ok ([Some 1; Some 2]%Z, it') /\ bprev t it' = Undef.
Proof.
  eexists _, _, _, _. split; [vm_compute; reflexivity|]. split; [reflexivity|].
  split; vm_compute; reflexivity.
Qed.
Print Assumptions btree_previous_refuted.
