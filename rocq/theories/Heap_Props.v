(** C21, C22, C60, C61: heap sort, heap and priority queue. *)
From Coq Require Import Sorting.Permutation Sorting.Sorted.
From Verif Require Import Common Heap_Model Heap_Proof.

(** what C++ demands of a comparison: a strict weak ordering *)
Definition strict_weak {A} (isLess : A -> A -> bool) : Prop :=
  (forall a b, isLess a b = true -> isLess b a = false) /\
  (forall a b c, isLess b a = false -> isLess c b = false -> isLess c a = false).

Theorem C21_sort : forall A (isLess : A -> A -> bool), strict_weak isLess -> forall l,
  exists l', sort isLess l = Ok l' /\ Permutation l l' /\ StronglySorted (fun a b => isLess b a = false) l'.
Proof.
  intros A isLess [H1 H2] l. destruct l as [|d l].
  - exists []. split; [reflexivity|]. split; constructor.
  - exact (sort_ok isLess d H1 H2 (d :: l)).
Qed.
Print Assumptions C21_sort.
Example C21_example : strict_weak Nat.ltb /\ sort Nat.ltb [3; 1; 4; 1; 5; 9; 2; 6; 5; 3] = Ok [1; 1; 2; 3; 3; 4; 5; 5; 6; 9].
Proof.
  split; [|reflexivity]. split; intros *; rewrite ?Nat.ltb_lt, ?Nat.ltb_ge; lia.
Qed.

(** C60: a heap grown by push and shrunk by pop from any array.  [reach l h]: h is reached
    from the array l. *)
Inductive reach {A} (isLess : A -> A -> bool) (l : list A) : heap A -> Prop :=
| reach_new : reach isLess l (mkHeap l 0)
| reach_push b h h' : reach isLess l h -> push isLess h = Ok (b, h') -> reach isLess l h'
| reach_pop b h h' : reach isLess l h -> pop isLess h = Ok (b, h') -> reach isLess l h'.

(** Every push and pop succeeds while there is something to add or take; the array stays a
    permutation of itself; the top is a largest item of the heap, and pop puts it right
    behind the heap. *)
Theorem C60_heap : forall A (isLess : A -> A -> bool), strict_weak isLess -> forall l h, reach isLess l h ->
  Permutation l (arr h) /\ hsize h <= length l /\
  (hsize h < length l -> exists h', push isLess h = Ok (true, h') /\ hsize h' = hsize h + 1 /\
     Permutation (firstn (hsize h + 1) (arr h)) (firstn (hsize h') (arr h'))) /\
  (0 < hsize h -> exists t h', top h = Ok t /\ Forall (fun x => isLess t x = false) (firstn (hsize h) (arr h)) /\
     pop isLess h = Ok (true, h') /\ hsize h = hsize h' + 1 /\ nth_error (arr h') (hsize h') = Some t /\
     Permutation (firstn (hsize h) (arr h)) (t :: firstn (hsize h') (arr h'))).
Proof.
  intros A isLess [H1 H2] l h R. destruct l as [|d l0].
  { assert (Z : h = mkHeap [] 0) by (induction R as [|b h h' _ IH E|b h h' _ IH E]; subst; auto; injection E; auto).
    subst h. cbn. split; [constructor|]. repeat split; intros; lia. }
  set (l := d :: l0) in *.
  assert (I : isHeap isLess d h /\ Permutation l (arr h)).
  { induction R as [|b h h' _ [IH P] E|b h h' _ [IH P] E].
    - split; [|reflexivity]. split; cbn; [lia|]. intros i; lia.
    - destruct (Nat.lt_ge_cases (hsize h) (length (arr h))) as [L|L].
      + destruct (push_ok isLess d H1 H2 h IH L) as (h2 & E2 & I2 & _ & R2). rewrite E2 in E. injection E as _ <-.
        split; auto. eapply Permutation_trans; [exact P|apply (ro_perm _ _ _ _ R2)].
      + unfold push in E. destruct (Nat.ltb_spec (hsize h) (length (arr h))); [lia|]. injection E as _ <-. auto.
    - destruct (Nat.lt_ge_cases 0 (hsize h)) as [L|L].
      + destruct (pop_ok isLess d H1 H2 h IH L) as (h2 & E2 & I2 & _ & R2 & _). rewrite E2 in E. injection E as _ <-.
        split; auto. eapply Permutation_trans; [exact P|apply (ro_perm _ _ _ _ R2)].
      + unfold pop in E. destruct (Nat.ltb_spec 0 (hsize h)); [lia|]. injection E as _ <-. auto. }
  destruct I as [I P]. pose proof (Permutation_length P) as Len. split; [exact P|]. pose proof I as [Il Io]. split; [lia|]. split.
  - intros L. destruct (push_ok isLess d H1 H2 h I) as (h' & E & I' & S' & R'); [lia|]. exists h'. split; [exact E|]. split; [exact S'|].
    rewrite S'. apply (reorder_firstn d _ _ _ R').
  - intros L. destruct (pop_ok isLess d H1 H2 h I L) as (h' & E & I' & S' & R' & T').
    pose proof (reorder_length d _ _ _ R') as L2.
    exists (nth 0 (arr h) d), h'. split; [unfold top; apply get_ok; lia|]. split.
    + apply Forall_forall. intros x Hx. apply (In_nth _ _ d) in Hx as (i & Hi & <-). rewrite firstn_length in Hi.
      rewrite nth_firstn_lt by lia. apply (top_max isLess d H1 H2 (hsize h) (arr h) Io). lia.
    + split; [exact E|]. split; [lia|]. split; [rewrite (nth_error_nth' _ d) by lia; congruence|].
      eapply Permutation_trans; [apply (reorder_firstn d _ _ _ R')|].
      rewrite <- T'. replace (hsize h) with (S (hsize h')) by lia. apply firstn_S_perm. lia.
Qed.
Print Assumptions C60_heap.
Example C60_example : exists h, reach Nat.ltb [2; 7; 5] h /\ hsize h = 3 /\ top h = Ok 7.
Proof.
  exists (mkHeap [7; 2; 5] 3). split; [|split; reflexivity].
  apply (reach_push _ _ true (mkHeap [7; 2; 5] 2)); [|reflexivity].
  apply (reach_push _ _ true (mkHeap [2; 7; 5] 1)); [|reflexivity].
  apply (reach_push _ _ true (mkHeap [2; 7; 5] 0)); [|reflexivity]. constructor.
Qed.

(** C61: taking an item from the middle, pop(at), breaks the order: afterwards the top is
    not the largest item of the heap. *)
Theorem C61_pop_at_refuted : exists l h at_ h1 h2, reach Nat.ltb l h /\ at_ < hsize h /\
  popAt Nat.ltb h at_ = Ok (true, h1) /\ pop Nat.ltb h1 = Ok (true, h2) /\
  exists t x, top h2 = Ok t /\ In x (firstn (hsize h2) (arr h2)) /\ (t <? x) = true.
Proof.
  set (l := [10; 9; 3; 8; 7; 2]). exists l, (mkHeap l 6), 1. do 2 eexists. split.
  { do 6 (match goal with |- reach _ _ (mkHeap l (S ?n)) => apply (reach_push _ _ true (mkHeap l n)); [|reflexivity] end). constructor. }
  split; [cbn; lia|]. split; [vm_compute; reflexivity|]. split; [vm_compute; reflexivity|].
  exists 7, 8. split; [reflexivity|]. split; [vm_compute; tauto|reflexivity].
Qed.
Print Assumptions C61_pop_at_refuted.

(** C22: the priority queue. *)
Fixpoint pq_pushes {A} (isLess : A -> A -> bool) (q : heap A) (xs : list A) : outcome (heap A) :=
  match xs with [] => Ok q | x :: xs => let! q := pq_push isLess q x in pq_pushes isLess q xs end.

(** Whatever is pushed, top is a largest item. *)
Theorem C22_top_partial : forall A (isLess : A -> A -> bool), strict_weak isLess -> forall xs, xs <> [] ->
  exists q t, pq_pushes isLess pq_new xs = Ok q /\ pq_length q = length xs /\ pq_empty q = false /\
    pq_top q = Ok t /\ In t xs /\ Forall (fun x => isLess t x = false) xs.
Proof.
  intros A isLess [H1 H2] xs N. destruct xs as [|d xs0]; [congruence|]. set (xs := d :: xs0) in *.
  enough (G : forall ys q, isHeap isLess d q -> hsize q = length (arr q) -> exists q', pq_pushes isLess q ys = Ok q' /\
    isHeap isLess d q' /\ hsize q' = length (arr q') /\ Permutation (arr q ++ ys) (arr q')).
  { destruct (G xs pq_new) as (q & E & I & S & P); [split; cbn; [lia|intros i; lia]|reflexivity|]. cbn [pq_new arr app] in P.
    pose proof (Permutation_length P) as L. assert (0 < length xs) by (cbn; lia).
    exists q, (nth 0 (arr q) d). split; [exact E|]. split; [unfold pq_length; lia|].
    split; [unfold pq_empty; destruct (arr q); [cbn in *; lia|reflexivity]|]. split; [unfold pq_top; apply get_ok; lia|]. split.
    - apply (Permutation_in _ (Permutation_sym P)), nth_In. lia.
    - apply Forall_forall. intros x Hx. apply (Permutation_in _ P) in Hx. apply (In_nth _ _ d) in Hx as (i & Hi & <-).
      destruct I as [_ O]. apply (top_max isLess d H1 H2 (hsize q) (arr q) O). lia. }
  clear -H1 H2. induction ys as [|y ys IH]; intros q I S.
  - exists q. rewrite app_nil_r. auto.
  - cbn [pq_pushes]. unfold pq_push.
    destruct (push_ok isLess d H1 H2 (mkHeap (arr q ++ [y]) (hsize q))) as (q1 & E1 & I1 & S1 & R1).
    + destruct I as [Il Io]. split; cbn [arr hsize]; [rewrite app_length; lia|]. intros i Hi Hi'.
      pose proof (parent_lt isLess d i Hi). rewrite !app_nth1 by lia. apply Io; auto.
    + cbn. rewrite app_length. cbn. lia.
    + rewrite E1. cbn [obind]. cbn [arr hsize] in *. pose proof (reorder_length d _ _ _ R1) as L1. rewrite app_length in L1. cbn in L1.
      destruct (IH q1 I1) as (q2 & E2 & I2 & S2 & P2); [lia|]. exists q2. split; [exact E2|]. split; [exact I2|]. split; [exact S2|].
      eapply Permutation_trans; [|exact P2]. change (y :: ys) with ([y] ++ ys). rewrite app_assoc.
      apply Permutation_app_tail, (ro_perm _ _ _ _ R1).
Qed.
Print Assumptions C22_top_partial.

(** But pop is wrong for every queue of one item, and for every queue of three or more: with
    one item, the queue stays non-empty with the popped item on top; with three or more, all
    items but one are lost while length() still counts them, and the next pop accesses items
    that are not there.  (Only with exactly two items is the result right.) *)
Theorem C22_pop_refuted : forall A (isLess : A -> A -> bool) xs q, pq_pushes isLess pq_new xs = Ok q -> pq_length q = length xs ->
  (length xs = 1 -> exists q1, pq_pop isLess q = Ok q1 /\ pq_empty q1 = false /\ pq_top q1 = pq_top q) /\
  (3 <= length xs -> forall q1, pq_pop isLess q = Ok q1 ->
     length (arr q1) = 1 /\ pq_length q1 = length xs - 1 /\ pq_pop isLess q1 = Undef).
Proof.
  intros A isLess xs q E L.
  assert (La : length (arr q) = length xs).
  { enough (G : forall xs q0 q, pq_pushes isLess q0 xs = Ok q -> hsize q0 = length (arr q0) -> length (arr q) = length (arr q0) + length xs /\ hsize q = length (arr q))
      by (destruct (G xs pq_new q E eq_refl); cbn in *; lia).
    clear. induction xs as [|x xs IH]; intros q0 q E S; cbn [pq_pushes] in E.
    - injection E as <-. cbn. lia.
    - unfold pq_push, push in E. cbn [arr hsize] in E.
      assert (Hl : length (arr q0 ++ [x]) = length (arr q0) + 1) by (rewrite app_length; reflexivity).
      destruct (Nat.ltb_spec (hsize q0) (length (arr q0 ++ [x]))); [|lia].
      destruct (siftUp_safe isLess x (hsize q0) (arr q0 ++ [x]) (hsize q0)) as (l' & E1 & L1); [lia|lia|].
      rewrite E1 in E. cbn [obind] in E. apply IH in E; cbn [arr hsize length] in *; lia. }
  unfold pq_length in L. split.
  - intros L1. unfold pq_pop, pop. rewrite L, L1. cbn [Nat.ltb Nat.leb Nat.sub obind arr hsize].
    eexists. split; [reflexivity|]. unfold trunc, pq_empty, pq_top. cbn [arr]. rewrite Nat.sub_0_r, firstn_all.
    destruct (arr q); [cbn in La; lia|]. auto.
  - intros L3 q1 E1. unfold pq_pop in E1. destruct (pop isLess q) as [[b h]| | |] eqn:Ep; try discriminate. cbn [obind] in E1.
    injection E1 as <-.
    assert (Lh : length (arr h) = length xs /\ hsize h = length xs - 1).
    { unfold pop in Ep. destruct (Nat.ltb_spec 0 (hsize q)); [|lia]. destruct (Nat.ltb_spec 0 (hsize q - 1)); [|lia].
      destruct (swap (arr q) 0 (hsize q - 1)) as [l1| | |] eqn:E1; try discriminate. cbn [obind] in Ep.
      destruct (shiftDown isLess l1 (hsize q - 1) 0) as [l2| | |] eqn:E2; try discriminate. cbn [obind] in Ep. injection Ep as _ <-.
      cbn [arr hsize]. split; [|lia]. apply swap_len in E1. apply shiftDown_len in E2. lia. }
    destruct Lh as [Lh Sh]. cbn [arr hsize pq_length]. unfold trunc, pq_length. cbn [hsize].
    assert (L1 : length (firstn (length (arr h) - hsize h) (arr h)) = 1) by (rewrite firstn_length; lia).
    split; [exact L1|]. split; [lia|]. unfold pq_pop, pop. cbn [arr hsize].
    destruct (Nat.ltb_spec 0 (hsize h)); [|lia]. destruct (Nat.ltb_spec 0 (hsize h - 1)); [|lia].
    unfold swap, get. set (l := firstn (length (arr h) - hsize h) (arr h)) in *.
    replace (nth_error l (hsize h - 1)) with (@None A) by (symmetry; apply nth_error_None; lia).
    destruct (nth_error l 0); reflexivity.
Qed.
Print Assumptions C22_pop_refuted.
Example C22_example : exists q q1, pq_pushes Nat.ltb pq_new [4; 6; 5] = Ok q /\ pq_length q = 3 /\ pq_pop Nat.ltb q = Ok q1 /\ pq_length q1 = 2 /\ arr q1 = [5].
Proof. do 2 eexists. split; [vm_compute; reflexivity|]. split; [reflexivity|]. split; [vm_compute; reflexivity|]. split; reflexivity. Qed.
