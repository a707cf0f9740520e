(** Lemmas about the heap. *)
From Coq Require Import Sorting.Permutation Sorting.Sorted.
From Verif Require Import Common Heap_Model.

Section HeapProof.
  Context {A : Type} (isLess : A -> A -> bool) (d : A).
  Notation "l !! i" := (nth i l d) (at level 20).
  Definition le (a b : A) : Prop := isLess b a = false.

  Lemma get_ok (l : list A) i : i < length l -> get l i = Ok (l !! i).
  Proof. intros H. unfold get. rewrite (nth_error_nth' l d H). reflexivity. Qed.

  Definition swapped (l : list A) i j := upd (upd l i (l !! j)) j (l !! i).
  Lemma swap_ok (l : list A) i j : i < length l -> j < length l -> swap l i j = Ok (swapped l i j).
  Proof. intros Hi Hj. unfold swap. rewrite !get_ok by auto. reflexivity. Qed.
  Lemma swapped_length l i j : length (swapped l i j) = length l.
  Proof. unfold swapped. rewrite !upd_length. reflexivity. Qed.
  Lemma swapped_nth l i j k : i < length l -> j < length l ->
    swapped l i j !! k = l !! (if k =? j then i else if k =? i then j else k).
  Proof.
    intros Hi Hj. unfold swapped. destruct (Nat.eqb_spec k j) as [->|N1].
    - rewrite nth_upd_eq by (rewrite upd_length; auto). reflexivity.
    - rewrite nth_upd_ne by auto. destruct (Nat.eqb_spec k i) as [->|N2].
      + rewrite nth_upd_eq by auto. reflexivity.
      + rewrite nth_upd_ne by auto. reflexivity.
  Qed.
  Lemma swapped_perm l i j : i < length l -> j < length l -> Permutation l (swapped l i j).
  Proof.
    intros Hi Hj. apply (Permutation_nth l (swapped l i j) d). split; [apply swapped_length|].
    exists (fun k => if k =? j then i else if k =? i then j else k). split; [|split].
    - intros k Hk. destruct (Nat.eqb_spec k j); auto. destruct (Nat.eqb_spec k i); auto.
    - intros a b Ha Hb. destruct (Nat.eqb_spec a j), (Nat.eqb_spec a i), (Nat.eqb_spec b j), (Nat.eqb_spec b i); subst; congruence.
    - intros k Hk. apply swapped_nth; auto.
  Qed.

  (** [l'] has the first [n] items of [l] in another order and the others in place *)
  Record reorder (n : nat) (l l' : list A) : Prop := mkReorder {
    ro_perm : Permutation l l';
    ro_rest : forall k, n <= k -> l' !! k = l !! k;
    ro_some : forall k, k < n -> exists j, j < n /\ l' !! k = l !! j }.
  Lemma reorder_refl n l : reorder n l l.
  Proof. constructor; eauto. Qed.
  Lemma reorder_trans n l1 l2 l3 : reorder n l1 l2 -> reorder n l2 l3 -> reorder n l1 l3.
  Proof.
    intros [P1 R1 S1] [P2 R2 S2]. constructor.
    - eapply Permutation_trans; eauto.
    - intros k H. rewrite R2, R1; auto.
    - intros k H. destruct (S2 k H) as (j & Hj & E). destruct (S1 j Hj) as (i & Hi & E'). exists i. split; auto. congruence.
  Qed.
  Lemma reorder_swap n l i j : n <= length l -> i < n -> j < n -> reorder n l (swapped l i j).
  Proof.
    intros Hn Hi Hj. constructor.
    - apply swapped_perm; lia.
    - intros k Hk. rewrite swapped_nth by lia. destruct (Nat.eqb_spec k j); [lia|]. destruct (Nat.eqb_spec k i); [lia|]. reflexivity.
    - intros k Hk. rewrite swapped_nth by lia. exists (if k =? j then i else if k =? i then j else k). split; auto.
      destruct (Nat.eqb_spec k j); auto. destruct (Nat.eqb_spec k i); auto.
  Qed.
  Lemma reorder_length n l l' : reorder n l l' -> length l' = length l.
  Proof. intros R. symmetry. apply Permutation_length, (ro_perm _ _ _ R). Qed.

  (** ** the invariant *)
  Definition parent i := (i - 1) / 2.
  Definition heapOrder (n : nat) (l : list A) : Prop := forall i, 0 < i -> i < n -> le (l !! i) (l !! parent i).

  Lemma parent_lt i : 0 < i -> parent i < i.
  Proof. intros H. unfold parent. apply Nat.div_lt_upper_bound; lia. Qed.
  Lemma parent_child i k : 0 < k -> parent k = i -> k = 2 * i + 1 \/ k = 2 * i + 2.
  Proof.
    intros H E. unfold parent in E. pose proof (Nat.div_mod (k - 1) 2 ltac:(lia)). pose proof (Nat.mod_upper_bound (k - 1) 2 ltac:(lia)). lia.
  Qed.
  Lemma parent_l i : parent (2 * i + 1) = i.
  Proof. unfold parent. replace (2 * i + 1 - 1) with (i * 2) by lia. apply Nat.div_mul. lia. Qed.
  Lemma parent_r i : parent (2 * i + 2) = i.
  Proof.
    unfold parent. symmetry. apply (Nat.div_unique (2 * i + 2 - 1) 2 i 1); lia.
  Qed.

  (** memory safety of siftUp does not depend on the order *)
  Lemma siftUp_safe : forall fuel l child, child <= fuel -> child < length l -> exists l', siftUp isLess fuel l child = Ok l' /\ length l' = length l.
  Proof.
    induction fuel as [|fuel IH]; intros l child Hf Hc; cbn [siftUp].
    - destruct (Nat.eqb_spec child 0); [eauto|lia].
    - destruct (Nat.eqb_spec child 0); [eauto|]. fold (parent child). pose proof (parent_lt child ltac:(lia)) as Hp.
      rewrite !get_ok by lia. cbn [obind]. destruct (isLess (l !! parent child) (l !! child)); [|eauto].
      rewrite swap_ok by lia. cbn [obind].
      destruct (IH (swapped l (parent child) child) (parent child)) as (l' & E & L); [lia|rewrite swapped_length; lia|].
      exists l'. split; auto. rewrite L. apply swapped_length.
  Qed.

  Hypothesis asym : forall a b, isLess a b = true -> isLess b a = false.
  Hypothesis trans : forall a b c, le a b -> le b c -> le a c.
  Lemma le_refl a : le a a.
  Proof. unfold le. destruct (isLess a a) eqn:E; auto. apply asym in E as E'. congruence. Qed.

  Lemma top_max n l : heapOrder n l -> forall i, i < n -> le (l !! i) (l !! 0).
  Proof.
    intros H. induction i as [i IH] using (well_founded_induction lt_wf). intros Hi.
    destruct (Nat.eq_dec i 0) as [->|N]; [apply le_refl|].
    apply (trans _ (l !! parent i)); [apply H; lia|]. apply IH; [apply parent_lt|pose proof (parent_lt i)]; lia.
  Qed.

  Lemma siftUp_ok n : forall fuel l child, child <= fuel -> child < n -> n <= length l ->
    (forall i, 0 < i -> i < n -> i <> child -> le (l !! i) (l !! parent i)) ->
    (forall i, 0 < i -> i < n -> parent i = child -> 0 < child -> le (l !! i) (l !! parent child)) ->
    exists l', siftUp isLess fuel l child = Ok l' /\ reorder n l l' /\ heapOrder n l'.
  Proof.
    induction fuel as [|fuel IH]; intros l child Hf Hc Hn H1 H2; cbn [siftUp].
    - assert (child = 0) by lia. subst child. cbn. exists l. split; [reflexivity|]. split; [apply reorder_refl|].
      intros i Hi Hi'. apply H1; lia.
    - destruct (Nat.eqb_spec child 0) as [->|N].
      { exists l. split; [reflexivity|]. split; [apply reorder_refl|]. intros i Hi Hi'. apply H1; lia. }
      fold (parent child). pose proof (parent_lt child ltac:(lia)) as Hp.
      rewrite !get_ok by lia. cbn [obind]. destruct (isLess (l !! parent child) (l !! child)) eqn:E.
      + rewrite swap_ok by lia. cbn [obind]. set (p := parent child) in *.
        assert (Sn : forall k, swapped l p child !! k = l !! (if k =? child then p else if k =? p then child else k)) by (intros k; apply swapped_nth; lia).
        destruct (IH (swapped l p child) p) as (l' & E1 & R & O); try lia.
        * rewrite swapped_length. lia.
        * intros i Hi Hi' Ni. rewrite !Sn. destruct (Nat.eqb_spec i child) as [->|Nc].
          -- fold p. destruct (Nat.eqb_spec p child); [lia|]. rewrite Nat.eqb_refl. apply asym in E. exact E.
          -- destruct (Nat.eqb_spec i p); [lia|]. destruct (Nat.eqb_spec (parent i) child) as [Ec|_].
             ++ apply H2; auto; lia.
             ++ destruct (Nat.eqb_spec (parent i) p) as [Ep|_].
                ** apply (trans _ (l !! p)); [|apply asym in E; exact E]. rewrite <- Ep. apply H1; auto.
                ** apply H1; auto.
        * intros i Hi Hi' Ep Pp. rewrite !Sn. pose proof (parent_lt p Pp).
          destruct (Nat.eqb_spec (parent p) child); [lia|]. destruct (Nat.eqb_spec (parent p) p); [lia|].
          destruct (Nat.eqb_spec i child) as [->|Nc].
          -- apply H1; lia.
          -- pose proof (parent_lt i Hi). destruct (Nat.eqb_spec i p); [lia|].
             apply (trans _ (l !! p)); [|apply H1; lia]. rewrite <- Ep. apply H1; auto.
        * exists l'. split; [exact E1|]. split; [|exact O]. eapply reorder_trans; [|exact R].
          apply reorder_swap; lia.
      + exists l. split; [reflexivity|]. split; [apply reorder_refl|]. intros i Hi Hi'.
        destruct (Nat.eq_dec i child) as [->|Ni]; [exact E|]. apply H1; auto.
  Qed.

  Lemma siftLoop_ok n : forall fuel l root, n <= fuel + root -> n <= length l ->
    (forall i, 0 < i -> i < n -> parent i <> root -> le (l !! i) (l !! parent i)) ->
    (forall i, 0 < i -> i < n -> parent i = root -> 0 < root -> le (l !! i) (l !! parent root)) ->
    exists l', siftLoop isLess fuel l n root = Ok l' /\ reorder n l l' /\ heapOrder n l'.
  Proof.
    induction fuel as [|fuel IH]; intros l root Hf Hn H1 H2; cbn [siftLoop].
    - destruct (Nat.ltb_spec (root * 2 + 1) n); [lia|]. exists l. split; [reflexivity|]. split; [apply reorder_refl|].
      intros i Hi Hi'. apply H1; auto. pose proof (parent_lt i Hi). intros Ep. apply parent_child in Ep; lia.
    - destruct (Nat.ltb_spec (root * 2 + 1) n) as [L|L].
      2:{ exists l. split; [reflexivity|]. split; [apply reorder_refl|].
          intros i Hi Hi'. apply H1; auto. intros Ep. apply parent_child in Ep; lia. }
      assert (C : exists c, (if root * 2 + 1 + 1 <? n then let! a := get l (root * 2 + 1) in let! b := get l (root * 2 + 1 + 1) in
                       Ok (if isLess a b then root * 2 + 1 + 1 else root * 2 + 1) else Ok (root * 2 + 1)) = Ok c
            /\ c < n /\ parent c = root /\ root < c /\ forall k, 0 < k -> k < n -> parent k = root -> le (l !! k) (l !! c)).
      { assert (Pl : parent (root * 2 + 1) = root) by (rewrite (Nat.mul_comm root 2); apply parent_l).
        assert (Pr : parent (root * 2 + 1 + 1) = root) by (replace (root * 2 + 1 + 1) with (2 * root + 2) by lia; apply parent_r).
        destruct (Nat.ltb_spec (root * 2 + 1 + 1) n) as [L2|L2].
        - rewrite !get_ok by lia. cbn [obind].
          destruct (isLess (l !! (root * 2 + 1)) (l !! (root * 2 + 1 + 1))) eqn:E; eexists; (split; [reflexivity|]);
            (split; [lia|]); (split; [assumption|]); (split; [lia|]); intros k Hk Hk' Ep; apply parent_child in Ep as [->| ->]; auto.
          + replace (2 * root + 1) with (root * 2 + 1) by lia. apply asym in E. exact E.
          + replace (2 * root + 2) with (root * 2 + 1 + 1) by lia. apply le_refl.
          + replace (2 * root + 1) with (root * 2 + 1) by lia. apply le_refl.
          + replace (2 * root + 2) with (root * 2 + 1 + 1) by lia. exact E.
        - exists (root * 2 + 1). split; [reflexivity|]. split; [lia|]. split; [exact Pl|]. split; [lia|].
          intros k Hk Hk' Ep. apply parent_child in Ep as [->| ->]; auto; [|lia].
          replace (2 * root + 1) with (root * 2 + 1) by lia. apply le_refl. }
      destruct C as (c & Ec & Hc & Pc & Rc & Max). rewrite Ec. cbn [obind]. clear Ec.
      rewrite !get_ok by lia. cbn [obind]. destruct (isLess (l !! root) (l !! c)) eqn:E.
      + rewrite swap_ok by lia. cbn [obind].
        assert (Sn : forall k, swapped l root c !! k = l !! (if k =? c then root else if k =? root then c else k)) by (intros k; apply swapped_nth; lia).
        destruct (IH (swapped l root c) c) as (l' & E1 & R & O); try lia.
        * rewrite swapped_length. lia.
        * intros i Hi Hi' Np. rewrite !Sn. destruct (Nat.eqb_spec (parent i) c); [lia|].
          destruct (Nat.eqb_spec i c) as [->|Ni].
          -- rewrite Pc, Nat.eqb_refl. apply asym in E. exact E.
          -- destruct (Nat.eqb_spec i root) as [->|Nr].
             ++ pose proof (parent_lt root ltac:(lia)). destruct (Nat.eqb_spec (parent root) root); [lia|].
                apply H2; auto; lia.
             ++ destruct (Nat.eqb_spec (parent i) root) as [Er|Nr2].
                ** apply Max; auto.
                ** apply H1; auto.
        * intros i Hi Hi' Ep Pc0. rewrite !Sn. rewrite Pc. destruct (Nat.eqb_spec root c); [lia|]. rewrite Nat.eqb_refl.
          pose proof (parent_lt i Hi). destruct (Nat.eqb_spec i c); [lia|]. destruct (Nat.eqb_spec i root); [lia|].
          rewrite <- Ep. apply H1; auto. lia.
        * exists l'. split; [exact E1|]. split; [|exact O]. eapply reorder_trans; [|exact R]. apply reorder_swap; lia.
      + exists l. split; [reflexivity|]. split; [apply reorder_refl|]. intros i Hi Hi'.
        destruct (Nat.eq_dec (parent i) root) as [Ep|Np]; [|apply H1; auto].
        rewrite Ep. apply (trans _ (l !! c)); [apply Max; auto|exact E].
  Qed.

  Lemma shiftDown0_ok n l : n <= length l -> (forall i, 0 < i -> i < n -> parent i <> 0 -> le (l !! i) (l !! parent i)) ->
    exists l', shiftDown isLess l n 0 = Ok l' /\ reorder n l l' /\ heapOrder n l'.
  Proof.
    intros Hn H. unfold shiftDown. destruct (Nat.ltb_spec (0 * 2 + 1) n).
    - apply siftLoop_ok; auto; lia.
    - exists l. split; [reflexivity|]. split; [apply reorder_refl|]. intros i Hi Hi'. lia.
  Qed.

  (** ** push and pop *)
  Definition isHeap (h : heap A) : Prop := hsize h <= length (arr h) /\ heapOrder (hsize h) (arr h).

  Lemma push_ok h : isHeap h -> hsize h < length (arr h) ->
    exists h', push isLess h = Ok (true, h') /\ isHeap h' /\ hsize h' = hsize h + 1 /\ reorder (hsize h + 1) (arr h) (arr h').
  Proof.
    intros [Hl Ho] Hlt. unfold push. destruct (Nat.ltb_spec (hsize h) (length (arr h))); [|lia].
    destruct (siftUp_ok (hsize h + 1) (hsize h) (arr h) (hsize h)) as (l' & E & R & O); try lia.
    - intros i Hi Hi' N. apply Ho; lia.
    - intros i Hi Hi' Ep P. pose proof (parent_lt i Hi). lia.
    - rewrite E. cbn [obind]. eexists. split; [reflexivity|]. split; [|split; [reflexivity|exact R]].
      split; cbn [hsize arr]; [rewrite (reorder_length _ _ _ R); lia|exact O].
  Qed.

  Lemma pop_ok h : isHeap h -> 0 < hsize h ->
    exists h', pop isLess h = Ok (true, h') /\ isHeap h' /\ hsize h' = hsize h - 1 /\ reorder (hsize h) (arr h) (arr h')
      /\ arr h' !! hsize h' = arr h !! 0.
  Proof.
    intros [Hl Ho] Hp. unfold pop. destruct (Nat.ltb_spec 0 (hsize h)); [|lia]. set (n := hsize h - 1).
    destruct (Nat.ltb_spec 0 n) as [Hn|Hn].
    - rewrite swap_ok by lia. cbn [obind].
      assert (Sn : forall k, swapped (arr h) 0 n !! k = arr h !! (if k =? n then 0 else if k =? 0 then n else k)) by (intros k; apply swapped_nth; lia).
      destruct (shiftDown0_ok n (swapped (arr h) 0 n)) as (l' & E & R & O).
      + rewrite swapped_length. lia.
      + intros i Hi Hi' Np. rewrite !Sn. pose proof (parent_lt i Hi).
        destruct (Nat.eqb_spec i n); [lia|]. destruct (Nat.eqb_spec i 0); [lia|].
        destruct (Nat.eqb_spec (parent i) n); [lia|]. destruct (Nat.eqb_spec (parent i) 0); [lia|]. apply Ho; lia.
      + rewrite E. cbn [obind]. eexists. split; [reflexivity|].
        pose proof (reorder_length _ _ _ R) as Len. rewrite swapped_length in Len.
        split; [split; cbn [hsize arr]; [lia|exact O]|]. split; [reflexivity|]. cbn [arr hsize]. split.
        * eapply reorder_trans; [apply (reorder_swap (hsize h) (arr h) 0 n); lia|].
          destruct R as [P Rest Some_]. constructor; auto.
          -- intros k Hk. apply Rest. lia.
          -- intros k Hk. destruct (Nat.lt_ge_cases k n) as [K|K].
             ++ destruct (Some_ k K) as (j & Hj & Ej). exists j. split; [lia|exact Ej].
             ++ exists k. split; [lia|]. apply Rest. lia.
        * rewrite (ro_rest _ _ _ R) by lia. rewrite Sn, Nat.eqb_refl. reflexivity.
    - eexists. split; [reflexivity|]. cbn [arr hsize]. split; [split; cbn [arr hsize]; [lia|intros i; lia]|].
      split; [reflexivity|]. split; [apply reorder_refl|]. f_equal. lia.
  Qed.

  (** ** sorting *)
  Lemma makeHeap_ok : forall fuel h, isHeap h -> length (arr h) <= fuel + hsize h ->
    exists h', makeHeap isLess fuel h = Ok h' /\ isHeap h' /\ hsize h' = length (arr h) /\ Permutation (arr h) (arr h').
  Proof.
    induction fuel as [|fuel IH]; intros h Hh Hf; cbn [makeHeap].
    - destruct Hh as [Hl Ho]. destruct (Nat.ltb_spec (hsize h) (length (arr h))); [lia|]. exists h. repeat split; auto. lia.
    - destruct (Nat.ltb_spec (hsize h) (length (arr h))).
      + destruct (push_ok h Hh H) as (h1 & E & H1 & S1 & R). rewrite E. cbn [obind].
        pose proof (reorder_length _ _ _ R).
        destruct (IH h1 H1) as (h2 & E2 & H2 & S2 & P2); [lia|]. exists h2. split; [exact E2|]. split; [exact H2|]. split; [lia|].
        eapply Permutation_trans; [apply (ro_perm _ _ _ R)|exact P2].
      + destruct Hh as [Hl Ho]. exists h. repeat split; auto. lia.
  Qed.

  Lemma sortHeap_ok : forall fuel h, isHeap h -> hsize h <= fuel ->
    (forall i j, i < length (arr h) -> j < length (arr h) -> i < j -> hsize h <= j -> le (arr h !! i) (arr h !! j)) ->
    exists h', sortHeap isLess fuel h = Ok h' /\ Permutation (arr h) (arr h') /\
      forall i j, i < length (arr h) -> j < length (arr h) -> i < j -> le (arr h' !! i) (arr h' !! j).
  Proof.
    induction fuel as [|fuel IH]; intros h Hh Hf Hs; cbn [sortHeap].
    - destruct (Nat.ltb_spec 0 (hsize h)); [lia|]. exists h. repeat split; auto. intros. apply Hs; auto. lia.
    - destruct (Nat.ltb_spec 0 (hsize h)) as [L|L].
      2:{ exists h. repeat split; auto. intros. apply Hs; auto. lia. }
      destruct (pop_ok h Hh L) as (h1 & E & H1 & S1 & R & T). rewrite E. cbn [obind].
      pose proof (reorder_length _ _ _ R) as Len. destruct Hh as [Hl Ho].
      destruct (IH h1 H1) as (h2 & E2 & P2 & S2); [lia| |].
      + intros i j Hi Hj Hij Hk. rewrite Len in *. destruct (Nat.eq_dec j (hsize h1)) as [->|Nj].
        * rewrite T. destruct (ro_some _ _ _ R i ltac:(lia)) as (k & Hk' & ->). apply (top_max (hsize h)); auto.
        * rewrite (ro_rest _ _ _ R j) by lia. destruct (Nat.lt_ge_cases i (hsize h)) as [Hi2|Hi2].
          -- destruct (ro_some _ _ _ R i Hi2) as (k & Hk' & ->). apply Hs; lia.
          -- rewrite (ro_rest _ _ _ R i) by lia. apply Hs; lia.
      + exists h2. split; [exact E2|]. split; [eapply Permutation_trans; [apply (ro_perm _ _ _ R)|exact P2]|].
        intros i j Hi Hj Hij. apply S2; lia.
  Qed.

  Lemma strongly l : (forall i j, i < length l -> j < length l -> i < j -> le (l !! i) (l !! j)) -> StronglySorted le l.
  Proof.
    induction l as [|a l IH]; intros H; constructor.
    - apply IH. intros i j Hi Hj Hij. apply (H (S i) (S j)); cbn; lia.
    - apply Forall_forall. intros x Hx. apply (In_nth _ _ d) in Hx as (j & Hj & <-). apply (H 0 (S j)); cbn; lia.
  Qed.

  Lemma sort_ok l : exists l', sort isLess l = Ok l' /\ Permutation l l' /\ StronglySorted le l'.
  Proof.
    unfold sort. destruct (makeHeap_ok (length l) (mkHeap l 0)) as (h & E & Hh & S1 & P1); [|cbn; lia|].
    { split; cbn; [lia|]. intros i; lia. }
    rewrite E. cbn [obind arr] in *. pose proof (Permutation_length P1) as L.
    destruct (sortHeap_ok (hsize h) h Hh) as (h2 & E2 & P2 & S2); [lia|intros; lia|].
    rewrite E2. cbn [obind]. exists (arr h2). split; [reflexivity|]. split; [eapply Permutation_trans; eauto|].
    pose proof (Permutation_length P2). apply strongly. intros. apply S2; lia.
  Qed.
End HeapProof.

Section HeapExtra.
  Context {A : Type}.

  Lemma nth_firstn_lt (d : A) n : forall l i, i < n -> nth i (firstn n l) d = nth i l d.
  Proof.
    induction n as [|n IH]; intros l i H; [lia|]. destruct l as [|a l]; [destruct i; reflexivity|].
    destruct i; [reflexivity|]. cbn [firstn nth]. apply IH. lia.
  Qed.

  Lemma firstn_S_perm (d : A) n l : n < length l -> Permutation (firstn (S n) l) (nth n l d :: firstn n l).
  Proof.
    revert l. induction n as [|n IH]; intros [|a l] H; cbn in H; try lia.
    - cbn. constructor. constructor.
    - change (firstn (S (S n)) (a :: l)) with (a :: firstn (S n) l). cbn [nth firstn].
      eapply Permutation_trans; [apply perm_skip, IH; lia|]. apply perm_swap.
  Qed.

  Lemma nth_skipn_add (d : A) n : forall l i, nth i (skipn n l) d = nth (n + i) l d.
  Proof. induction n as [|n IH]; intros [|a l] i; cbn; auto. destruct i; reflexivity. Qed.

  Lemma skipn_ext (d : A) n : forall l l', length l = length l' -> (forall k, n <= k -> nth k l d = nth k l' d) -> skipn n l = skipn n l'.
  Proof.
    intros l l' L H. apply (nth_ext _ _ d d); rewrite !skipn_length; [lia|].
    intros i Hi. rewrite !(nth_skipn_add d). apply H. lia.
  Qed.

  Lemma reorder_firstn (d : A) n l l' : reorder d n l l' -> Permutation (firstn n l) (firstn n l').
  Proof.
    intros R. pose proof (reorder_length d _ _ _ R) as L.
    assert (E : skipn n l = skipn n l') by (apply (skipn_ext d); [auto|intros k Hk; symmetry; apply (ro_rest _ _ _ _ R); auto]).
    pose proof (ro_perm _ _ _ _ R) as P. rewrite <- (firstn_skipn n l), <- (firstn_skipn n l') in P. rewrite E in P.
    apply Permutation_app_inv_r in P. exact P.
  Qed.

  Lemma swap_len (l l' : list A) i j : swap l i j = Ok l' -> length l' = length l.
  Proof.
    unfold swap. destruct (get l i); try discriminate. destruct (get l j); try discriminate. cbn. injection 1 as <-.
    rewrite !upd_length. reflexivity.
  Qed.
  Lemma siftLoop_len isLess n : forall fuel (l l' : list A) root, siftLoop isLess fuel l n root = Ok l' -> length l' = length l.
  Proof.
    induction fuel as [|fuel IH]; intros l l' root; cbn [siftLoop].
    - destruct (root * 2 + 1 <? n); [discriminate|]. injection 1 as <-. reflexivity.
    - destruct (root * 2 + 1 <? n); [|injection 1 as <-; reflexivity].
      match goal with |- obind ?e _ = _ -> _ => destruct e as [c| | |]; try discriminate end. cbn [obind].
      destruct (get l root); try discriminate. destruct (get l c); try discriminate. cbn [obind].
      destruct (isLess _ _); [|injection 1 as <-; reflexivity].
      destruct (swap l root c) as [l1| | |] eqn:E; try discriminate. cbn [obind]. intros H. apply IH in H. apply swap_len in E. lia.
  Qed.
  Lemma shiftDown_len isLess n (l l' : list A) from : shiftDown isLess l n from = Ok l' -> length l' = length l.
  Proof.
    unfold shiftDown. destruct (from * 2 + 1 <? n); [apply siftLoop_len|]. injection 1 as <-. reflexivity.
  Qed.
End HeapExtra.
