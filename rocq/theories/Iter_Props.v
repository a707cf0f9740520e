(** C197-C209: iterator adapters. *)
From Coq Require Import Sorting.Permutation Sorting.Sorted.
From Verif Require Import Common Heap_Model Heap_Proof Iter_Spec Iter_Model Iter_Proof IterSort_Proof IterMerge_Proof.

(** C197: reading through a converting filter is reading the converted items: every sequence
    of hasItems(), peek() and getNext() has the answers of a reader of [map f xs]. *)
Theorem filter_read : forall I O (f : I -> O) xs os,
  exists r, fr_ops (convFilter f) (mkFread xs None Fetched0) os = Ok (fst (read_ops (map f xs) os), r).
Proof. intros I O f xs os. destruct (conv_ops f os (mkFread xs None Fetched0)) as (r & E & _). exists r. exact E. Qed.
Print Assumptions filter_read.
Example filter_read_example : exists r, fr_ops (convFilter (fun x => x + 10)) (mkFread [1; 2] None Fetched0) [RHas; RPeek; RNext; RNext; RHas; RNext]
  = Ok ([AnsBool true; AnsItem 11; AnsItem 11; AnsItem 12; AnsBool false; AnsEnd], r).
Proof. eexists. reflexivity. Qed.

(** C198: writing through a converting filter, item by item or as an array of constant items,
    appends the converted items; without room for all of them an exception is thrown. *)
Theorem filter_write : forall I O (f : I -> O) (t : target O),
  (forall fuel x, 1 <= fuel -> fw_write (convFilter f) fuel (mkFwrite t None) x =
     if t_fits t 1 then Ok (mkFwrite (t_push t [f x]) None) else Throw) /\
  (forall xs, fw_blockWrite_const (convFilter f) (mkFwrite t None) xs true =
     if t_fits t (length xs) then Ok (length xs, mkFwrite (t_push t (map f xs)) None) else Throw).
Proof.
  intros I O f t. split.
  - intros fuel x H. rewrite (conv_write f fuel t x H). unfold t_open, t_fits. destruct (troom t) as [[|r]|]; reflexivity.
  - intros xs. apply conv_blockWrite_all.
Qed.
Print Assumptions filter_write.
Example filter_write_example : fw_blockWrite_const (convFilter (fun x => x + 10)) (mkFwrite (mkTarget [5] (Some 3)) None) [1; 2; 3] true
  = Ok (3, mkFwrite (mkTarget [5; 11; 12; 13] (Some 0)) None).
Proof. reflexivity. Qed.

(** C199: an array of changeable items: of two or more items asked to be written all, only the
    first one is written. *)
Theorem filter_block_write_refuted : forall I O (f : I -> O) (t : target O) x y xs, t_fits t (length (x :: y :: xs)) = true ->
  fw_blockWrite (convFilter f) (mkFwrite t None) (x :: y :: xs) true = Ok (1, mkFwrite (t_push t [f x]) None).
Proof.
  intros I O f t x y xs H. unfold fw_blockWrite. cbn [length Nat.eqb negb]. cbn [fw_loop fwFlt convFilter needI obind skipn].
  change (mkFilter _ _ _ _ _) with (convFilter f). rewrite conv_input. cbn [obind fwT fwFlt andb].
  rewrite conv_feed by lia. now rewrite (t_fits_open t _ H).
Qed.
Print Assumptions filter_block_write_refuted.
Example filter_block_write_example : fw_blockWrite (convFilter (fun x => x + 10)) (mkFwrite (mkTarget [] None) None) [1; 2; 3] true
  = Ok (1, mkFwrite (mkTarget [11] None) None).
Proof. reflexivity. Qed.

(** C200: block reading through a converting filter.  (1) Right when nothing was peeked, not
    all items are demanded and the source has enough of them. *)
Theorem filter_block_read_partial : forall I O (f : I -> O) xs buf, 0 < length buf <= length xs ->
  exists r, fr_blockRead (convFilter f) (mkFread xs None Fetched0) buf false = Ok (length buf, firstn (length buf) (map f xs), r) /\
    forall os, exists r', fr_ops (convFilter f) r os = Ok (fst (read_ops (skipn (length buf) (map f xs)) os), r').
Proof.
  intros I O f xs buf H. unfold fr_blockRead. destruct (Nat.eqb_spec (length buf) 0); [lia|]. cbn [frBuf frSrc frFlt obind].
  destruct (conv_fr_loop f buf [] xs None (S (length buf))) as (src & s & E & R); [lia|lia|cbn; lia|].
  cbn [app length pend] in E, R. rewrite E. cbn [obind]. eexists. split; [reflexivity|]. intros os.
  destruct (conv_ops f os (mkFread src s Fetched0)) as (r' & E' & _). exists r'.
  assert (Q : conv_rest f (mkFread src s Fetched0) = skipn (length buf) (map f xs)) by (rewrite <- R; reflexivity).
  rewrite Q in E'. exact E'.
Qed.
(** (2) With too few items in the source the call is undefined, instead of returning what
    there is; (3) when all items are demanded only one is read; (4) after peek() the peeked
    item is lost and the first place of the array is never filled. *)
Theorem filter_block_read_refuted : forall I O (f : I -> O),
  (forall xs buf, length xs < length buf -> fr_blockRead (convFilter f) (mkFread xs None Fetched0) buf false = Undef) /\
  (forall x y xs buf, 1 < length buf -> exists r, fr_blockRead (convFilter f) (mkFread (x :: y :: xs) None Fetched0) buf true = Ok (1, upd buf 0 (f x), r)) /\
  (forall x y xs b0 b1, exists r r', fr_op (convFilter f) (mkFread (x :: y :: xs) None Fetched0) RPeek = Ok (AnsItem (f x), r) /\
     fr_blockRead (convFilter f) r [b0; b1] false = Ok (2, [b0; f y], r')).
Proof.
  intros I O f. split; [|split].
  - intros xs buf H. unfold fr_blockRead. destruct (Nat.eqb_spec (length buf) 0); [lia|]. cbn [frBuf frSrc frFlt obind].
    assert (G : forall post pre src fuel, length post < fuel -> length src < length post ->
              fr_loop (convFilter f) fuel src None (pre ++ post) (length pre) false = Undef).
    { induction post as [|y post IH]; intros pre src fuel L N; [cbn in N; lia|]. destruct fuel as [|fuel]; [lia|].
      cbn [fr_loop convFilter hasO]. change (mkFilter _ _ _ _ _) with (convFilter f). destruct src as [|x src].
      - unfold blockFetch. cbn [fetchLoop convFilter needI obind]. reflexivity.
      - rewrite conv_fetch. cbn [obind blockOutput convFilter foutput hasO]. rewrite andb_false_r.
        destruct (Nat.ltb_spec (length pre) (length (pre ++ y :: post))) as [Q|Q]; [|rewrite app_length in Q; cbn in Q; lia].
        cbn [obind]. rewrite upd_app. cbn [negb andb]. change (mkFilter _ _ _ _ _) with (convFilter f).
        destruct (Nat.ltb_spec (length pre + (0 + 1)) (length (pre ++ f x :: post))) as [Q2|Q2]; [|rewrite app_length in Q2; cbn in Q2, N; lia].
        replace (pre ++ f x :: post) with ((pre ++ [f x]) ++ post) by (rewrite <- app_assoc; auto).
        replace (length pre + (0 + 1)) with (length (pre ++ [f x])) by (rewrite app_length; cbn; lia).
        apply IH; cbn in *; lia. }
    rewrite (G buf [] xs) by lia. reflexivity.
  - intros x y xs buf H. destruct buf as [|b0 [|b1 buf]]; [cbn in H; lia|cbn in H; lia|]. eexists.
    unfold fr_blockRead. cbn [length Nat.eqb frBuf frSrc frFlt obind].
    cbn [fr_loop convFilter hasO]. change (mkFilter _ _ _ _ _) with (convFilter f). rewrite conv_fetch. reflexivity.
  - intros x y xs b0 b1. do 2 eexists. cbn [fr_op]. unfold fr_getBuffer. cbn [frBuf frFlt frSrc convFilter hasO].
    change (mkFilter _ _ _ _ _) with (convFilter f). rewrite conv_fetch. cbn. split; [reflexivity|].
    unfold fr_blockRead. cbn [length Nat.eqb frBuf frSrc frFlt obind Nat.ltb Nat.leb upd].
    cbn [fr_loop convFilter hasO]. change (mkFilter _ _ _ _ _) with (convFilter f). rewrite conv_fetch. reflexivity.
Qed.
Print Assumptions filter_block_read_partial.
Print Assumptions filter_block_read_refuted.
Example filter_block_read_example : exists r, fr_blockRead (convFilter (fun x => x + 10)) (mkFread [1; 2; 3] None Fetched0) [0; 0] false = Ok (2, [11; 12], r).
Proof. eexists. reflexivity. Qed.

(** C201: the sorting filter.  [sf_holds cap s b]: the filter with room for [cap] items can
    come to the state [s] while it holds the items [b], fed only when it asks for items. *)
Definition strict_weak {A} (isLess : A -> A -> bool) : Prop :=
  (forall a b, isLess a b = true -> isLess b a = false) /\
  (forall a b c, isLess b a = false -> isLess c b = false -> isLess c a = false).
Inductive sf_holds {A} (isLess : A -> A -> bool) (cap : option nat) : sortf A -> list A -> Prop :=
| sh_new : sf_holds isLess cap sf_new []
| sh_in s b x s' : sf_holds isLess cap s b -> needI (sortFilter isLess cap) s = true -> sf_input isLess cap s x = Ok s' ->
    sf_holds isLess cap s' (x :: b)
| sh_out s b t s' b' : sf_holds isLess cap s b -> sf_output isLess s = Ok (t, s') -> Permutation b (t :: b') -> sf_holds isLess cap s' b'.

Lemma sf_holds_inv {A} (isLess : A -> A -> bool) cap : strict_weak isLess -> cap <> Some 0 -> forall s b, sf_holds isLess cap s b ->
  sf_inv isLess cap s /\ Permutation (sf_bag s) b.
Proof.
  intros [H1 H2] C s b H. induction H as [|s b x s' H [I P] N E|s b t s' b' H [I P] E Q].
  - split; [now apply sf_inv_new|constructor].
  - assert (X : sfExtra s = None) by (cbn in N; destruct (sfExtra s); congruence).
    destruct (sf_input_ok isLess H1 H2 cap C s x I X) as (s2 & E2 & I2 & P2 & _). rewrite E in E2. injection E2 as <-.
    split; auto. eapply Permutation_trans; [apply Permutation_sym, P2|]. now constructor.
  - assert (B : sf_bag s <> []). { intros B. rewrite B in P. apply Permutation_nil in P. subst. apply Permutation_nil in Q. discriminate. }
    destruct (sf_output_ok isLess H1 H2 cap C s I B) as (t2 & s2 & E2 & I2 & _ & P2 & _). rewrite E in E2. injection E2 as <- <-.
    split; auto. apply (Permutation_cons_inv (a := t)).
    exact (Permutation_trans (Permutation_sym P2) (Permutation_trans P Q)).
Qed.

Theorem sort_filter : forall A (isLess : A -> A -> bool), strict_weak isLess -> forall cap, cap <> Some 0 -> forall s b, sf_holds isLess cap s b ->
  hasO (sortFilter isLess cap) s = match b with [] => false | _ => true end /\
  (needI (sortFilter isLess cap) s = true -> forall x, exists s', sf_input isLess cap s x = Ok s') /\
  (needI (sortFilter isLess cap) s = false -> exists c, cap = Some c /\ length b = c + 1) /\
  (b = [] -> sf_output isLess s = Throw) /\
  (b <> [] -> exists t s' b', sf_output isLess s = Ok (t, s') /\ Permutation b (t :: b') /\ Forall (fun x => isLess t x = false) b).
Proof.
  intros A isLess W cap C s b H. destruct (sf_holds_inv isLess cap W C s b H) as [I P]. destruct W as [H1 H2].
  assert (N : b = [] <-> sf_bag s = []).
  { split; intros E; rewrite E in P; [apply Permutation_sym in P|]; now apply Permutation_nil in P. }
  split; [|split; [|split; [|split]]].
  - rewrite (sf_has isLess cap C s I). destruct b as [|y b], (sf_bag s) as [|z b0]; auto; exfalso.
    + destruct N as [N _]. discriminate (N eq_refl).
    + destruct N as [_ N]. discriminate (N eq_refl).
  - intros X x. assert (E : sfExtra s = None) by (cbn in X; destruct (sfExtra s); congruence).
    destruct (sf_input_ok isLess H1 H2 cap C s x I E) as (s' & Es & _). eauto.
  - intros X. assert (E : sfExtra s <> None) by (cbn in X; destruct (sfExtra s); congruence).
    destruct (si_extra _ _ _ I E) as (c & Ec & Lc). exists c. split; auto.
    apply Permutation_length in P. rewrite <- P. unfold sf_bag. rewrite app_length, Lc. destruct (sfExtra s); [reflexivity|congruence].
  - intros E. apply N in E. apply (sf_output_empty isLess cap s I E).
  - intros E. destruct (sf_output_ok isLess H1 H2 cap C s I) as (t & s' & Es & _ & _ & P2 & M); [tauto|].
    exists t, s', (sf_bag s'). split; auto. split; [eapply Permutation_trans; [apply Permutation_sym, P|exact P2]|].
    apply Forall_forall. intros x Hx. rewrite Forall_forall in M. apply M. apply (Permutation_in _ (Permutation_sym P)), Hx.
Qed.
(** Read through it, or written through it and flushed, all items come out once, the largest
    first. *)
Theorem sort_filter_iter : forall A (isLess : A -> A -> bool), strict_weak isLess -> forall xs,
  exists l, Permutation xs l /\ StronglySorted (fun a b => isLess a b = false) l /\
    (forall os, exists r, fr_ops (sortFilter isLess None) (mkFread xs sf_new Fetched0) os = Ok (fst (read_ops l os), r)) /\
    (forall t fuel, t_fits t (length xs) = true -> length xs <= fuel ->
       exists s, (let! w := fw_writes (sortFilter isLess None) fuel (mkFwrite t sf_new) xs in fw_flush (sortFilter isLess None) fuel w) = Ok (mkFwrite (t_push t l) s)).
Proof.
  intros A isLess [H1 H2] xs.
  pose proof (sf_inv_new isLess H1 H2 None cap_none) as I0.
  destruct (fetch_all isLess H1 H2 xs sf_new I0) as (s & Ef & I & P). cbn [sf_bag sf_new sfHeap arr sfExtra] in P. rewrite app_nil_r in P.
  destruct (drains_ex isLess H1 H2 _ s I eq_refl) as (l & D & Pl & S).
  exists l. split; [eapply Permutation_trans; eauto|]. split; [exact S|]. split.
  - intros os. apply (sr_ops isLess H1 H2). exists s. cbn [frFlt frSrc]. split; auto.
  - intros t fuel F L. destruct (fw_writes_ok isLess H1 H2 fuel t xs sf_new I0) as (s2 & E2 & I2 & P2). rewrite E2. cbn [obind].
    assert (Eq : s2 = s).
    { assert (forall ys s0 sa sb, fetchLoop (sortFilter isLess None) s0 ys = Ok (sa, []) -> sf_inv isLess None s0 ->
              fw_writes (sortFilter isLess None) fuel (mkFwrite t s0) ys = Ok (mkFwrite t sb) -> sa = sb) as U.
      { clear - H1 H2. induction ys as [|y ys IH]; intros s0 sa sb A1 J A2.
        - cbn [fetchLoop fw_writes] in *. rewrite (inv_need isLess s0 J) in A1. congruence.
        - cbn [fetchLoop fw_writes] in *. rewrite (inv_need isLess s0 J) in A1. unfold fw_write in A2. cbn [fwFlt fwT] in A2.
          rewrite (inv_need isLess s0 J) in A2. cbn [obind fwFlt fwT] in A2.
          destruct (sf_input_ok isLess H1 H2 None cap_none s0 y J (inv_extra isLess s0 J)) as (s1 & E & J1 & _).
          change (finput (sortFilter isLess None) s0 y) with (sf_input isLess None s0 y) in *. rewrite E in *. cbn [obind fwFlt] in *.
          rewrite (inv_need isLess s1 J1) in A2. cbn [obind] in A2. eapply IH; eauto. }
      symmetry. eapply U; eauto. }
    subst s2. unfold fw_flush, flushCycle. cbn [fwFlt fwT sortFilter fflush]. change (mkFilter _ _ _ _ _) with (sortFilter isLess None).
    assert (Ll : length l = length xs) by (apply Permutation_length in P, Pl; congruence).
    destruct (feed_drains isLess H1 H2 l s t fuel 0 D) as (s3 & E3 & _); [lia|congruence|]. rewrite E3. cbn [obind]. eauto.
Qed.
Print Assumptions sort_filter.
Print Assumptions sort_filter_iter.
Example sort_filter_example : exists r, fr_ops (sortFilter Nat.ltb None) (mkFread [3; 9; 4] sf_new Fetched0) [RPeek; RNext; RNext; RNext; RHas]
  = Ok ([AnsItem 9; AnsItem 9; AnsItem 4; AnsItem 3; AnsBool false], r).
Proof. eexists. vm_compute. reflexivity. Qed.
Example sort_filter_cap_example : exists s t s', sf_holds Nat.ltb (Some 2) s [7; 3; 5] /\ needI (sortFilter Nat.ltb (Some 2)) s = false /\
  sf_output Nat.ltb s = Ok (t, s') /\ t = 7.
Proof.
  exists (mkSortf (mkHeap [5; 3] 2) (Some 7)). do 2 eexists. split; [|split; [|split]]; try reflexivity.
  apply sh_in with (mkSortf (mkHeap [5; 3] 2) None); try reflexivity.
  apply sh_in with (mkSortf (mkHeap [5] 1) None); try reflexivity.
  apply sh_in with sf_new; try reflexivity. constructor.
Qed.

(** C202: a copy of a sorting filter (made also when the filter is handed to a filtering
    iterator) holding [n] items gives its largest item [n] times; an item beyond the room is
    lost by copying. *)
Theorem sort_filter_copy_refuted : forall A (isLess : A -> A -> bool), strict_weak isLess -> forall cap, cap <> Some 0 -> forall s b, sf_holds isLess cap s b -> b <> [] ->
  (needI (sortFilter isLess cap) s = true -> exists t s', In t b /\ Forall (fun x => isLess t x = false) b /\ sf_outputs isLess (length b) (sf_copy s) = Ok (repeat t (length b), s')) /\
  (needI (sortFilter isLess cap) s = false -> sf_outputs isLess (length b) (sf_copy s) = Throw).
Proof.
  intros A isLess W cap C s b H N. destruct (sf_holds_inv isLess cap W C s b H) as [I P]. destruct W as [H1 H2]. unfold sf_copy.
  assert (Out : forall a l n, length l = n -> sf_outputs isLess (S (S n)) (mkSortf (mkHeap (a :: l) 0) None) = Throw).
  { intros a l n L. assert (G : forall m s0 xs s1, sf_outputs isLess m s0 = Ok (xs, s1) -> sf_outputs isLess (m + 1) s0 = let! (x, s2) := sf_output isLess s1 in Ok (xs ++ [x], s2)).
    { induction m as [|m IH]; intros s0 xs s1 E; cbn [sf_outputs Nat.add] in *.
      - injection E as <- <-. destruct (sf_output isLess s0) as [[x s2]| | |]; reflexivity.
      - destruct (sf_output isLess s0) as [[x s2]| | |] eqn:Q; try discriminate. cbn [obind] in *.
        destruct (sf_outputs isLess m s2) as [[ys s3]| | |] eqn:Q2; try discriminate. cbn [obind] in E. injection E as <- <-.
        rewrite (IH s2 ys s3 Q2). destruct (sf_output isLess s3) as [[z s4]| | |]; reflexivity. }
    pose proof (copy_outputs isLess H1 H2 a n l L) as E. specialize (G _ _ _ _ E). rewrite <- (Nat.add_1_r (S n)). rewrite G. reflexivity. }
  destruct (arr (sfHeap s)) as [|a l] eqn:Ar.
  { exfalso. pose proof (sf_has isLess cap C s I) as Hs. cbn in Hs. rewrite Ar in Hs. destruct (sf_bag s) eqn:B; [|discriminate].
    apply Permutation_nil in P. congruence. }
  pose proof (Permutation_length P) as L. unfold sf_bag in L, P. rewrite Ar in L, P. split; intros X.
  - assert (E : sfExtra s = None) by (cbn in X; destruct (sfExtra s); congruence). rewrite E, app_nil_r in L, P.
    exists a, (mkSortf (mkHeap [] 0) None). split; [apply (Permutation_in _ P); left; auto|]. split.
    + pose proof (heap_top_max isLess H1 H2 a (sfHeap s) (si_heap _ _ _ I a) (si_size _ _ _ I) a) as M. rewrite Ar in M.
      specialize (M eq_refl). apply Forall_forall. intros x Hx. rewrite Forall_forall in M. apply M, (Permutation_in _ (Permutation_sym P)), Hx.
    + rewrite <- L. apply (copy_outputs isLess H1 H2 a (length l) l eq_refl).
  - assert (E : exists e, sfExtra s = Some e) by (cbn in X; destruct (sfExtra s); [eauto|discriminate]). destruct E as [e E]. rewrite E in L.
    rewrite app_length in L. cbn [length] in L. rewrite <- L. rewrite Nat.add_1_r. apply (Out a l (length l) eq_refl).
Qed.
Print Assumptions sort_filter_copy_refuted.
Example sort_filter_copy_example : sf_outputs Nat.ltb 3 (sf_copy (mkSortf (mkHeap [9; 3; 4] 3) None)) = Ok ([9; 9; 9], mkSortf (mkHeap [] 0) None).
Proof. vm_compute. reflexivity. Qed.

(** C203: the concatenating merge iterator reads the left stream and then the right one. *)
Theorem merge_concat : forall A (l r : list A) os, exists m, mg_ops concatFn (mg_new l r) os = Ok (fst (read_ops (l ++ r) os), m).
Proof. intros A l r os. destruct (mg_ops_ok concatFn os _ _ (mg_new_rest concatFn l r _ (concat_run l r))) as (m & E & _). eauto. Qed.
Print Assumptions merge_concat.
Example merge_concat_example : exists m, mg_ops concatFn (mg_new [1; 2] [3]) [RNext; RHas; RNext; RPeek; RNext; RNext; RHas]
  = Ok ([AnsItem 1; AnsBool true; AnsItem 2; AnsItem 3; AnsItem 3; AnsEnd; AnsBool false], m).
Proof. eexists. reflexivity. Qed.

(** C204: merging two sorted streams.  Right when the right stream does not go beyond the left
    one: without duplicates, the increasing stream of the items of both; with duplicates, all
    items in order. *)
Theorem merge_sort_partial : forall l r : list Z,
  (StronglySorted Z.lt l -> StronglySorted Z.lt r -> (forall y, In y r -> exists x, In x l /\ (y <= x)%Z) ->
   exists out, StronglySorted Z.lt out /\ (forall z, In z out <-> In z l \/ In z r) /\
     forall os, exists m, mg_ops (sortFn Z.ltb false) (mg_new l r) os = Ok (fst (read_ops out os), m)) /\
  (StronglySorted Z.le l -> StronglySorted Z.le r -> (forall y, In y r -> exists x, In x l /\ (y < x)%Z) ->
   exists out, StronglySorted Z.le out /\ Permutation (l ++ r) out /\
     forall os, exists m, mg_ops (sortFn Z.ltb true) (mg_new l r) os = Ok (fst (read_ops out os), m)).
Proof.
  intros l r. split; intros Sl Sr H.
  - destruct (sort_run _ l r (Nat.le_refl _) Sl Sr H) as (out & M & S & I). exists out. split; auto. split; auto. intros os.
    destruct (mg_ops_ok _ os _ _ (mg_new_rest _ l r _ M)) as (m & E & _). eauto.
  - destruct (sort_run_dups _ l r (Nat.le_refl _) Sl Sr H) as (out & M & S & I). exists out. split; auto. split; auto. intros os.
    destruct (mg_ops_ok _ os _ _ (mg_new_rest _ l r _ M)) as (m & E & _). eauto.
Qed.
(** Whenever the right stream holds an item larger than everything in the left one, reading
    comes to a comparison with a null pointer. *)
Theorem merge_sort_refuted : forall l r : list Z, StronglySorted Z.lt l -> StronglySorted Z.lt r ->
  (exists y, In y r /\ forall x, In x l -> (x < y)%Z) -> exists n, mg_ops (sortFn Z.ltb false) (mg_new l r) (repeat RNext n) = Undef.
Proof. intros l r _ _ H. exact (sort_undef _ l r (mg_new l r) (Nat.le_refl _) eq_refl eq_refl eq_refl H). Qed.
Print Assumptions merge_sort_partial.
Print Assumptions merge_sort_refuted.
Example merge_sort_example : exists m, mg_ops (sortFn Z.ltb false) (mg_new [1; 4; 9] [2; 4; 7])%Z (repeat RNext 6)
  = Ok ([AnsItem 1; AnsItem 2; AnsItem 4; AnsItem 7; AnsItem 9; AnsEnd]%Z, m).
Proof. eexists. vm_compute. reflexivity. Qed.
Example merge_sort_bad_example : mg_ops (sortFn Z.ltb false) (mg_new [1] [2])%Z (repeat RNext 2) = Undef.
Proof. vm_compute. reflexivity. Qed.

(** C205: the count of remaining items of a merge iterator is one too high right after an item
    was taken. *)
Theorem merge_remain_refuted : forall A (x : A) l r, exists m,
  mg_remain (mg_new (x :: l) r) = length ((x :: l) ++ r) /\ mg_op concatFn (mg_new (x :: l) r) RNext = Ok (AnsItem x, m) /\
  mg_remain m = length (l ++ r) + 1 /\ forall os, exists m', mg_ops concatFn m os = Ok (fst (read_ops (l ++ r) os), m').
Proof.
  intros A x l r. eexists. split; [unfold mg_remain; cbn; now rewrite app_length|]. split; [reflexivity|].
  split; [unfold mg_remain; cbn; rewrite app_length; lia|]. intros os.
  destruct (mg_ops_ok concatFn os (mkMerge (x :: l) r false (mkMres (Some x) true false)) (l ++ r)) as (m & E & _); [|eauto].
  exists l, r. cbn. split; auto. split; auto. apply concat_run.
Qed.
Print Assumptions merge_remain_refuted.

(** C206: a limiter of [count] items reads the first [count] items, says how many are left, and
    as a writer takes at most [count] items. *)
Theorem limiter : forall A (count : nat),
  (forall (src : list A) os, fst (rl_ops (rl_new src count 0) os) = fst (read_ops (firstn count src) os)) /\
  (forall src : list A, rl_remain (rl_new src count 0) = length (firstn count src)) /\
  (forall (t : target A) xs, wl_writes (mkWlimit t count) xs =
     if (length xs <=? count) && t_fits t (length xs) then Ok (mkWlimit (t_push t xs) (count - length xs)) else Throw) /\
  (forall (t : target A) x, wl_hasItems (mkWlimit t count) = true <-> exists w, wl_write (mkWlimit t count) x = Ok w) /\
  (forall (t : target A) src limit, exists k, wl_copy (mkWlimit t count) src limit = Ok (k, skipn k src, mkWlimit (t_push t (firstn k src)) (count - k)) /\
     k <= length src /\ k <= count /\ t_fits t k = true /\ match limit with Some m => k <= m | None => True end /\
     (k < length src -> k = count \/ limit = Some k \/ t_fits t (k + 1) = false)).
Proof.
  intros A count. split; [|split; [|split; [|split]]].
  - intros src os. exact (rl_ops_ok os (mkRlimit src count)).
  - intros src. unfold rl_remain, rl_new. cbn [rlSrc rlCount]. rewrite firstn_length. destruct (Nat.ltb_spec (length src) count); lia.
  - intros t xs. apply (wl_writes_ok xs (mkWlimit t count)).
  - intros t x. unfold wl_hasItems, wl_write. cbn [wlT wlCount]. destruct count as [|c]; cbn [Nat.eqb Nat.ltb Nat.leb andb].
    + split; [discriminate|]. intros (w & E). discriminate.
    + destruct (t_open t) eqn:O.
      * rewrite (t_write_ok _ _ O). cbn. split; eauto.
      * rewrite (t_write_full _ _ O). cbn. split; [discriminate|]. intros (w & E). discriminate.
  - intros t src limit. unfold wl_copy. cbn [wlT wlCount].
    set (lim := match limit with Some m => if count <? m then count else m | None => count end).
    destruct (copy_ok src t (Some lim) 0) as (k & E & L & F & M & N). rewrite E. cbn [obind Nat.add]. exists k.
    assert (Lc : lim <= count) by (unfold lim; destruct limit as [m|]; auto; destruct (Nat.ltb_spec count m); lia).
    specialize (M (Nat.le_0_l _)). cbn [Nat.add] in M. split; auto. split; auto. split; [lia|]. split; auto. split.
    { unfold lim in M. destruct limit as [m|]; auto. destruct (Nat.ltb_spec count m); lia. }
    intros Q. destruct (N Q) as [N1|[N1|(m & _ & N1)]]; [|right; right|lia].
    + injection N1 as N1. cbn [Nat.add] in N1. unfold lim in N1. destruct limit as [m|]; [|left; lia].
      destruct (Nat.ltb_spec count m); [left; lia|right; left; f_equal; lia].
    + unfold t_open, t_push in N1. unfold t_fits in *. cbn [troom] in N1. destruct (troom t) as [r|]; [|discriminate].
      rewrite firstn_length in N1. destruct (r - min k (length src)) eqn:Z; [|discriminate]. apply Nat.leb_gt. lia.
Qed.
Print Assumptions limiter.
Example limiter_example : fst (rl_ops (rl_new [5; 6; 7] 2 0) [RNext; RHas; RNext; RHas; RNext]) = [AnsItem 5; AnsBool true; AnsItem 6; AnsBool false; AnsEnd].
Proof. reflexivity. Qed.

(** C207: the offset given to a limiter has no effect on what is read, and a full limiter says
    it accepts an item and then throws. *)
Theorem limiter_offset_refuted : forall A (x : A),
  (forall (src : list A) count offset os, fst (rl_ops (rl_new src count offset) os) = fst (read_ops (firstn count src) os)) /\
  (forall src c offset, fst (rl_ops (rl_new (x :: src) (S c) offset) [RNext]) = [AnsItem x]) /\
  (forall t : target A, t_open t = true -> wl_canAccept (mkWlimit t 0) x = true /\ wl_write (mkWlimit t 0) x = Throw).
Proof.
  intros A x. split; [|split].
  - intros src count offset os. exact (rl_ops_ok os (mkRlimit src count)).
  - reflexivity.
  - intros t O. split; [exact O|reflexivity].
Qed.
Print Assumptions limiter_offset_refuted.

(** C208: the default block operations.  Block reading fills the array with the next items;
    asked for all of them it throws when there are too few.  Block writing and copying move
    the first items in order, as many as fit. *)
Theorem block_defaults : forall A,
  (forall (src buf : list A) readAll, blockRead src buf readAll =
     Ok (if readAll && (length src <? length buf) then None else Some (min (length src) (length buf)),
         firstn (length buf) src ++ skipn (length src) buf, skipn (length buf) src)) /\
  (forall (buf : list A) t b, t_fits t (length buf) = true -> blockWrite buf t b = Ok (Some (length buf), t_push t buf)) /\
  (forall (buf : list A) t, t_fits t (length buf) = false -> exists k, k < length buf /\ t_fits t k = true /\ t_fits t (k + 1) = false /\
     blockWrite buf t true = Ok (None, t_push t (firstn k buf)) /\ blockWrite buf t false = Ok (Some k, t_push t (firstn k buf))) /\
  (forall (src : list A) t limit, exists k, copy src t limit 0 = Ok (k, skipn k src, t_push t (firstn k src)) /\
     k <= length src /\ t_fits t k = true /\ match limit with Some m => k <= m | None => True end /\
     (k < length src -> limit = Some k \/ t_fits t (k + 1) = false)).
Proof.
  intros A. split; [|split; [|split]].
  - intros. apply blockRead_ok.
  - intros. now apply blockWrite_fits.
  - intros buf t F. destruct (blockWrite_short buf t F) as (k & t' & L & Fk & -> & O & E1 & E2). exists k. split; auto. split; auto. split; [|auto].
    unfold t_open, t_push in O. unfold t_fits in *. cbn [troom] in O. destruct (troom t) as [r|]; [|discriminate].
    rewrite firstn_length in O. destruct (r - min k (length buf)) eqn:Z; [|discriminate]. apply Nat.leb_gt. lia.
  - intros src t limit. destruct (copy_ok src t limit 0) as (k & E & L & F & M & N). exists k. cbn [Nat.add] in *. split; auto. split; auto. split; auto.
    split; [destruct limit; auto; apply M; lia|]. intros Q. destruct (N Q) as [N1|[N1|(m & _ & N1)]]; [auto| |lia]. right.
    unfold t_open, t_push in N1. unfold t_fits in *. cbn [troom] in N1. destruct (troom t) as [r|]; [|discriminate].
    rewrite firstn_length in N1. destruct (r - min k (length src)) eqn:Z; [|discriminate]. apply Nat.leb_gt. lia.
Qed.
Print Assumptions block_defaults.
Example block_defaults_example : blockRead [1; 2; 3] [0; 0] true = Ok (Some 2, [1; 2], [3]) /\ blockWrite [1; 2; 3] (mkTarget [9] (Some 2)) false = Ok (Some 2, mkTarget [9; 1; 2] (Some 0)).
Proof. split; reflexivity. Qed.

(** C209: block copying moves all items up to the limit, and always says it copied none. *)
Theorem block_copy_refuted : forall A (src buf : list A) t limit, 1 <= length buf ->
  let n := match limit with Some m => min m (length src) | None => length src end in
  t_fits t n = true -> blockCopy src t buf limit = Ok (Some 0, skipn n src, t_push t (firstn n src)).
Proof. intros A src buf t limit B n F. unfold blockCopy. apply blockCopyLoop_ok; auto. Qed.
Print Assumptions block_copy_refuted.
Example block_copy_example : blockCopy [1; 2; 3; 4; 5] (mkTarget [] None) [0; 0] (Some 3) = Ok (Some 0, [4; 5], mkTarget [1; 2; 3] None).
Proof. vm_compute. reflexivity. Qed.
