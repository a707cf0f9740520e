(** Linked list: properties C23, C62 to C65. *)
From Verif Require Import Common LinkedList_Spec LinkedList_Model LinkedList_Proof.

Section Props.
  Context {A : Type}.

  (** C62.  Every history of calls on a new list gives the answers of the plain list, and
      reading the list at the end gives the plain list, for every history that removes
      through an iterator only first items and items followed by another one. *)
  Theorem C62_list : forall os : list (lop A),
    keeps_last [] os ->
    exists m l, run ([], empty_list) os = Ok (fst (lspec_run [] os), (m, l)) /\
      items m l = Ok (snd (lspec_run [] os)).
  Proof.
    intros os K. destruct (run_ok os [] empty_list [] [] (rep_nil []) K) as (m & l & ps & E & R).
    exists m, l. split; [exact E|]. eapply items_ok; eauto.
  Qed.

  (** C62.  The iterator returned by an admissible removal stands at the item that followed. *)
  Theorem C62_erase_iterator : forall (os : list (lop A)) i,
    keeps_last [] (os ++ [LErase i]) ->
    exists m l m' l' it r,
      run ([], empty_list) os = Ok (r, (m, l)) /\
      (let! k := iterAt m l i in erase m l k) = Ok (m', l', it) /\ iterAt m' l' i = Ok it.
  Proof.
    intros os i K.
    assert (H : keeps_last [] os /\ keeps_last_step (snd (lspec_run [] os)) (LErase i)).
    { clear - K. revert K. generalize (@nil A). induction os as [|o os IH]; intros xs K.
      - destruct K; split; simpl; auto.
      - simpl in K. destruct K as [K1 K2]. apply IH in K2. destruct K2 as [K2 K3].
        split; [split; auto|]. simpl lspec_run.
        destruct (lspec_step xs o) as [a xs'] eqn:Es. simpl in *.
        destruct (lspec_run xs' os) as [r xs'']; auto. }
    destruct H as [K1 K2].
    destruct (run_ok os [] empty_list [] [] (rep_nil []) K1) as (m & l & ps & E & R).
    destruct (erase_ok _ _ _ _ _ R K2) as (m' & l' & it & ps' & E' & R' & Hit & _).
    do 6 eexists. split; [exact E|]. split; [exact E'|exact Hit].
  Qed.

  (** C62.  Assigning one list to another, after any two histories, gives the same items, and
      the source keeps its items.  (The histories run one after the other in one memory.) *)
  Theorem C62_assign : forall os os' : list (lop A),
    keeps_last [] os -> keeps_last [] os' ->
    exists m1 l1 m2 l2 m3 l3,
      run ([], empty_list) os = Ok (fst (lspec_run [] os), (m1, l1)) /\
      run (m1, empty_list) os' = Ok (fst (lspec_run [] os'), (m2, l2)) /\
      assign m2 l2 l1 = Ok (m3, l3) /\
      items m3 l3 = Ok (snd (lspec_run [] os)) /\
      items m3 l1 = Ok (snd (lspec_run [] os)).
  Proof.
    intros os os' K K'.
    destruct (run_ok os [] empty_list [] [] (rep_nil []) K) as (m1 & l1 & ps & E & R).
    destruct (run_ok_grows os' m1 empty_list [] [] (rep_nil m1) K')
      as (m2 & l2 & qs & E' & R' & F & D).
    assert (R1 : rep m2 l1 ps (snd (lspec_run [] os))).
    { destruct R as (Hn & Hc & El). split; [auto|]. split; [|auto].
      eapply frame_chain; [exact F| |exact Hc]. simpl. auto. }
    destruct (assign_ok _ _ _ _ _ _ _ R' R1) as (m3 & l3 & ps' & E3 & R3 & R3').
    { intros q Hq Hi. destruct R as (_ & Hc & _). pose proof (chain_lt _ _ _ _ _ Hc Hq).
      destruct (D _ Hi) as [[]|]. lia. }
    do 6 eexists. split; [exact E|]. split; [exact E'|]. split; [exact E3|].
    split; eapply items_ok; eauto.
  Qed.

  (** C23 (copying).  A copied list holds the items in reversed order. *)
  Theorem C23_copy_refuted : forall os : list (lop A),
    keeps_last [] os ->
    exists m l m' c, run ([], empty_list) os = Ok (fst (lspec_run [] os), (m, l)) /\
      copy m l = Ok (m', c) /\ items m' c = Ok (rev (snd (lspec_run [] os))).
  Proof.
    intros os K. destruct (run_ok os [] empty_list [] [] (rep_nil []) K) as (m & l & ps & E & R).
    destruct (copy_ok _ _ _ _ R) as (m' & c & ps' & E' & R' & _).
    do 4 eexists. split; [exact E|]. split; [exact E'|]. eapply items_ok; eauto.
  Qed.

  (** C23 (removal).  After the last item of a list of two or more items was removed through an
      iterator, the next append writes to the destroyed node. *)
  Theorem C23_erase_last_refuted : forall (xs : list A) x y v,
    exists m l m' l' it r,
      run ([], empty_list) (map LAdd (xs ++ [x; y])) = Ok (r, (m, l)) /\
      (let! k := iterAt m l (S (length xs)) in erase m l k) = Ok (m', l', it) /\
      add m' l' v = Undef /\ getLast m' l' = Undef.
  Proof. apply erase_last_undef. Qed.

  (** C63.  On a const list the last item asked for is the first one. *)
  Theorem C63_getLast_const_refuted : forall os : list (lop A),
    keeps_last [] os ->
    exists m l, run ([], empty_list) os = Ok (fst (lspec_run [] os), (m, l)) /\
      getLastConst m l =
        match hd_error (snd (lspec_run [] os)) with Some x => Ok x | None => Throw end.
  Proof.
    intros os K. destruct (run_ok os [] empty_list [] [] (rep_nil []) K) as (m & l & ps & E & R).
    do 2 eexists. split; [exact E|]. eapply getLastConst_ok; eauto.
  Qed.

  (** C64.  Removing through the iterator that add returned removes the first item instead of
      the item just added. *)
  Theorem C64_returned_iterator_refuted : forall (os : list (lop A)) v,
    keeps_last [] os ->
    exists m l m' l' it m2 l2 it2,
      run ([], empty_list) os = Ok (fst (lspec_run [] os), (m, l)) /\
      add m l v = Ok (m', l', it) /\ peek m' it = Ok v /\
      erase m' l' it = Ok (m2, l2, it2) /\
      items m2 l2 = Ok (tl (snd (lspec_run [] os) ++ [v])).
  Proof.
    intros os v K. destruct (run_ok os [] empty_list [] [] (rep_nil []) K) as (m & l & ps & E & R).
    destruct (add_ok _ _ _ _ v R) as (m' & l' & it & E' & R' & _ & ->).
    destruct (erase_prev0 _ _ _ _ (Some (length m)) R') as (m2 & l2 & it2 & ps2 & E2 & R2).
    do 8 eexists. split; [exact E|]. split; [exact E'|]. split; [|split; [exact E2|]].
    - unfold peek. cbn [cur isNull].
      destruct R' as (_ & Hc & _). apply chain_app in Hc.
      + destruct Hc as [_ [Hn _]]. rewrite (load_some _ _ _ Hn). reflexivity.
      + eapply rep_length; eauto.
    - eapply items_ok; eauto.
  Qed.

  (** C65.  Assigning a list to itself empties it. *)
  Theorem C65_self_assign_refuted : forall os : list (lop A),
    keeps_last [] os ->
    exists m l m', run ([], empty_list) os = Ok (fst (lspec_run [] os), (m, l)) /\
      self_assign m l = Ok (m', empty_list) /\ items m' empty_list = Ok [].
  Proof.
    intros os K. destruct (run_ok os [] empty_list [] [] (rep_nil []) K) as (m & l & ps & E & R).
    destruct (self_assign_ok _ _ _ _ R) as (m' & E' & _).
    do 3 eexists. split; [exact E|]. split.
    - unfold self_assign. rewrite E'. reflexivity.
    - reflexivity.
  Qed.
End Props.

Print Assumptions C62_list.
Print Assumptions C62_erase_iterator.
Print Assumptions C62_assign.
Print Assumptions C23_copy_refuted.
Print Assumptions C23_erase_last_refuted.
Print Assumptions C63_getLast_const_refuted.
Print Assumptions C64_returned_iterator_refuted.
Print Assumptions C65_self_assign_refuted.

(** An admissible history with insertions in the middle and removals. *)
Example admissible_history :
  keeps_last (A := nat) [] [LAdd 1; LAdd 2; LInsertFirst 0; LInsertAfter 2 3; LInsertBefore 1 9;
                  LErase 1; LErase 2; LEraseFirst; LInsertAfter 7 5; LItems; LGetLast].
Proof. simpl. lia. Qed.

Example admissible_answers :
  lspec_run (A := nat) [] [LAdd 1; LAdd 2; LInsertFirst 0; LInsertAfter 2 3; LInsertBefore 1 9;
                  LErase 1; LErase 2; LEraseFirst; LInsertAfter 7 5; LItems; LGetLast]
  = ([LDone; LDone; LDone; LDone; LDone; LDone; LDone; LDone; LFailed; LAll [1; 3]; LItem 3],
     [1; 3]).
Proof. reflexivity. Qed.

Example copy_example :
  exists m l m' c, run (A := nat) ([], empty_list) [LAdd 1; LAdd 2; LAdd 3] = Ok ([LDone; LDone; LDone], (m, l)) /\
    copy m l = Ok (m', c) /\ items m' c = Ok [3; 2; 1].
Proof. do 4 eexists. split; [reflexivity|]. split; reflexivity. Qed.
