(** Facts about the converter drivers that hold for every converter. *)
From Verif Require Import Common Conv_Model.

Section Generic.
  Context {S A B : Type} (c : conv S A B).

  Lemma drain_n_no_items f s r s' : drain_n c f s = Ok (r, s') -> cv_has c s' = false.
  Proof.
    revert s r s'; induction f as [|f IH]; intros s r s'; cbn [drain_n];
      destruct (cv_has c s) eqn:Hh; intros H; try discriminate.
    - injection H as <- <-; auto.
    - destruct (cv_next c s) as [[b s1]| | |]; try discriminate; cbn [obind] in H.
      destruct (drain_n c f s1) as [[r2 s2]| | |] eqn:E; try discriminate; cbn [obind] in H.
      injection H as <- <-. eapply IH; eauto.
    - injection H as <- <-; auto.
  Qed.

  Lemma drain_no_items s r s' : drain c s = Ok (r, s') -> cv_has c s' = false.
  Proof. apply drain_n_no_items. Qed.

  Lemma drain_n_empty f s : cv_has c s = false -> drain_n c f s = Ok ([], s).
  Proof. intros H. destruct f; cbn [drain_n]; rewrite H; reflexivity. Qed.

  Lemma drain_empty s : cv_has c s = false -> drain c s = Ok ([], s).
  Proof. apply drain_n_empty. Qed.

  Lemma drain_n_step f s b s1 :
    cv_has c s = true -> cv_next c s = Ok (b, s1) ->
    drain_n c (Datatypes.S f) s = (let! (r, s2) := drain_n c f s1 in Ok (b :: r, s2)).
  Proof. intros H1 H2. cbn [drain_n]. rewrite H1, H2. reflexivity. Qed.

  (** writing all items one by one and writing them as a block are the same thing
      as long as the block write does not stop at an end of logical block *)
  Lemma block_loop_writes s xs o s' :
    cv_has c s = false ->
    block_loop c s xs = Ok (o, s', length xs) -> writes c s xs = Ok (o, s').
  Proof.
    revert s o s'; induction xs as [|x xs IH]; intros s o s' Hs; cbn [block_loop writes length].
    - intros H. injection H as <- <-; reflexivity.
    - destruct (cv_eolb c s) eqn:He; [discriminate|].
      unfold writeToIter. rewrite drain_empty by auto. cbn [obind].
      destruct (cv_write c s x) as [s1| | |]; try discriminate; cbn [obind].
      destruct (drain c s1) as [[o1 s2]| | |] eqn:Ed; try discriminate; cbn [obind].
      destruct (block_loop c s2 xs) as [[[o2 s3] n]| | |] eqn:Eb; try discriminate; cbn [obind].
      intros H. injection H as <- <- Hn.
      rewrite (IH s2 o2 s3); cbn [obind app]; auto.
      + eapply drain_no_items; eauto.
      + rewrite Eb, Hn. reflexivity.
  Qed.

  Lemma writes_no_items s xs o s' :
    cv_has c s = false -> writes c s xs = Ok (o, s') -> cv_has c s' = false.
  Proof.
    revert s o s'; induction xs as [|x xs IH]; intros s o s' Hs; cbn [writes].
    - intros H; injection H as <- <-; auto.
    - unfold writeToIter. rewrite drain_empty by auto. cbn [obind].
      destruct (cv_write c s x) as [s1| | |]; try discriminate; cbn [obind].
      destruct (drain c s1) as [[o1 s2]| | |] eqn:Ed; try discriminate; cbn [obind].
      destruct (writes c s2 xs) as [[o2 s3]| | |] eqn:Eb; try discriminate; cbn [obind].
      intros H; injection H as <- <-. apply (IH s2 o2 s3); auto. eapply drain_no_items; eauto.
  Qed.

  Lemma writes_app s xs ys o1 s1 o2 s2 :
    writes c s xs = Ok (o1, s1) -> writes c s1 ys = Ok (o2, s2) ->
    writes c s (xs ++ ys) = Ok (o1 ++ o2, s2).
  Proof.
    revert s o1; induction xs as [|x xs IH]; intros s o1; cbn [writes app].
    - intros H; injection H as <- <-; auto.
    - destruct (writeToIter c s x) as [[a sa]| | |]; try discriminate; cbn [obind].
      destruct (writes c sa xs) as [[b sb]| | |] eqn:E; try discriminate; cbn [obind].
      intros H H2; injection H as <- <-. erewrite IH; eauto. cbn [obind].
      rewrite app_assoc. reflexivity.
  Qed.

  (** Splitting the data over several block writes changes nothing. *)
  Lemma block_loop_app s xs ys o1 s1 o2 s2 n :
    block_loop c s xs = Ok (o1, s1, length xs) -> block_loop c s1 ys = Ok (o2, s2, n) ->
    block_loop c s (xs ++ ys) = Ok (o1 ++ o2, s2, length xs + n).
  Proof.
    revert s o1; induction xs as [|x xs IH]; intros s o1; cbn [block_loop app length].
    - intros H; injection H as <- <-; auto.
    - destruct (cv_eolb c s); [discriminate|].
      destruct (cv_write c s x) as [sa| | |]; try discriminate; cbn [obind].
      destruct (drain c sa) as [[a sb]| | |]; try discriminate; cbn [obind].
      destruct (block_loop c sb xs) as [[[b sc] m]| | |] eqn:E; try discriminate; cbn [obind].
      intros H H2; injection H as <- <- Hm. subst m. erewrite IH; eauto. cbn [obind].
      rewrite app_assoc. reflexivity.
  Qed.

  Lemma pull_drain f s src o s' fuel r :
    drain_n c f s = Ok (o, s') ->
    pull_n c fuel s' src = Ok r ->
    pull_n c (length o + fuel) s src = Ok (o ++ r).
  Proof.
    revert s o; induction f as [|f IH]; intros s o; cbn [drain_n];
      destruct (cv_has c s) eqn:Hh; intros H Hp; try discriminate.
    - injection H as <- <-; auto.
    - destruct (cv_next c s) as [[b s1]| | |] eqn:En; try discriminate; cbn [obind] in H.
      destruct (drain_n c f s1) as [[o2 s2]| | |] eqn:Ed; try discriminate; cbn [obind] in H.
      injection H as <- <-. cbn [length plus].
      cbn [pull_n]. unfold ri_hasItems.
      assert (E1 : hasItemsFromIter c s src = Ok (true, s, src))
        by (destruct src; cbn [hasItemsFromIter]; rewrite Hh; auto).
      assert (E2 : getNextFromIter c s src = Ok (b, s1, src))
        by (destruct src; cbn [getNextFromIter]; rewrite Hh, En; auto).
      rewrite E1. cbn [obind]. rewrite E2. cbn [obind].
      rewrite (IH s1 o2); auto.
    - injection H as <- <-; auto.
  Qed.

  Lemma pull_skip fuel s src s1 x :
    cv_has c s = false -> cv_eolb c s = false -> cv_write c s x = Ok s1 ->
    pull_n c fuel s (x :: src) = pull_n c fuel s1 src.
  Proof.
    intros H1 H2 H3.
    assert (E : hasItemsFromIter c s (x :: src) = hasItemsFromIter c s1 src)
      by (cbn [hasItemsFromIter]; rewrite H1, H2, H3; reflexivity).
    destruct fuel; cbn [pull_n]; unfold ri_hasItems; rewrite E; reflexivity.
  Qed.

  Lemma pull_n_mono f s src r k :
    pull_n c f s src = Ok r -> pull_n c (f + k) s src = Ok r.
  Proof.
    revert s src r; induction f as [|f IH]; intros s src r; cbn [pull_n plus].
    - destruct k; cbn [pull_n]; auto.
      destruct (ri_hasItems c s src) as [[[h s1] src1]| | |]; cbn [obind]; auto.
      destruct h; [discriminate|auto].
    - destruct (ri_hasItems c s src) as [[[h s1] src1]| | |]; cbn [obind]; auto.
      destruct h; auto.
      destruct (getNextFromIter c s1 src1) as [[[b s2] src2]| | |]; cbn [obind]; auto.
      destruct (pull_n c f s2 src2) as [r2| | |] eqn:E; try discriminate; cbn [obind].
      intros H; rewrite (IH _ _ _ E); auto.
  Qed.

  Lemma pull_end s src s3 :
    cv_has c s = false -> (src = [] \/ cv_eolb c s = true) ->
    cv_flush c s = Ok s3 -> cv_has c s3 = false ->
    pull_n c 0 s src = Ok [].
  Proof.
    intros H1 H2 H3 H4. cbn [pull_n]. unfold ri_hasItems.
    assert (E : hasItemsFromIter c s src = Ok (false, s, src)).
    { destruct src; cbn [hasItemsFromIter]; rewrite H1;
        destruct (cv_eolb c s); auto; destruct H2; discriminate. }
    rewrite E. cbn [obind]. rewrite H3. cbn [obind]. rewrite H4. reflexivity.
  Qed.

  Lemma pull_flush s src s2 o s3 s4 :
    cv_has c s = false -> (src = [] \/ (cv_eolb c s = true /\ cv_eolb c s3 = true)) ->
    cv_flush c s = Ok s2 -> drain c s2 = Ok (o, s3) ->
    cv_flush c s3 = Ok s4 -> cv_has c s4 = false ->
    pull_n c (length o) s src = Ok o.
  Proof.
    intros H1 H2 H3 H4 H5 H6.
    destruct o as [|b o].
    - eapply pull_end; eauto; [tauto|].
      unfold drain in H4. destruct drain_fuel; cbn [drain_n] in H4.
      + destruct (cv_has c s2); try discriminate; auto.
      + destruct (cv_has c s2); auto.
        destruct (cv_next c s2) as [[? ?]| | |]; try discriminate. cbn [obind] in H4.
        destruct (drain_n c n s0) as [[? ?]| | |]; try discriminate.
    - unfold drain in H4. revert H4. generalize drain_fuel as f. intros [|f] H4.
      { cbn [drain_n] in H4. destruct (cv_has c s2); discriminate. }
      assert (Hh2 : cv_has c s2 = true).
      { cbn [drain_n] in H4. destruct (cv_has c s2); auto; discriminate. }
      assert (Hend : pull_n c 0 s3 src = Ok []).
      { eapply pull_end; eauto.
        - eapply drain_n_no_items; eauto.
        - tauto. }
      pose proof (pull_drain _ _ src _ _ _ _ H4 Hend) as Hp.
      rewrite app_nil_r, Nat.add_0_r in Hp.
      cbn [length]. cbn [length] in Hp. cbn [pull_n] in Hp |- *. unfold ri_hasItems in *.
      assert (E : hasItemsFromIter c s src = Ok (false, s, src)).
      { destruct src; cbn [hasItemsFromIter]; rewrite H1;
          destruct (cv_eolb c s); auto. destruct H2 as [|[]]; discriminate. }
      assert (E2 : hasItemsFromIter c s2 src = Ok (true, s2, src))
        by (destruct src; cbn [hasItemsFromIter]; rewrite Hh2; auto).
      rewrite E. rewrite E2 in Hp. cbn [obind] in Hp |- *. rewrite H3. cbn [obind].
      rewrite Hh2. exact Hp.
  Qed.

  (** Reading through a converter (ConvertReadIter) produces the same items as
      block-writing the source through it and flushing. *)
  Theorem pull_eq_block s xs o1 s1 n s2 o2 s3 s4 :
    cv_has c s = false ->
    block_loop c s xs = Ok (o1, s1, n) ->
    cv_flush c s1 = Ok s2 -> drain c s2 = Ok (o2, s3) ->
    (n = length xs \/ cv_eolb c s3 = true) ->
    cv_flush c s3 = Ok s4 -> cv_has c s4 = false ->
    forall fuel, length (o1 ++ o2) <= fuel -> pull_n c fuel s xs = Ok (o1 ++ o2).
  Proof.
    intros Hs Hb Hf Hd Hn Hf2 Hh4.
    assert (Hcore : pull_n c (length (o1 ++ o2)) s xs = Ok (o1 ++ o2)).
    { revert s o1 n Hs Hb Hn. induction xs as [|x xs IH]; intros s o1 n Hs Hb Hn; cbn [block_loop] in Hb.
      - injection Hb as <- <- <-. cbn [app]. apply (pull_flush _ _ s2 o2 s3 s4); auto.
      - destruct (cv_eolb c s) eqn:He.
        + injection Hb as <- <- <-. cbn [app].
          apply (pull_flush _ _ s2 o2 s3 s4); auto.
          right; split; auto. destruct Hn as [Hn|Hn]; [discriminate|auto].
        + destruct (cv_write c s x) as [sa| | |] eqn:Ew; try discriminate; cbn [obind] in Hb.
          destruct (drain c sa) as [[oa sb]| | |] eqn:Ed; try discriminate; cbn [obind] in Hb.
          destruct (block_loop c sb xs) as [[[ob sc] m]| | |] eqn:Eb; try discriminate; cbn [obind] in Hb.
          injection Hb as <- <- <-.
          rewrite (pull_skip _ _ _ _ _ Hs He Ew).
          rewrite <- app_assoc. rewrite app_length.
          eapply pull_drain; [exact Ed|]. apply (IH sb ob m); auto.
          * eapply drain_no_items; exact Ed.
          * cbn [length] in Hn. destruct Hn as [Hn|Hn]; auto. }
    intros fuel Hl. replace fuel with (length (o1 ++ o2) + (fuel - length (o1 ++ o2))) by lia.
    apply pull_n_mono; auto.
  Qed.

  Lemma push_all_block s xs o1 s1 s2 o2 s3 :
    cv_has c s = false ->
    block_loop c s xs = Ok (o1, s1, length xs) ->
    cv_flush c s1 = Ok s2 -> drain c s2 = Ok (o2, s3) ->
    push_all c s xs = Ok (o1 ++ o2).
  Proof.
    intros Hs Hb Hf Hd. unfold push_all, flushToIter.
    rewrite (block_loop_writes _ _ _ _ Hs Hb). cbn [obind]. rewrite Hf. cbn [obind].
    rewrite Hd. reflexivity.
  Qed.

  (** A converter that returns to a good idle state after each chunk of input
      translates a sequence of chunks chunk by chunk. *)
  Lemma block_loop_chunks {X} (good : S -> Prop) (okx : X -> Prop) (inp : X -> list A) (outp : X -> list B) :
    (forall s x, good s -> okx x ->
       exists s2, block_loop c s (inp x) = Ok (outp x, s2, length (inp x)) /\ good s2) ->
    forall l s, good s -> Forall okx l ->
    exists s2, block_loop c s (flat_map inp l) = Ok (flat_map outp l, s2, length (flat_map inp l)) /\ good s2.
  Proof.
    intros Hstep l. induction l as [|x l IH]; intros s Hg Hl; cbn [flat_map].
    - exists s. split; auto.
    - inversion Hl; subst.
      destruct (Hstep s x Hg) as (s2 & E1 & G2); auto.
      destruct (IH s2 G2) as (s3 & E2 & G3); auto.
      exists s3. split; auto. rewrite (block_loop_app _ _ _ _ _ _ _ _ E1 E2), app_length. reflexivity.
  Qed.

  (** push and pull for converters whose flush has nothing to say in good states *)
  Lemma chunks_push_pull {X} (good : S -> Prop) (okx : X -> Prop) (inp : X -> list A) (outp : X -> list B) :
    (forall s, good s -> cv_has c s = false) ->
    (forall s, good s -> exists s2, cv_flush c s = Ok s2 /\ good s2) ->
    (forall s x, good s -> okx x ->
       exists s2, block_loop c s (inp x) = Ok (outp x, s2, length (inp x)) /\ good s2) ->
    forall l s, good s -> Forall okx l ->
    push_all c s (flat_map inp l) = Ok (flat_map outp l)
    /\ forall fuel, length (flat_map outp l) <= fuel ->
       pull_n c fuel s (flat_map inp l) = Ok (flat_map outp l).
  Proof.
    intros Hh Hf Hstep l s Hg Hl.
    destruct (block_loop_chunks good okx inp outp Hstep l s Hg Hl) as (s1 & E1 & G1).
    destruct (Hf s1 G1) as (s2 & E2 & G2). destruct (Hf s2 G2) as (s3 & E3 & G3).
    pose proof (drain_empty s2 (Hh s2 G2)) as Ed.
    split.
    - rewrite <- (app_nil_r (flat_map outp l)). eapply push_all_block; eauto.
    - intros fuel Hfl. rewrite <- (app_nil_r (flat_map outp l)).
      eapply pull_eq_block; eauto. rewrite app_nil_r. exact Hfl.
  Qed.
End Generic.
