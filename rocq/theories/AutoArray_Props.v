(** C159-C168: arrays that grow. *)
From Verif Require Import Common AutoArray_Spec AutoArray_Model AutoArray_Proof.

Section Props.
  Context {T : Type} (dflt : T) (limit : option nat) (above : nat -> bool).

  (** what can be seen of an array: its length and its items *)
  Definition shows (a : @arr T) (l : list T) : Prop :=
    used a = length l /\ forall i x, nth_error l i = Some x -> get a i = Ok x.

  Lemma rep_shows a l : rep limit a l -> shows a l.
  Proof.
    intros R. split; [destruct R as (k & E & U & L); exact U|]. intros i x N.
    destruct (get_ok limit above a l i R) as (y & N2 & G); [apply nth_error_Some; congruence|].
    rewrite N in N2. injection N2 as <-. exact G.
  Qed.

  (** the destructor, autoArray.tcc:240-242, runs to its end and leaves no object behind *)
  Definition destroysAll (e : env) (a : @arr T) : Prop :=
    exists e1 a1, clear e a = Ok (true, e1, a1) /\ Forall (eq None) (cells a1).

  (** ** C159: an array is a list *)
  Theorem array_refines_list : forall os, allowedRun dflt limit [] os ->
    exists e a, run dflt limit above (mkEnv None 0 0) (init limit) os = Ok (fst (specRun dflt limit [] os), e, a) /\
      shows a (snd (specRun dflt limit [] os)) /\
      ((N.of_nat (used a) < 2 ^ 64)%N -> destroysAll e a).
  Proof.
    intros os AL. destruct (run_good dflt limit above os (mkEnv None 0 0) (init limit) []) as (e & a & E & R & _);
      [apply init_rep; exact above|exact AL|reflexivity|].
    exists e, a. split; [exact E|]. pose proof (rep_shows _ _ R) as [U G]. split; [split; [exact U|exact G]|].
    intros W. rewrite U in W. destruct (clear_raw limit above e a _ R W) as (e1 & a1 & E1 & _ & F). exists e1, a1. auto.
  Qed.

  (** ** C160: one throwing construction, changes at the end only *)
  Theorem array_exception_safe : forall os b, allowedEnd dflt limit true [] os ->
    exists xs e a l, run dflt limit above (mkEnv b 0 0) (init limit) os = Ok (xs, e, a) /\
      seen dflt limit true [] os xs l /\ shows a l /\
      ((N.of_nat (used a) < 2 ^ 64)%N -> destroysAll e a).
  Proof.
    intros os b AL. destruct (run_seen dflt limit above os true (mkEnv b 0 0) (init limit) []) as (xs & e & a & l & E & R & S);
      [apply init_rep; exact above|exact AL|discriminate|].
    exists xs, e, a, l. split; [exact E|]. split; [exact S|]. pose proof (rep_shows _ _ R) as [U G]. split; [split; [exact U|exact G]|].
    intros W. rewrite U in W. destruct (clear_raw limit above e a _ R W) as (e1 & a1 & E1 & _ & F). exists e1, a1. auto.
  Qed.

  (** an array with these items and room for [k] more *)
  Definition holding (l : list T) (k : nat) : @arr T := mkArr (map Some l ++ repeat None k) (length l).

  Lemma holding_rep l k : match limit with Some c => length l + k = c | None => True end -> rep limit (holding l k) l.
  Proof.
    intros H. exists k. split; [reflexivity|]. split; [reflexivity|]. destruct limit; [|exact I].
    unfold holding. cbn [cells]. rewrite app_length, map_length, repeat_length. exact H.
  Qed.

  (** ** C161: a throwing construction elsewhere *)

  (** Refuted: while room is made for inserted items in the middle the exception is swallowed
      although nothing was moved: the array counts items that do not exist; the inserted items are
      then constructed over living ones. *)
  Theorem insert_exception_refuted : forall l k n at_ x, at_ < length l -> 0 < n -> n <= k ->
    (exists e a, reserveAt limit above (mkEnv (Some 0) 0 0) (holding l k) at_ n = Ok (true, e, a) /\
       used a = length l + n /\ get a (length l) = Undef) /\
    insert limit above (mkEnv (Some 0) 0 0) (holding l k) at_ x n = Undef.
  Proof.
    intros l k n at_ x H1 H2 H3. set (e := mkEnv (Some 0) 0 0).
    set (l1 := firstn at_ l). set (l3 := skipn at_ l).
    assert (EL : l = l1 ++ l3) by (symmetry; apply firstn_skipn).
    assert (LL1 : length l1 = at_) by (unfold l1; rewrite firstn_length; lia).
    assert (LL3 : length l = at_ + length l3) by (rewrite EL, app_length; lia).
    assert (RA : exists e1, reserveAt limit above e (holding l k) at_ n = Ok (true, e1, mkArr (map Some l ++ repeat None k) (length l + n))).
    { unfold reserveAt, addExtra. cbn [holding used cells]. rewrite app_length, map_length, repeat_length.
      destruct (Nat.ltb_spec (length l + k) (length l + n)); [lia|]. cbn [obind used cells holding].
      destruct n as [|d]; [lia|].
      destruct (move_right above e (map Some l1) (repeat None (k - S d)) l3 d at_ (at_ + S d)) as (ok & e2 & E2 & H4);
        [rewrite map_length; lia|lia|].
      replace (map Some l ++ repeat None k) with (map Some l1 ++ map Some l3 ++ repeat None (S d) ++ repeat None (k - S d)).
      2:{ transitivity (map Some (l1 ++ l3) ++ repeat (@None T) k); [|rewrite <- EL; reflexivity].
          rewrite map_app, <- app_assoc, <- repeat_app. do 3 f_equal. lia. }
      replace (length l - at_) with (length l3) by lia.
      assert (OK : ok = false).
      { destruct ok; [|reflexivity]. exfalso. unfold moveItems in E2. destruct (Nat.ltb_spec (at_ + S d) at_); [lia|].
        destruct (length l3) as [|j] eqn:L3; [lia|]. cbn [moveBack] in E2. unfold moveOne in E2.
        destruct (nth_error _ (at_ + j)) as [[y|]|]; try discriminate. unfold copyTo in E2.
        destruct (nth_error _ (at_ + S d + j)) as [[z|]|]; try discriminate. cbn in E2.
        destruct (noThrow _) as [[[[|] ?] ?]| | |] eqn:NT; try discriminate. unfold noThrow in NT.
        destruct (obind_ok _ _ _ NT) as ([[[?|] ?] ?] & _ & Z); discriminate. }
      subst ok. rewrite E2. cbn [obind]. eexists. reflexivity. }
    destruct RA as (e1 & RA). split.
    - do 2 eexists. split; [exact RA|]. split; [reflexivity|]. unfold get. cbn [cells].
      destruct k as [|k]; [lia|]. cbn [repeat]. rewrite nth_mid by (rewrite map_length; reflexivity). reflexivity.
    - unfold insert. cbn [holding used]. destruct (Nat.ltb_spec (length l) at_); [lia|]. destruct (Nat.eqb_spec at_ (length l)); [lia|].
      fold (holding l k). unfold insertIter. rewrite RA. cbn [obind]. destruct n as [|n]; [lia|]. cbn [repeat writeIns cells used].
      unfold copyTo. rewrite nth_error_app1 by (rewrite map_length; lia). rewrite nth_error_map.
      destruct (nth_error l at_) eqn:N; [reflexivity|]. apply nth_error_None in N. lia.
  Qed.

  (** Refuted: when moving the rest throws after items in the middle were destroyed, the
      destroyed items stay in the array. *)
  Theorem erase_exception_refuted : forall l k at_ n, 0 < n -> at_ + n < length l -> (N.of_nat (length l) < 2 ^ 64)%N ->
    exists e a, erase (mkEnv (Some 0) 0 0) (holding l k) at_ (N.of_nat n) = Ok (false, e, a) /\
      used a = length l /\ get a at_ = Undef.
  Proof.
    intros l k at_ n H1 H2 H3. unfold erase. cbn [holding used cells].
    destruct (Nat.ltb_spec (length l) at_); [lia|]. rewrite N.mod_small by lia.
    destruct (N.ltb_spec (N.of_nat (length l)) (N.of_nat at_ + N.of_nat n)); [lia|]. rewrite Nat2N.id.
    destruct (Nat.eqb_spec n 0); [lia|].
    set (l1 := firstn at_ l). set (l2 := firstn n (skipn at_ l)). set (l3 := skipn n (skipn at_ l)).
    assert (EL : l = l1 ++ l2 ++ l3) by (unfold l1, l2, l3; rewrite !firstn_skipn; reflexivity).
    assert (L1 : length l1 = at_) by (unfold l1; rewrite firstn_length; lia).
    assert (L2 : length l2 = n) by (unfold l2; rewrite firstn_length, skipn_length; lia).
    assert (L3 : length l = at_ + n + length l3) by (rewrite EL, !app_length; lia).
    replace (map Some l ++ repeat None k) with (map Some l1 ++ map Some l2 ++ map Some l3 ++ repeat None k).
    2:{ transitivity (map Some (l1 ++ l2 ++ l3) ++ repeat (@None T) k); [|rewrite <- EL; reflexivity]. rewrite !map_app, <- !app_assoc. reflexivity. }
    pose proof (destroyRange_ok l2 (map Some l1) (map Some l3 ++ repeat None k) at_) as D. rewrite L2 in D.
    rewrite D by (rewrite map_length; lia). cbn [obind].
    destruct (unreserveAt_ok above (mkEnv (Some 0) 0 0) _ l1 l3 n k _ eq_refl H1 eq_refl) as (ok & e1 & a1 & E1 & H4).
    rewrite L1, <- L3 in E1. rewrite E1.
    assert (OK : ok = false).
    { destruct ok; [|reflexivity]. exfalso. unfold unreserveAt in E1. cbn [used cells] in E1. unfold moveItems in E1.
      destruct (Nat.ltb_spec at_ (at_ + n)); [|lia].
      replace (length l - at_ - n) with (length l3) in E1 by lia. destruct (length l3) as [|j] eqn:LL; [lia|]. cbn [moveFwd] in E1. unfold moveOne in E1.
      destruct (nth_error _ (at_ + n + 0)) as [[y|]|]; try discriminate. unfold copyTo in E1.
      destruct (nth_error _ (at_ + 0)) as [[z|]|]; try discriminate. }
    subst ok. destruct H4 as [-> _]. do 2 eexists. split; [reflexivity|]. cbn [used]. split; [lia|].
    unfold get. cbn [cells]. destruct n as [|d]; [lia|]. cbn [repeat app]. rewrite nth_mid by (rewrite map_length; lia). reflexivity.
  Qed.

  (** ** C162: references to items of the array itself *)

  (** Refuted: adding one of the array's own items when there is no room reads freed memory. *)
  Theorem add_own_item_refuted : forall e l i, limit = None -> budget e = None -> i < length l ->
    addSelf limit above e (holding l 0) i = Undef.
  Proof.
    intros e l i EL B H. unfold addSelf, addExtra. cbn [holding used cells]. rewrite app_length, map_length. cbn [repeat length].
    destruct (Nat.ltb_spec (length l + 0) (length l + 1)); [|lia]. rewrite EL.
    destruct (realloc_ok limit above e l 0 (Nat.max (length l * 3 / 2) (length l + 1)) EL) as (ok & e1 & E1 & H1); [lia|].
    cbn [repeat] in E1. rewrite E1. cbn [obind]. destruct ok; [|destruct H1; contradiction]. reflexivity.
  Qed.

  (** Partial: with room it is right. *)
  Theorem add_own_item_partial : forall e l k i x, budget e = None -> nth_error l i = Some x ->
    addSelf limit above e (holding l (S k)) i = Ok (true, e, holding (l ++ [x]) k).
  Proof.
    intros e l k i x B N. assert (H : i < length l) by (apply nth_error_Some; congruence).
    unfold addSelf, addExtra. cbn [holding used cells]. rewrite app_length, map_length, repeat_length.
    destruct (Nat.ltb_spec (length l + S k) (length l + 1)); [lia|]. cbn [obind].
    unfold get. cbn [holding cells]. rewrite nth_error_app1 by (rewrite map_length; exact H). rewrite nth_error_map, N. cbn [option_map obind].
    unfold push. cbn [holding used cells repeat]. unfold copyTo. rewrite nth_mid by (rewrite map_length; reflexivity).
    rewrite spend_none by exact B. cbn [obind]. rewrite upd_mid by (rewrite map_length; reflexivity).
    unfold holding. rewrite map_app, app_length, <- app_assoc, Nat.add_1_r. reflexivity.
  Qed.

  (** Refuted: inserting an item of the array itself, with room, inserts the item before it, or
      reads the raw cell when it is the one at the position. *)
  Theorem insert_own_item_refuted : forall e l k at_, budget e = None -> at_ < length l ->
    insertSelf limit above e (holding l (S k)) at_ at_ = Undef /\
    forall i x, at_ <= i -> S i < length l -> nth_error l i = Some x ->
      exists e1, insertSelf limit above e (holding l (S k)) at_ (S i) =
        Ok (true, e1, holding (firstn at_ l ++ [x] ++ skipn at_ l) k).
  Proof.
    intros e l k at_ B H.
    set (l1 := firstn at_ l). set (l3 := skipn at_ l).
    assert (EL : l = l1 ++ l3) by (symmetry; apply firstn_skipn).
    assert (LL1 : length l1 = at_) by (unfold l1; rewrite firstn_length; lia).
    assert (LL3 : length l = at_ + length l3) by (rewrite EL, app_length; lia).
    assert (RA : exists e1, reserveAt limit above e (holding l (S k)) at_ 1 =
      Ok (true, e1, mkArr (map Some l1 ++ [None] ++ map Some l3 ++ repeat None k) (length l + 1)) /\ budget e1 = None).
    { unfold reserveAt, addExtra. cbn [holding used cells]. rewrite app_length, map_length, repeat_length.
      destruct (Nat.ltb_spec (length l + S k) (length l + 1)); [lia|]. cbn [obind used cells holding].
      destruct (move_right above e (map Some l1) (repeat None k) l3 0 at_ (at_ + 1)) as (ok & e2 & E2 & H4);
        [rewrite map_length; lia|lia|].
      replace (map Some l ++ repeat None (S k)) with (map Some l1 ++ map Some l3 ++ repeat None 1 ++ repeat None k).
      2:{ transitivity (map Some (l1 ++ l3) ++ repeat (@None T) (S k)); [|rewrite <- EL; reflexivity].
          rewrite map_app, <- app_assoc, <- repeat_app. reflexivity. }
      replace (length l - at_) with (length l3) by lia. rewrite E2. cbn [obind].
      destruct ok; [|destruct H4; contradiction]. eexists. split; [reflexivity|]. apply H4. exact B. }
    destruct RA as (e1 & RA & B1).
    assert (ST : forall i, insertSelf limit above e (holding l (S k)) at_ i =
      let! x := get (mkArr (map Some l1 ++ [None] ++ map Some l3 ++ repeat None k) (length l + 1)) i in
      writeIns e1 (mkArr (map Some l1 ++ [None] ++ map Some l3 ++ repeat None k) (length l + 1)) at_ 1 [x]).
    { intros i. unfold insertSelf. cbn [holding used]. destruct (Nat.ltb_spec (length l) at_); [lia|]. destruct (Nat.eqb_spec at_ (length l)); [lia|].
      fold (holding l (S k)). rewrite RA. cbn [obind holding cells]. rewrite app_length, map_length, repeat_length.
      destruct (Nat.ltb_spec (length l + S k) (length l + 1)); [lia|]. reflexivity. }
    split.
    - rewrite ST. unfold get. cbn [cells app]. rewrite nth_mid by (rewrite map_length; lia). reflexivity.
    - intros i x Hi Hi2 N. rewrite ST. unfold get. cbn [cells].
      assert (G : nth_error (map Some l1 ++ [None] ++ map Some l3 ++ repeat (@None T) k) (S i) = Some (Some x)).
      { rewrite nth_error_app2 by (rewrite map_length; lia). rewrite map_length.
        replace (S i - length l1) with (S (i - at_)) by lia. cbn [app nth_error].
        rewrite EL, nth_error_app2 in N by lia. rewrite LL1 in N.
        rewrite nth_error_app1 by (rewrite map_length; lia). rewrite nth_error_map, N. reflexivity. }
      rewrite G. cbn [obind].
      destruct (writeIns_ok above l3 k [x] l1 e1 _ B1 eq_refl) as (e2 & E2 & _). cbn [length] in E2. rewrite LL1 in E2.
      replace (at_ + 1 + length l3) with (length l + 1) in E2 by lia. cbn [repeat] in E2. rewrite E2. eexists. reflexivity.
  Qed.

  (** Refuted: appending an array to itself never ends. *)
  Theorem append_itself_refuted : forall fuel e l k, limit = None -> budget e = None -> l <> [] ->
    length l + fuel <= k -> appendSelf limit above fuel e (holding l k) = NoFuel.
  Proof.
    intros fuel e l k EL B NE HK. unfold appendSelf, addExtra. cbn [holding used cells]. rewrite app_length, map_length, repeat_length.
    destruct (Nat.ltb_spec (length l + k) (length l + length l)); [lia|]. cbn [obind].
    fold (holding l k). assert (P : 0 < length l) by (destruct l; [contradiction|cbn; lia]).
    assert (K2 : fuel <= k) by lia. clear HK H NE. generalize dependent k. generalize dependent l. generalize 0 as pos.
    induction fuel as [|f IH]; intros pos l P k K2; [reflexivity|]. cbn [appendSelfLoop].
    cbn [holding used]. fold (holding l k). destruct (Nat.ltb_spec pos (length l)); [|lia].
    destruct (nth_error l pos) as [x|] eqn:N; [|apply nth_error_None in N; lia].
    destruct k as [|k]; [lia|]. rewrite (add_own_item_partial e l k pos x B N). cbn [obind].
    apply IH; [rewrite app_length; cbn; lia|lia].
  Qed.

  (** ** C163: erasing up to the end with a large count *)

  (** Refuted: when at + count passes 2^64 the count is not corrected. *)
  Theorem erase_count_refuted : forall e l k at_ n, at_ <= length l -> (N.of_nat (length l + k) < 2 ^ 64)%N ->
    (n < 2 ^ 64)%N -> (2 ^ 64 <= N.of_nat at_ + n)%N -> erase e (holding l k) at_ n = Undef.
  Proof.
    intros e l k at_ n H1 H2 H3 H4. unfold erase. cbn [holding used cells].
    destruct (Nat.ltb_spec (length l) at_); [lia|].
    assert (M : ((N.of_nat at_ + n) mod 2 ^ 64 < N.of_nat at_)%N).
    { rewrite <- (N.mod_unique (N.of_nat at_ + n) (2 ^ 64) 1 (N.of_nat at_ + n - 2 ^ 64)); lia. }
    destruct (N.ltb_spec (N.of_nat (length l)) ((N.of_nat at_ + n) mod 2 ^ 64)); [lia|].
    destruct (Nat.eqb_spec (N.to_nat n) 0); [lia|].
    destruct (N.to_nat n) as [|j] eqn:EN; [lia|]. cbn [destroyRange]. unfold destroyAt.
    rewrite (proj2 (nth_error_None _ _)); [reflexivity|]. rewrite app_length, map_length, repeat_length. lia.
  Qed.

  (** ** C164: inserting nothing *)

  (** Refuted: inserting no item, or an empty array, in the middle moves every following item
      onto itself: it is constructed over itself and then destroyed. *)
  Theorem insert_nothing_refuted : forall e l k at_ x, at_ < length l ->
    insert limit above e (holding l k) at_ x 0 = Undef /\ insertArray limit above e (holding l k) at_ [] = Undef.
  Proof.
    intros e l k at_ x H.
    assert (I : insertIter limit above e (holding l k) at_ 0 [] = Undef).
    { unfold insertIter, reserveAt, addExtra. cbn [holding used cells]. rewrite app_length, map_length, repeat_length.
      destruct (Nat.ltb_spec (length l + k) (length l + 0)); [lia|]. cbn [obind holding used cells].
      unfold moveItems. rewrite Nat.add_0_r. destruct (Nat.ltb_spec at_ at_); [lia|].
      destruct (length l - at_) as [|j] eqn:LJ; [lia|]. cbn [moveBack]. unfold moveOne, copyTo.
      assert (N : nth_error (map Some l ++ repeat None k) (at_ + j) = Some (nth_error l (at_ + j))).
      { rewrite nth_error_app1 by (rewrite map_length; lia). rewrite nth_error_map.
        destruct (nth_error l (at_ + j)) eqn:N; [reflexivity|]. apply nth_error_None in N. lia. }
      rewrite N. destruct (nth_error l (at_ + j)); reflexivity. }
    unfold insert, insertArray. cbn [holding used]. destruct (Nat.ltb_spec (length l) at_); [lia|].
    destruct (Nat.eqb_spec at_ (length l)); [lia|]. fold (holding l k). cbn [repeat length]. auto.
  Qed.

  (** ** C165: assigning an array to itself *)

  (** Refuted: it becomes empty. *)
  Theorem assign_itself_refuted : forall e l k, (N.of_nat (length l) < 2 ^ 64)%N ->
    match limit with Some c => length l + k = c | None => True end ->
    exists e1 a1, assignSelf e (holding l k) = Ok (true, e1, a1) /\ used a1 = 0.
  Proof.
    intros e l k W H. pose proof (holding_rep l k H) as R. unfold assignSelf.
    destruct (clear_raw limit above e _ l R W) as (e1 & a1 & E1 & U & _). rewrite E1. cbn [obind]. rewrite U. cbn [Nat.eqb].
    eexists _, _. split; [reflexivity|exact U].
  Qed.

  (** ** C166: copies *)

  (** A copy, and the target of an assignment, show the items of the source. *)
  Theorem array_copies : forall b, within limit (length b) = true ->
    (exists e a, copyOf limit above (mkEnv None 0 0) b = Ok (true, e, a) /\ shows a b) /\
    (forall os, allowedRun dflt limit [] os -> (N.of_nat (length (snd (specRun dflt limit [] os))) < 2 ^ 64)%N ->
       exists xs e a e1 a1, run dflt limit above (mkEnv None 0 0) (init limit) os = Ok (xs, e, a) /\
         assign limit above e a b = Ok (true, e1, a1) /\ shows a1 b).
  Proof.
    intros b W. split.
    - set (a0 := mkArr (match limit with None => repeat (@None T) (length b) | Some c => repeat None c end) 0).
      assert (R : rep limit a0 []).
      { unfold rep, a0. cbn [cells used map app length]. destruct limit as [c|].
        - exists c. rewrite repeat_length. auto.
        - exists (length b). auto. }
      destruct (append_grows limit above (mkEnv None 0 0) a0 [] b R) as (ok & e1 & a1 & E & H). cbn [length app Nat.add] in H.
      exists e1, a1. change (copyOf limit above (mkEnv None 0 0) b) with (append limit above (mkEnv None 0 0) a0 b). destruct ok.
      + split; [exact E|]. apply rep_shows. apply H.
      + destruct H as [(_ & X & _)|(_ & X & _)]; [congruence|contradiction].
    - intros os AL WL. destruct (run_good dflt limit above os (mkEnv None 0 0) (init limit) []) as (e & a & E & R & B);
        [apply init_rep; exact above|exact AL|reflexivity|].
      assert (C : exists e1 a1, assign limit above e a b = Ok (true, e1, a1) /\ shows a1 b).
      { unfold assign, clear. destruct (trunc_ok limit above e a _ (used a) R WL) as (e1 & a1 & E1 & R1 & k & K). rewrite E1. cbn [obind].
        assert (B1 : budget e1 = None) by (apply K; exact B).
        assert (U : used a = length (snd (specRun dflt limit [] os))) by (destruct R as (? & _ & X & _); exact X).
        rewrite U, Nat.sub_diag in R1. cbn [firstn] in R1. destruct b as [|x b0] eqn:EB.
        - do 2 eexists. split; [reflexivity|]. apply rep_shows. exact R1.
        - rewrite <- EB in *. destruct (reserve_ok limit above e1 a1 [] (length b) R1) as (ok & e2 & a2 & E2 & R2 & H2). rewrite E2. cbn [obind].
          destruct ok; [|destruct H2 as [(X & _)|(X & _)]; [congruence|contradiction]].
          destruct H2 as (_ & _ & k2 & K2). assert (B2 : budget e2 = None) by (apply K2; exact B1).
          destruct (addAll_ok limit above b e2 a2 [] R2 W) as (ok & e3 & a3 & E3 & H3). rewrite E3.
          destruct ok; [|destruct H3 as (_ & X & _); contradiction]. do 2 eexists. split; [reflexivity|]. apply rep_shows. apply H3. }
      destruct C as (e1 & a1 & C1 & C2). eexists _, _, _, _, _. split; [exact E|]. split; [exact C1|exact C2].
  Qed.

  (** ** C167: adding items one by one *)

  (** Adding n items to an empty array moves items at most 4 n times, whatever n is. *)
  Theorem adding_is_linear : forall xs, limit = None ->
    exists e a, addAll limit above (mkEnv None 0 0) (init limit) xs = Ok (true, e, a) /\ shows a xs /\ moves e <= 4 * length xs.
  Proof.
    intros xs EL. destruct (adds_moves limit above EL xs (mkEnv None 0 0) (init limit) []) as (e & a & E & R & _ & M1 & M2).
    - reflexivity.
    - apply init_rep.
    - cbn. lia.
    - unfold init. rewrite EL. cbn. lia.
    - exists e, a. split; [exact E|]. split; [apply rep_shows; exact R|]. cbn [app] in *. lia.
  Qed.

  (** ** C168: reserved room *)

  (** Once room for n items was reserved, adding up to that many moves nothing and allocates
      nothing, so references to items stay valid. *)
  Theorem reserved_room_suffices : forall os n xs, allowedRun dflt limit [] os -> within limit n = true ->
    length (snd (specRun dflt limit [] os)) + length xs <= n ->
    exists ys e a e1 a1 e2 a2, run dflt limit above (mkEnv None 0 0) (init limit) os = Ok (ys, e, a) /\
      reserve limit above e a n = Ok (true, e1, a1) /\
      addAll limit above e1 a1 xs = Ok (true, e2, a2) /\
      moves e2 = moves e1 /\ allocs e2 = allocs e1 /\ length (cells a2) = length (cells a1) /\
      shows a2 (snd (specRun dflt limit [] os) ++ xs).
  Proof.
    intros os n xs AL W L. destruct (run_good dflt limit above os (mkEnv None 0 0) (init limit) []) as (e & a & E & R & B);
      [apply init_rep; exact above|exact AL|reflexivity|].
    destruct (reserve_ok limit above e a _ n R) as (ok & e1 & a1 & E1 & R1 & H1).
    destruct ok; [|destruct H1 as [(X & _)|(X & _)]; [congruence|contradiction]]. destruct H1 as (C & _ & k & K).
    destruct (adds_room limit above xs e1 a1 _ (proj2 K B) R1) as (e2 & a2 & E2 & R2 & M & A & LL); [lia|].
    eexists _, _, _, _, _, _, _. split; [exact E|]. split; [exact E1|]. split; [exact E2|]. split; [exact M|]. split; [exact A|].
    split; [exact LL|]. apply rep_shows. exact R2.
  Qed.
End Props.
Print Assumptions array_refines_list.
Print Assumptions array_exception_safe.
Print Assumptions insert_exception_refuted.
Print Assumptions erase_exception_refuted.
Print Assumptions add_own_item_refuted.
Print Assumptions add_own_item_partial.
Print Assumptions insert_own_item_refuted.
Print Assumptions append_itself_refuted.
Print Assumptions erase_count_refuted.
Print Assumptions insert_nothing_refuted.
Print Assumptions assign_itself_refuted.
Print Assumptions array_copies.
Print Assumptions adding_is_linear.
Print Assumptions reserved_room_suffices.

(** cases that meet the hypotheses *)
Definition history : list (aop nat) :=
  [Add 1; AddN 2 2; Insert 1 9 2; Append [3; 4]; Erase 2 3; InsertArray 0 [7; 8]; Set_ 0 5; Get 3; FreeExtra; ResizeD 8; Trunc 2; Insert 9 0 1].

Example history_allowed : allowedRun 0 None [] history.
Proof. cbn. repeat split; intros; try lia; try discriminate; try reflexivity; cbn [length]; lia. Qed.
Example history_answers : specRun 0 None [] history =
  ([Done; Done; Done; Done; Done; Done; Done; Item 9; Done; Done; Done; Failed], [5; 8; 1; 9; 3; 4]).
Proof. vm_compute. reflexivity. Qed.
Example history_limited : specRun 0 (Some 4) [] [AddN 1 3; Append [2; 3]; Add 4; Add 5] = ([Done; Failed; Done; Failed], [1; 1; 1; 4]).
Proof. vm_compute. reflexivity. Qed.

Example history_throws : allowedEnd 0 None true [] [AddN 1 3; Append [2; 3]; FreeExtra; Trunc 1] /\
  run 0 None (fun _ => true) (mkEnv (Some 7) 0 0) (init None) [AddN 1 3; Append [2; 3]; FreeExtra; Trunc 1] =
    Ok ([Done; Failed; Done; Done], mkEnv None 7 3, mkArr [Some 1; Some 1; Some 1; None] 3).
Proof.
  split; [|vm_compute; reflexivity]. cbn.
  repeat match goal with
         | |- _ /\ _ => split
         | |- _ -> forall i : nat, _ => intros _ [|[|[|[|i]]]]; cbn
         | |- false = true -> _ => discriminate
         end; try reflexivity; try exact I; try (split; [reflexivity|exact I]).
Qed.
