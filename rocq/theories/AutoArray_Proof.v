(** Lemmas about the model of AutoArray. *)
From Verif Require Import Common AutoArray_Spec AutoArray_Model.

Section Proof.
  Context {T : Type} (dflt : T) (limit : option nat) (above : nat -> bool).
  Notation mem := (list (option T)).
  Notation arr := (@arr T).
  Implicit Types (P Q m : mem) (l : list T) (e : env) (a : arr).

  Notation raw n := (repeat (@None T) n).

  (** what happens to the environment *)
  Definition ticks (n : nat) (e e1 : env) : Prop :=
    moves e1 = moves e + n /\ (budget e = None -> budget e1 = None).
  Definition thrown (e e1 : env) : Prop := budget e <> None /\ budget e1 = None.

  Lemma ticks_refl e : ticks 0 e e.
  Proof. split; [lia|auto]. Qed.
  Lemma ticks_trans i j e e1 e2 : ticks i e e1 -> ticks j e1 e2 -> ticks (i + j) e e2.
  Proof. intros [A B] [C D]. split; [lia|auto]. Qed.
  Lemma ticks_thrown i e e1 e2 : ticks i e e1 -> thrown e1 e2 -> thrown e e2.
  Proof. intros [A B] [C D]. split; [|exact D]. intros X. apply C. auto. Qed.

  Lemma spend_ok e : exists ok e1, spend e = (ok, e1) /\ if ok : bool then ticks 0 e e1 else thrown e e1.
  Proof.
    unfold spend, ticks, thrown. destruct (budget e) as [[|b]|] eqn:B; do 2 eexists; (split; [reflexivity|]); cbn.
    - split; [discriminate|reflexivity].
    - split; [lia|discriminate].
    - split; [lia|intros; exact B].
  Qed.
  Lemma spend_none e : budget e = None -> spend e = (true, e).
  Proof. intros B. unfold spend. rewrite B. reflexivity. Qed.

  Lemma nth_mid {A} (p q : list A) x i : i = length p -> nth_error (p ++ x :: q) i = Some x.
  Proof. intros ->. rewrite nth_error_app2, Nat.sub_diag by lia. reflexivity. Qed.
  Lemma upd_mid {A} (p q : list A) x y i : i = length p -> upd (p ++ x :: q) i y = p ++ y :: q.
  Proof. intros ->. induction p as [|z p IH]; [reflexivity|]. cbn [app length upd]. rewrite IH. reflexivity. Qed.

  Lemma copyTo_mid e x P Q i : i = length P ->
    exists ok e1, copyTo e x (P ++ None :: Q) i = Ok (ok, e1, P ++ (if ok : bool then Some x else None) :: Q) /\
      if ok then ticks 0 e e1 else thrown e e1.
  Proof.
    intros ->. unfold copyTo. rewrite nth_mid by reflexivity. destruct (spend_ok e) as (ok & e1 & E & H). rewrite E.
    exists ok, e1. split; [|exact H]. destruct ok; [rewrite upd_mid by reflexivity|]; reflexivity.
  Qed.
  Lemma destroyAt_mid P Q x i : i = length P -> destroyAt (P ++ Some x :: Q) i = Ok (P ++ None :: Q).
  Proof. intros ->. unfold destroyAt. rewrite nth_mid, upd_mid by reflexivity. reflexivity. Qed.

  Lemma repeat_snoc {A} (x : A) n : repeat x n ++ [x] = x :: repeat x n.
  Proof. induction n as [|n IH]; [reflexivity|]. cbn [repeat app]. rewrite IH. reflexivity. Qed.

  Lemma destroyRange_ok l : forall P Q at_, at_ = length P ->
    destroyRange (P ++ map Some l ++ Q) at_ (length l) = Ok (P ++ raw (length l) ++ Q).
  Proof.
    induction l as [|x l IH] using rev_ind; intros P Q at_ ->; [reflexivity|].
    rewrite app_length. cbn [length]. rewrite Nat.add_1_r. cbn [destroyRange]. rewrite map_app. cbn [map].
    rewrite <- app_assoc, app_assoc. cbn [app].
    rewrite destroyAt_mid by (rewrite app_length, map_length; reflexivity). cbn [obind].
    rewrite <- app_assoc. rewrite IH by reflexivity. f_equal. f_equal.
    change (None :: Q) with ([None] ++ Q). rewrite app_assoc, repeat_snoc. reflexivity.
  Qed.

  (** one item down over a gap, one item up *)
  Lemma moveOne_left e P Q x d i j : j = length P -> i = j + S d ->
    exists ok e1, moveOne e (P ++ raw (S d) ++ Some x :: Q) i j =
      Ok (ok, e1, if ok : bool then P ++ Some x :: raw (S d) ++ Q else P ++ raw (S d) ++ Some x :: Q) /\
      if ok then ticks 1 e e1 else thrown e e1.
  Proof.
    intros HJ HI. unfold moveOne.
    assert (L : i = length (P ++ raw (S d))) by (rewrite app_length, repeat_length; lia).
    rewrite app_assoc, nth_mid by exact L. rewrite <- app_assoc.
    cbn [repeat app]. destruct (copyTo_mid e x P (raw d ++ Some x :: Q) j HJ) as (ok & e1 & E & H).
    rewrite E. cbn [obind]. destruct ok.
    - change (P ++ Some x :: raw d ++ Some x :: Q) with (P ++ (Some x :: raw d) ++ Some x :: Q).
      rewrite app_assoc, destroyAt_mid. 2:{ rewrite L, !app_length. cbn [length repeat]. reflexivity. }
      cbn [obind]. exists true, (mkEnv (budget e1) (S (moves e1)) (allocs e1)). split; [|destruct H as [A B]; split; [cbn; lia|exact B]].
      f_equal. f_equal. rewrite <- app_assoc. cbn [app]. f_equal. f_equal.
      change (None :: Q) with ([None] ++ Q). rewrite app_assoc, repeat_snoc. reflexivity.
    - eexists false, _. split; [reflexivity|exact H].
  Qed.
  Lemma moveOne_right e P Q x d i j : i = length P -> j = i + S d ->
    exists ok e1, moveOne e (P ++ Some x :: raw (S d) ++ Q) i j =
      Ok (ok, e1, if ok : bool then P ++ raw (S d) ++ Some x :: Q else P ++ Some x :: raw (S d) ++ Q) /\
      if ok then ticks 1 e e1 else thrown e e1.
  Proof.
    intros HI HJ. unfold moveOne. rewrite nth_mid by exact HI.
    assert (EQ : forall y, P ++ y :: raw (S d) ++ Q = (P ++ y :: raw d) ++ None :: Q).
    { intros y. rewrite <- app_assoc. cbn [app]. f_equal. f_equal.
      change (None :: Q) with ([None] ++ Q). rewrite (app_assoc (raw d)), repeat_snoc. reflexivity. }
    rewrite EQ. destruct (copyTo_mid e x (P ++ Some x :: raw d) Q j) as (ok & e1 & E & H).
    { rewrite app_length. cbn [length]. rewrite repeat_length. lia. }
    rewrite E. cbn [obind]. destruct ok.
    - rewrite <- app_assoc. cbn [app]. rewrite destroyAt_mid by exact HI. cbn [obind].
      exists true, (mkEnv (budget e1) (S (moves e1)) (allocs e1)). split; [|destruct H as [A B]; split; [cbn; lia|exact B]]. reflexivity.
    - eexists false, _. split; [reflexivity|exact H].
  Qed.

  (** the loops *)
  Lemma moveFwd_ok d Q : forall l2 l1 e P src dst, dst = length P -> src = dst + S d ->
    exists l1' l2' q e1, moveFwd e (P ++ map Some l1 ++ raw (S d) ++ map Some l2 ++ Q) src dst (length l1) (length l2) =
        Ok (q, e1, P ++ map Some l1' ++ raw (S d) ++ map Some l2' ++ Q) /\ l1' ++ l2' = l1 ++ l2 /\
      ((q = None /\ l2' = [] /\ ticks (length l2) e e1) \/ (q = Some (length l1') /\ thrown e e1)).
  Proof.
    induction l2 as [|x l2 IH]; intros l1 e P src dst HD HS.
    - exists l1, [], None, e. cbn [length moveFwd]. split; [reflexivity|]. split; [reflexivity|]. left. repeat split; auto.
    - cbn [length moveFwd map]. 
      destruct (moveOne_left e (P ++ map Some l1) (map Some l2 ++ Q) x d (src + length l1) (dst + length l1)) as (ok & e1 & E & H).
      { rewrite app_length, map_length. lia. } { lia. }
      replace (P ++ map Some l1 ++ raw (S d) ++ (Some x :: map Some l2) ++ Q) with
        ((P ++ map Some l1) ++ raw (S d) ++ Some x :: map Some l2 ++ Q) by (rewrite <- app_assoc; reflexivity).
      rewrite E. cbn [obind]. destruct ok.
      + specialize (IH (l1 ++ [x]) e1 P src dst HD HS). destruct IH as (l1' & l2' & q & e2 & E2 & A & B).
        rewrite app_length, Nat.add_1_r, map_app in E2. cbn [map] in E2. rewrite <- !app_assoc in E2. cbn [app] in E2.
        rewrite <- app_assoc. rewrite E2. exists l1', l2', q, e2. split; [reflexivity|].
        split; [rewrite A, <- app_assoc; reflexivity|]. destruct B as [(B1 & B2 & B3)|(B1 & B2)].
        * left. split; [exact B1|]. split; [exact B2|]. exact (ticks_trans _ _ _ _ _ H B3).
        * right. split; [exact B1|]. exact (ticks_thrown _ _ _ _ H B2).
      + exists l1, (x :: l2), (Some (length l1)), e1. split; [|split; [reflexivity|right; split; [reflexivity|exact H]]].
        rewrite <- app_assoc. reflexivity.
  Qed.
  Lemma moveBack_ok d Q : forall l1 l2 e P src dst, src = length P -> dst = src + S d ->
    exists l1' l2' q e1, moveBack e (P ++ map Some l1 ++ raw (S d) ++ map Some l2 ++ Q) src dst (length l1) =
        Ok (q, e1, P ++ map Some l1' ++ raw (S d) ++ map Some l2' ++ Q) /\ l1' ++ l2' = l1 ++ l2 /\
      ((q = None /\ l1' = [] /\ ticks (length l1) e e1) \/ (q = Some (length l1') /\ thrown e e1)).
  Proof.
    induction l1 as [|x l1 IH] using rev_ind; intros l2 e P src dst HS HD.
    - exists [], l2, None, e. cbn [length moveBack]. split; [reflexivity|]. split; [reflexivity|]. left. repeat split; auto.
    - rewrite app_length, Nat.add_1_r. cbn [moveBack].
      destruct (moveOne_right e (P ++ map Some l1) (map Some l2 ++ Q) x d (src + length l1) (dst + length l1)) as (ok & e1 & E & H).
      { rewrite app_length, map_length. lia. } { lia. }
      replace (P ++ map Some (l1 ++ [x]) ++ raw (S d) ++ map Some l2 ++ Q) with
        ((P ++ map Some l1) ++ Some x :: raw (S d) ++ map Some l2 ++ Q)
        by (rewrite map_app, <- !app_assoc; reflexivity).
      rewrite E. cbn [obind]. destruct ok.
      + specialize (IH (x :: l2) e1 P src dst HS HD). destruct IH as (l1' & l2' & q & e2 & E2 & A & B).
        cbn [map app] in E2. rewrite <- app_assoc. rewrite E2. exists l1', l2', q, e2. split; [reflexivity|].
        split; [rewrite A, <- app_assoc; reflexivity|]. destruct B as [(B1 & B2 & B3)|(B1 & B2)].
        * left. split; [exact B1|]. split; [exact B2|]. exact (ticks_trans _ _ _ _ _ H B3).
        * right. split; [exact B1|]. exact (ticks_thrown _ _ _ _ H B2).
      + exists (l1 ++ [x]), l2, (Some (S (length l1))), e1.
        split; [|split; [reflexivity|right; split; [rewrite app_length, Nat.add_1_r; reflexivity|exact H]]].
        rewrite map_app, <- !app_assoc. reflexivity.
  Qed.

  Lemma noThrow_fwd d Q l1 l2 e P src dst n : dst = length P + length l1 -> src = dst + S d -> n = length l2 -> budget e = None ->
    exists e1, noThrow (moveFwd e (P ++ map Some l1 ++ raw (S d) ++ map Some l2 ++ Q) src dst 0 n) =
      Ok (false, e1, P ++ map Some (l1 ++ l2) ++ raw (S d) ++ Q) /\ budget e1 = None.
  Proof.
    intros HD HS -> B.
    destruct (moveFwd_ok d Q l2 [] e (P ++ map Some l1) src dst) as (a & b & q & e1 & E & A & [(-> & -> & [_ X])|(_ & X & _)]).
    { rewrite app_length, map_length. exact HD. } { exact HS. }
    - cbn [map app length] in E. rewrite <- app_assoc in E. rewrite E. cbn [noThrow obind]. exists e1.
      rewrite app_nil_r in A. cbn [app] in A. subst a. split; [|auto]. rewrite map_app, <- !app_assoc. reflexivity.
    - contradiction.
  Qed.
  Lemma noThrow_back d Q l1 l2 e P src dst n : src = length P -> dst = src + S d -> n = length l1 -> budget e = None ->
    exists e1, noThrow (moveBack e (P ++ map Some l1 ++ raw (S d) ++ map Some l2 ++ Q) src dst n) =
      Ok (false, e1, P ++ raw (S d) ++ map Some (l1 ++ l2) ++ Q) /\ budget e1 = None.
  Proof.
    intros HS HD -> B.
    destruct (moveBack_ok d Q l1 l2 e P src dst HS HD) as (a & b & q & e1 & E & A & [(-> & -> & [_ X])|(_ & X & _)]).
    - rewrite E. cbn [noThrow obind map app]. exists e1. cbn [app] in A. subst b. split; [reflexivity|auto].
    - contradiction.
  Qed.

  Lemma move_left e P Q l d src dst : dst = length P -> src = dst + S d ->
    exists ok e1, moveItems e (P ++ raw (S d) ++ map Some l ++ Q) src (length l) dst =
      Ok (ok, e1, if ok : bool then P ++ map Some l ++ raw (S d) ++ Q else P ++ raw (S d) ++ map Some l ++ Q) /\
      if ok then ticks (length l) e e1 else thrown e e1.
  Proof.
    intros HD HS. unfold moveItems. destruct (Nat.ltb_spec dst src); [|lia].
    destruct (moveFwd_ok d Q l [] e P src dst HD HS) as (a & b & q & e1 & E & A & [(-> & -> & X)|(-> & X)]);
      cbn [map app length] in E; rewrite E; cbn [obind].
    - exists true, e1. rewrite app_nil_r in A. cbn [app] in A. subst a. split; [reflexivity|exact X].
    - destruct (noThrow_back d Q a b e1 P dst src (length a) HD HS eq_refl (proj2 X)) as (e2 & E2 & B2).
      rewrite E2. exists false, e2. cbn [app] in A. rewrite A. split; [reflexivity|]. split; [apply X|exact B2].
  Qed.
  Lemma move_right e P Q l d src dst : src = length P -> dst = src + S d ->
    exists ok e1, moveItems e (P ++ map Some l ++ raw (S d) ++ Q) src (length l) dst =
      Ok (ok, e1, if ok : bool then P ++ raw (S d) ++ map Some l ++ Q else P ++ map Some l ++ raw (S d) ++ Q) /\
      if ok then ticks (length l) e e1 else thrown e e1.
  Proof.
    intros HS HD. unfold moveItems. destruct (Nat.ltb_spec dst src); [lia|].
    destruct (moveBack_ok d Q l [] e P src dst HS HD) as (a & b & q & e1 & E & A & [(-> & -> & X)|(-> & X)]);
      cbn [map app length] in E; rewrite E; cbn [obind].
    - exists true, e1. rewrite app_nil_r in A. cbn [app] in A. subst b. split; [reflexivity|exact X].
    - rewrite app_nil_r in A.
      destruct (noThrow_fwd d Q a b e1 P (dst + length a) (src + length a) (length l - length a)) as (e2 & E2 & B2).
      { lia. } { lia. } { rewrite <- A, app_length. lia. } { apply X. }
      rewrite E2. exists false, e2. rewrite A. split; [reflexivity|]. split; [apply X|exact B2].
  Qed.
  Lemma move_none e m src dst : moveItems e m src 0 dst = Ok (true, e, m).
  Proof. unfold moveItems. destruct (dst <? src); reflexivity. Qed.

  (** ** Arrays *)
  Definition rep (a : arr) l : Prop :=
    exists k, cells a = map Some l ++ raw k /\ used a = length l /\
      match limit with Some c => length (cells a) = c | None => True end.

  Lemma rep_within a l : rep a l -> within limit (length l) = true.
  Proof.
    intros (k & E & U & L). unfold within. destruct limit as [c|]; [|reflexivity]. apply Nat.leb_le.
    rewrite <- L, E, app_length, map_length. lia.
  Qed.

  Lemma realloc_ok e l k size : limit = None -> length l <= size ->
    exists ok e1, realloc above e (map Some l ++ raw k) (length l) size =
      Ok (ok, e1, map Some l ++ (if ok : bool then raw (size - length l) else raw k)) /\
      if ok then ticks (length l) e e1 else thrown e e1.
  Proof.
    intros _ HS. unfold realloc. cbn [allocs]. set (e0 := mkEnv _ _ _).
    assert (T0 : forall n x, ticks n e0 x -> ticks n e x) by (intros n x [A B]; split; [exact A|exact B]).
    assert (R0 : forall x, thrown e0 x -> thrown e x) by (intros x [A B]; split; [exact A|exact B]).
    set (old := map Some l ++ raw k).
    assert (LO : length old = length l + k) by (unfold old; rewrite app_length, map_length, repeat_length; lia).
    destruct (Nat.eq_dec (length l) 0) as [LP|LP].
    { apply length_zero_iff_nil in LP. subst l. cbn [length map app] in *. rewrite !move_none. cbn [obind]. exists true, e0. unfold old. cbn [map app].
      rewrite Nat.sub_0_r.
      split; [|apply T0, ticks_refl].
      destruct (above _); [rewrite skipn_app, skipn_all, Nat.sub_diag; reflexivity|].
      rewrite firstn_app, repeat_length, Nat.sub_diag, firstn_all2, app_nil_r by (rewrite repeat_length; lia). reflexivity. }
    destruct (above _).
    - (* the new block lies above *)
      set (d := length l + k - 1).
      replace (old ++ raw size) with (([] : mem) ++ map Some l ++ raw (S d) ++ raw (size - length l)).
      2:{ unfold old. cbn [app]. rewrite <- app_assoc. f_equal. rewrite <- !repeat_app. f_equal. unfold d. lia. }
      destruct (move_right e0 [] (raw (size - length l)) l d 0 (length old)) as (ok & e1 & E & H); [reflexivity|unfold d; lia|].
      rewrite E. cbn [obind app]. exists ok, e1. destruct ok.
      + split; [|apply T0, H]. f_equal. f_equal.
        rewrite skipn_app, (skipn_all2 (raw (S d))) by (rewrite repeat_length; unfold d; lia).
        rewrite repeat_length. replace (length old - S d) with 0 by (unfold d; lia). reflexivity.
      + split; [|apply R0, H]. f_equal. f_equal.
        rewrite LO, firstn_app, map_length, firstn_all2 by (rewrite map_length; lia). f_equal.
        replace (length l + k - length l) with k by lia.
        rewrite firstn_app, repeat_length. replace (k - S d) with 0 by (unfold d; lia). rewrite app_nil_r.
        replace (S d) with (k + (length l)) by (unfold d; lia).
        rewrite repeat_app, firstn_app, repeat_length, Nat.sub_diag, firstn_all2, app_nil_r by (rewrite repeat_length; lia). reflexivity.
    - (* below *)
      destruct size as [|d]; [lia|].
      destruct (move_left e0 [] (raw k) l d (S d) 0) as (ok & e1 & E & H); [reflexivity|lia|].
      cbn [app] in E. fold old in E. rewrite E. cbn [obind]. exists ok, e1. destruct ok.
      + split; [|apply T0, H]. f_equal. f_equal.
        rewrite firstn_app, map_length, firstn_all2 by (rewrite map_length; lia). f_equal.
        rewrite firstn_app, repeat_length. replace (S d - length l - S d) with 0 by lia. rewrite app_nil_r.
        rewrite <- (firstn_all (raw (S d - length l))), repeat_length.
        replace (S d) with (S d - length l + length l) at 2 by lia. rewrite repeat_app.
        rewrite firstn_app, repeat_length, Nat.sub_diag, app_nil_r. reflexivity.
      + split; [|apply R0, H]. f_equal. f_equal.
        rewrite skipn_app, repeat_length, Nat.sub_diag, skipn_all2 by (rewrite repeat_length; lia). reflexivity.
  Qed.

  Lemma addExtra_ok e a l n : rep a l ->
    exists ok e1 a1, addExtra limit above e a n = Ok (ok, e1, a1) /\ rep a1 l /\
      (if ok : bool then length l + n <= length (cells a1) /\ within limit (length l + n) = true /\ exists k, ticks k e e1
       else (within limit (length l + n) = false /\ e1 = e /\ a1 = a) \/ thrown e e1).
  Proof.
    intros R. pose proof R as (k & E & U & L). unfold addExtra. rewrite U.
    destruct (Nat.ltb_spec (length (cells a)) (length l + n)) as [C|C].
    - unfold rep, within. destruct limit as [c|] eqn:EL.
      + exists false, e, a. split; [reflexivity|]. split; [exists k; auto|]. left. split; [apply Nat.leb_gt; lia|auto].
      + rewrite E. destruct (realloc_ok e l k (Nat.max (length l * 3 / 2) (length l + n)) EL) as (ok & e1 & E1 & H); [lia|].
        rewrite E1. cbn [obind]. do 3 eexists. split; [reflexivity|]. cbn [cells used]. destruct ok.
        * split; [eexists; split; [reflexivity|split; [reflexivity|exact I]]|].
          rewrite app_length, map_length, repeat_length. split; [lia|]. split; [reflexivity|eauto].
        * split; [exists k; auto|]. right. exact H.
    - exists true, e, a. split; [reflexivity|]. split; [exact R|]. split; [exact C|]. split; [|exists 0; apply ticks_refl].
      unfold within. destruct limit as [c|]; [apply Nat.leb_le; lia|reflexivity].
  Qed.

  Lemma freeExtra_ok e a l : rep a l ->
    exists ok e1 a1, freeExtra limit above e a = Ok (ok, e1, a1) /\ rep a1 l /\
      if ok : bool then exists k, ticks k e e1 else thrown e e1.
  Proof.
    intros R. pose proof R as (k & E & U & L). unfold freeExtra. rewrite U.
    assert (ID : exists ok e1 a1, Ok (true, e, a) = Ok (ok, e1, a1) /\ rep a1 l /\ if ok : bool then exists k, ticks k e e1 else thrown e e1).
    { exists true, e, a. split; [reflexivity|]. split; [exact R|]. exists 0. apply ticks_refl. }
    destruct (length l <? length (cells a)); [|exact ID].
    unfold rep in *. destruct limit as [c|] eqn:EL; [exact ID|].
    rewrite E. destruct (realloc_ok e l k (length l) EL) as (ok & e1 & E1 & H); [lia|].
    rewrite E1. cbn [obind]. do 3 eexists. split; [reflexivity|]. cbn [cells used]. destruct ok.
    - split; [eexists; split; [reflexivity|split; [reflexivity|exact I]]|eauto].
    - split; [exists k; auto|exact H].
  Qed.

  Lemma push_ok e a l x : rep a l -> length l < length (cells a) ->
    exists ok e1 a1, push e a x = Ok (ok, e1, a1) /\ length (cells a1) = length (cells a) /\
      if ok : bool then rep a1 (l ++ [x]) /\ ticks 0 e e1 else rep a1 l /\ thrown e e1.
  Proof.
    intros (k & E & U & L) C. unfold push. rewrite U, E in *. rewrite app_length, map_length, repeat_length in C.
    destruct k as [|k]; [lia|]. cbn [repeat].
    destruct (copyTo_mid e x (map Some l) (raw k) (length l)) as (ok & e1 & E1 & H); [rewrite map_length; reflexivity|].
    rewrite E1. cbn [obind]. destruct ok.
    - do 3 eexists. split; [reflexivity|]. cbn [cells used].
      assert (LL : length (map Some l ++ Some x :: raw k) = length (map Some l ++ None :: raw k)) by (rewrite !app_length; reflexivity).
      split; [exact LL|]. split; [|exact H]. exists k. cbn [cells used]. rewrite map_app, <- app_assoc. cbn [map app].
      split; [reflexivity|]. split; [rewrite app_length; cbn; lia|]. destruct limit; [|exact I]. rewrite LL. exact L.
    - do 3 eexists. split; [reflexivity|]. split; [reflexivity|]. split; [|exact H]. exists (S k). auto.
  Qed.

  Lemma add_ok e a l x : rep a l ->
    exists ok e1 a1, add limit above e a x = Ok (ok, e1, a1) /\
      if ok : bool then rep a1 (l ++ [x]) /\ within limit (length l + 1) = true /\ exists k, ticks k e e1
      else rep a1 l /\ ((within limit (length l + 1) = false /\ e1 = e) \/ thrown e e1).
  Proof.
    intros R. unfold add. destruct (addExtra_ok e a l 1 R) as (ok & e1 & a1 & E & R1 & H). rewrite E. cbn [obind].
    destruct ok.
    - destruct H as (C & W & k & K). destruct (push_ok e1 a1 l x R1) as (ok & e2 & a2 & E2 & _ & H2); [lia|].
      rewrite E2. do 3 eexists. split; [reflexivity|]. destruct ok, H2 as [A B].
      + split; [exact A|]. split; [exact W|]. eexists. exact (ticks_trans _ _ _ _ _ K B).
      + split; [exact A|]. right. exact (ticks_thrown _ _ _ _ K B).
    - do 3 eexists. split; [reflexivity|]. split; [exact R1|]. destruct H as [(A & B & C)|B]; auto.
  Qed.

  Lemma pushN_ok x : forall n e a l, rep a l -> length l + n <= length (cells a) ->
    exists ok e1 a1, pushN e a x n = Ok (ok, e1, a1) /\
      if ok : bool then rep a1 (l ++ repeat x n) /\ ticks 0 e e1
      else (exists i, rep a1 (l ++ firstn i (repeat x n))) /\ thrown e e1.
  Proof.
    induction n as [|n IH]; intros e a l R C; cbn [pushN repeat].
    - do 3 eexists. split; [reflexivity|]. rewrite app_nil_r. split; [exact R|apply ticks_refl].
    - destruct (push_ok e a l x R) as (ok & e1 & a1 & E & L1 & H); [lia|]. rewrite E. cbn [obind]. destruct ok, H as [A B].
      + destruct (IH e1 a1 (l ++ [x]) A) as (ok & e2 & a2 & E2 & H2); [rewrite app_length; cbn; lia|].
        rewrite E2. do 3 eexists. split; [reflexivity|]. destruct ok, H2 as [A2 B2].
        * rewrite <- app_assoc in A2. split; [exact A2|]. exact (ticks_trans _ _ _ _ _ B B2).
        * destruct A2 as (i & A2). rewrite <- app_assoc in A2. split; [exists (S i); exact A2|]. exact (ticks_thrown _ _ _ _ B B2).
      + do 3 eexists. split; [reflexivity|]. split; [exists 0; rewrite app_nil_r; exact A|exact B].
  Qed.

  (** the shape of what operations at the end do: [new] is put at the end *)
  Definition grows (e : env) l (new : list T) (r : outcome (bool * env * arr)) : Prop :=
    exists ok e1 a1, r = Ok (ok, e1, a1) /\
      if ok : bool then rep a1 (l ++ new) /\ within limit (length l + length new) = true /\ exists k, ticks k e e1
      else (rep a1 l /\ within limit (length l + length new) = false /\ e1 = e) \/
           ((exists i, rep a1 (l ++ firstn i new)) /\ thrown e e1).

  Lemma add_grows e a l x : rep a l -> grows e l [x] (add limit above e a x).
  Proof.
    intros R. destruct (add_ok e a l x R) as (ok & e1 & a1 & E & H). exists ok, e1, a1. split; [exact E|].
    destruct ok; [exact H|]. destruct H as [A [(B & C)|B]]; [left; auto|right].
    split; [exists 0; rewrite app_nil_r; exact A|exact B].
  Qed.

  Lemma addN_grows e a l x n : rep a l -> grows e l (repeat x n) (addN limit above e a x n).
  Proof.
    intros R. unfold grows, addN. rewrite repeat_length. destruct (addExtra_ok e a l n R) as (ok & e1 & a1 & E & R1 & H). rewrite E. cbn [obind].
    destruct ok.
    - destruct H as (C & W & k & K). destruct (pushN_ok x n e1 a1 l R1 C) as (ok & e2 & a2 & E2 & H2).
      rewrite E2. do 3 eexists. split; [reflexivity|]. destruct ok, H2 as [A B].
      + split; [exact A|]. split; [exact W|]. eexists. exact (ticks_trans _ _ _ _ _ K B).
      + right. split; [exact A|]. exact (ticks_thrown _ _ _ _ K B).
    - do 3 eexists. split; [reflexivity|]. destruct H as [(A & B & ->)|B]; [left; auto|right].
      split; [exists 0; rewrite app_nil_r; exact R1|exact B].
  Qed.

  Lemma addAll_ok : forall xs e a l, rep a l -> within limit (length l + length xs) = true ->
    exists ok e1 a1, addAll limit above e a xs = Ok (ok, e1, a1) /\
      if ok : bool then rep a1 (l ++ xs) /\ exists k, ticks k e e1
      else (exists i, rep a1 (l ++ firstn i xs)) /\ thrown e e1.
  Proof.
    induction xs as [|x xs IH]; intros e a l R W; cbn [addAll].
    - do 3 eexists. split; [reflexivity|]. rewrite app_nil_r. split; [exact R|exists 0; apply ticks_refl].
    - assert (W1 : within limit (length l + 1) = true).
      { unfold within in *. destruct limit; [|reflexivity]. cbn [length] in W. apply Nat.leb_le in W. apply Nat.leb_le. lia. }
      destruct (add_ok e a l x R) as (ok & e1 & a1 & E & H). rewrite E. cbn [obind]. destruct ok.
      + destruct H as (A & _ & k & B).
        destruct (IH e1 a1 (l ++ [x]) A) as (ok & e2 & a2 & E2 & H2).
        { rewrite app_length. cbn [length] in *. replace (length l + 1 + length xs) with (length l + S (length xs)) by lia. exact W. }
        rewrite E2. do 3 eexists. split; [reflexivity|]. destruct ok, H2 as [A2 B2].
        * rewrite <- app_assoc in A2. destruct B2 as (k2 & B2). split; [exact A2|]. eexists. exact (ticks_trans _ _ _ _ _ B B2).
        * destruct A2 as (i & A2). rewrite <- app_assoc in A2. split; [exists (S i); exact A2|]. exact (ticks_thrown _ _ _ _ B B2).
      + destruct H as [A [(B & _)|B]]; [congruence|]. do 3 eexists. split; [reflexivity|].
        split; [exists 0; rewrite app_nil_r; exact A|exact B].
  Qed.

  Lemma append_grows e a l xs : rep a l -> grows e l xs (append limit above e a xs).
  Proof.
    intros R. unfold grows, append. destruct (addExtra_ok e a l (length xs) R) as (ok & e1 & a1 & E & R1 & H). rewrite E. cbn [obind].
    destruct ok.
    - destruct H as (C & W & k & K). destruct (addAll_ok xs e1 a1 l R1 W) as (ok & e2 & a2 & E2 & H2).
      rewrite E2. do 3 eexists. split; [reflexivity|]. destruct ok, H2 as [A B].
      + split; [exact A|]. split; [exact W|]. destruct B as (k2 & B). eexists. exact (ticks_trans _ _ _ _ _ K B).
      + right. split; [exact A|]. exact (ticks_thrown _ _ _ _ K B).
    - do 3 eexists. split; [reflexivity|]. destruct H as [(A & B & ->)|B]; [left; auto|right].
      split; [exists 0; rewrite app_nil_r; exact R1|exact B].
  Qed.

  Lemma constructD_ok P : forall n j k e, 
    exists ok e1 m, constructD dflt e (P ++ map Some (repeat dflt k) ++ raw n ++ raw j) (length P) k n = Ok (ok, e1, m) /\
      if ok : bool then m = P ++ map Some (repeat dflt (k + n)) ++ raw j /\ ticks 0 e e1
      else m = P ++ raw (k + n) ++ raw j /\ thrown e e1.
  Proof.
    induction n as [|n IH]; intros j k e; cbn [constructD].
    - do 3 eexists. split; [reflexivity|]. rewrite Nat.add_0_r. split; [reflexivity|apply ticks_refl].
    - cbn [repeat app]. rewrite app_assoc.
      destruct (copyTo_mid e dflt (P ++ map Some (repeat dflt k)) (raw n ++ raw j) (length P + k)) as (ok & e1 & E & H).
      { rewrite app_length, map_length, repeat_length. reflexivity. }
      rewrite E. cbn [obind]. destruct ok.
      + destruct (IH j (S k) e1) as (ok & e2 & m & E2 & H2).
        replace ((P ++ map Some (repeat dflt k)) ++ Some dflt :: raw n ++ raw j) with (P ++ map Some (repeat dflt (S k)) ++ raw n ++ raw j).
        2:{ rewrite <- app_assoc. f_equal. change (repeat dflt (S k)) with (dflt :: repeat dflt k).
            rewrite <- repeat_snoc, map_app, <- app_assoc. reflexivity. }
        rewrite E2. do 3 eexists. split; [reflexivity|]. replace (k + S n) with (S k + n) by lia.
        destruct ok, H2 as [A B]; (split; [exact A|]); [exact (ticks_trans _ _ _ _ _ H B)|exact (ticks_thrown _ _ _ _ H B)].
      + rewrite <- app_assoc. pose proof (destroyRange_ok (repeat dflt k) P (None :: raw n ++ raw j) (length P) eq_refl) as D.
        rewrite repeat_length in D. rewrite D. cbn [obind]. do 3 eexists. split; [reflexivity|]. split; [|exact H].
        f_equal. rewrite repeat_app. rewrite <- app_assoc. reflexivity.
  Qed.

  (** removing a range *)
  Lemma unreserveAt_ok e m l1 l2 n k a : a = mkArr m (length l1 + n + length l2) -> 0 < n ->
    m = map Some l1 ++ raw n ++ map Some l2 ++ raw k ->
    exists ok e1 a1, unreserveAt e a (length l1) n = Ok (ok, e1, a1) /\
      if ok : bool then cells a1 = map Some (l1 ++ l2) ++ raw (n + k) /\ used a1 = length (l1 ++ l2) /\ ticks (length l2) e e1
      else a1 = a /\ thrown e e1.
  Proof.
    intros -> N0 ->. unfold unreserveAt. cbn [cells used]. destruct n as [|d]; [lia|].
    replace (length l1 + S d + length l2 - length l1 - S d) with (length l2) by lia.
    destruct (move_left e (map Some l1) (raw k) l2 d (length l1 + S d) (length l1)) as (ok & e1 & E & H);
      [rewrite map_length; reflexivity|reflexivity|].
    rewrite E. cbn [obind]. do 3 eexists. split; [reflexivity|]. destruct ok.
    - cbn [cells used]. rewrite map_app, repeat_app, <- !app_assoc, app_length.
      split; [reflexivity|]. split; [lia|exact H].
    - split; [reflexivity|exact H].
  Qed.

  Lemma erase_ok e a l at_ n : rep a l -> (N.of_nat at_ + n < 2 ^ 64)%N ->
    exists ok e1 a1, erase e a at_ n = Ok (ok, e1, a1) /\
      if length l <? at_ then ok = false /\ a1 = a /\ e1 = e
      else if ok : bool then rep a1 (firstn at_ l ++ skipn (at_ + N.to_nat n) l) /\ exists k, ticks k e e1
      else thrown e e1 /\ at_ + N.to_nat n < length l.
  Proof.
    intros (k & E & U & L) W. unfold erase. rewrite U. destruct (Nat.ltb_spec (length l) at_) as [C|C].
    { do 3 eexists. split; [reflexivity|]. auto. }
    rewrite N.mod_small by exact W.
    set (c := if (N.of_nat (length l) <? N.of_nat at_ + n)%N then length l - at_ else N.to_nat n).
    assert (HC : c = Nat.min (N.to_nat n) (length l - at_)).
    { unfold c. destruct (N.ltb_spec (N.of_nat (length l)) (N.of_nat at_ + n)); lia. }
    assert (SK : skipn (at_ + N.to_nat n) l = skipn (at_ + c) l).
    { destruct (Nat.le_gt_cases (at_ + N.to_nat n) (length l)); [f_equal; lia|].
      rewrite !skipn_all2 by lia. reflexivity. }
    rewrite SK. clearbody c. destruct (Nat.eqb_spec c 0) as [Z|Z].
    { do 3 eexists. split; [reflexivity|]. rewrite Z, Nat.add_0_r, firstn_skipn. split; [exists k; auto|exists 0; apply ticks_refl]. }
    set (l1 := firstn at_ l). set (l2 := firstn c (skipn at_ l)). set (l3 := skipn (at_ + c) l).
    assert (EL : l = l1 ++ l2 ++ l3).
    { unfold l1, l2, l3. rewrite <- (firstn_skipn at_ l) at 1. f_equal. rewrite <- (firstn_skipn c (skipn at_ l)) at 1. f_equal.
      clear. revert l. induction at_ as [|i IH]; intros l; [reflexivity|]. destruct l; [destruct c; reflexivity|]. cbn [skipn Nat.add]. apply IH. }
    assert (L1 : length l1 = at_) by (unfold l1; rewrite firstn_length; lia).
    assert (L2 : length l2 = c) by (unfold l2; rewrite firstn_length, skipn_length; lia).
    assert (L3 : length l = at_ + c + length l3) by (rewrite EL, !app_length; lia).
    rewrite E, EL, !map_app, <- !app_assoc.
    pose proof (destroyRange_ok l2 (map Some l1) (map Some l3 ++ raw k) at_) as D. rewrite L2 in D. rewrite D by (rewrite map_length; lia).
    cbn [obind]. rewrite <- EL, L3, <- L1.
    destruct (unreserveAt_ok e _ l1 l3 c k _ eq_refl ltac:(lia) eq_refl) as (ok & e1 & a1 & E1 & H).
    rewrite E1. do 3 eexists. split; [reflexivity|]. destruct ok.
    - destruct H as (A & B & K). split; [|eauto]. exists (c + k). split; [exact A|]. split; [exact B|].
      assert (X : length (cells a) = length l + k) by (rewrite E, app_length, map_length, repeat_length; reflexivity).
      assert (Y : length (cells a1) = length (l1 ++ l3) + (c + k)) by (rewrite A, app_length, map_length, repeat_length; reflexivity).
      rewrite app_length in Y. destruct limit as [c0|]; [|exact I]. lia.
    - split; [apply H|]. destruct (Nat.eq_dec (length l3) 0) as [Z0|Z0]; [|lia].
      exfalso. apply length_zero_iff_nil in Z0. destruct H as [_ [H _]]. rewrite Z0 in E1. unfold unreserveAt in E1. cbn [cells used length] in E1.
      replace (length l1 + c + 0 - length l1 - c) with 0 in E1 by lia. rewrite move_none in E1. discriminate.
  Qed.

  Lemma trunc_ok e a l n : rep a l -> (N.of_nat (length l) < 2 ^ 64)%N ->
    exists e1 a1, trunc e a n = Ok (true, e1, a1) /\ rep a1 (firstn (length l - n) l) /\ exists k, ticks k e e1.
  Proof.
    intros R W. unfold trunc. pose proof R as (k & E & U & L). rewrite U.
    set (c := if length l <=? n then length l else n). assert (HC : c = Nat.min n (length l)) by (unfold c; destruct (Nat.leb_spec (length l) n); lia).
    clearbody c. destruct (erase_ok e a l (length l - c) (N.of_nat c) R) as (ok & e1 & a1 & E1 & H); [lia|].
    destruct (Nat.ltb_spec (length l) (length l - c)); [lia|]. rewrite E1. rewrite Nat2N.id in H. destruct ok.
    - do 2 eexists. split; [reflexivity|]. rewrite skipn_all2, app_nil_r in H by lia.
      replace (length l - c) with (length l - n) in H by lia. exact H.
    - destruct H as [_ H]. lia.
  Qed.

  Lemma reserve_ok e a l n : rep a l ->
    exists ok e1 a1, reserve limit above e a n = Ok (ok, e1, a1) /\ rep a1 l /\
      if ok : bool then n <= length (cells a1) /\ within limit n = true /\ exists k, ticks k e e1
      else (within limit n = false /\ e1 = e) \/ thrown e e1.
  Proof.
    intros R. unfold reserve. pose proof R as (k & E & U & L). rewrite U. destruct (Nat.ltb_spec (length l) n) as [C|C].
    - destruct (addExtra_ok e a l (n - length l) R) as (ok & e1 & a1 & E1 & R1 & H). rewrite E1.
      replace (length l + (n - length l)) with n in H by lia. exists ok, e1, a1. split; [reflexivity|]. split; [exact R1|].
      destruct ok; [exact H|]. destruct H as [(A & B & _)|B]; auto.
    - exists true, e, a. split; [reflexivity|]. split; [exact R|].
      assert (length l <= length (cells a)) by (rewrite E, app_length, map_length; lia).
      split; [lia|]. split; [|exists 0; apply ticks_refl]. pose proof (rep_within a l R) as W. unfold within in *.
      destruct limit; [apply Nat.leb_le in W; apply Nat.leb_le; lia|reflexivity].
  Qed.

  Lemma resizeD_ok e a l n : rep a l -> (N.of_nat (length l) < 2 ^ 64)%N ->
    exists ok e1 a1, resizeD dflt limit above e a n = Ok (ok, e1, a1) /\
      if ok : bool then rep a1 (firstn n l ++ repeat dflt (n - length l)) /\ within limit (Nat.max n (length l)) = true /\ exists k, ticks k e e1
      else rep a1 l /\ ((within limit (Nat.max n (length l)) = false /\ e1 = e) \/ thrown e e1).
  Proof.
    intros R WL. unfold resizeD. pose proof R as (k & E & U & L). rewrite U.
    destruct (Nat.ltb_spec (length l) n) as [C|C].
    - replace (Nat.max n (length l)) with (length l + (n - length l)) by lia. rewrite firstn_all2 by lia.
      destruct (addExtra_ok e a l (n - length l) R) as (ok & e1 & a1 & E1 & R1 & H). rewrite E1. cbn [obind]. destruct ok.
      + destruct H as (CC & W & kk & K). destruct R1 as (k1 & E2 & U1 & L1). rewrite E2, U1.
        assert (KN : exists j, k1 = n - length l + j).
        { exists (k1 - (n - length l)). rewrite E2, app_length, map_length, repeat_length in CC. lia. }
        destruct KN as (j & ->). rewrite repeat_app.
        destruct (constructD_ok (map Some l) (n - length l) j 0 e1) as (ok & e2 & m & E3 & H3).
        cbn [repeat map app Nat.add] in E3, H3. rewrite map_length in E3. rewrite E3. cbn [obind].
        do 3 eexists. split; [reflexivity|]. destruct ok, H3 as [-> B].
        * split; [|split; [exact W|eexists; exact (ticks_trans _ _ _ _ _ K B)]].
          exists j. cbn [cells used]. rewrite map_app, <- app_assoc. split; [reflexivity|].
          split; [rewrite app_length, repeat_length; reflexivity|]. destruct limit; [|exact I].
          rewrite <- L1, E2. rewrite !app_length, !map_length, !repeat_length. lia.
        * split; [|right; exact (ticks_thrown _ _ _ _ K B)]. exists (n - length l + j). cbn [cells used].
          rewrite repeat_app. split; [reflexivity|]. split; [reflexivity|]. destruct limit; [|exact I].
          rewrite <- L1, E2, repeat_app. reflexivity.
      + do 3 eexists. split; [reflexivity|]. split; [exact R1|]. destruct H as [(A & B & _)|B]; auto.
    - replace (n - length l) with 0 by lia. cbn [repeat]. rewrite app_nil_r.
      replace (Nat.max n (length l)) with (length l) by lia.
      destruct (Nat.ltb_spec n (length l)) as [D|D].
      + destruct (trunc_ok e a l (length l - n) R WL) as (e1 & a1 & E1 & R1 & K). rewrite E1.
        do 3 eexists. split; [reflexivity|]. replace (length l - (length l - n)) with n in R1 by lia.
        split; [exact R1|]. split; [exact (rep_within a l R)|exact K].
      + do 3 eexists. split; [reflexivity|]. rewrite firstn_all2 by lia. split; [exact R|].
        split; [exact (rep_within a l R)|exists 0; apply ticks_refl].
  Qed.

  (** inserting, without exceptions from the items *)
  Lemma writeIns_ok l3 k : forall xs l1 e m, budget e = None ->
    m = map Some l1 ++ raw (length xs) ++ map Some l3 ++ raw k ->
    exists e1, writeIns e (mkArr m (length l1 + length xs + length l3)) (length l1) (length xs) xs =
      Ok (true, e1, mkArr (map Some (l1 ++ xs ++ l3) ++ raw k) (length (l1 ++ xs ++ l3))) /\ budget e1 = None.
  Proof.
    induction xs as [|x xs IH]; intros l1 e m B ->; cbn [writeIns length].
    - rewrite Nat.eqb_refl. cbn [repeat app]. exists e. split; [|exact B]. rewrite map_app, <- app_assoc, app_length, Nat.add_0_r. reflexivity.
    - cbn [cells used repeat app].
      destruct (copyTo_mid e x (map Some l1) (raw (length xs) ++ map Some l3 ++ raw k) (length l1)) as (ok & e1 & E & H);
        [rewrite map_length; reflexivity|].
      rewrite E. cbn [obind]. destruct ok; [|destruct H; contradiction].
      destruct (IH (l1 ++ [x]) e1 (map Some (l1 ++ [x]) ++ raw (length xs) ++ map Some l3 ++ raw k)) as (e2 & E2 & B2).
      { apply H. exact B. } { reflexivity. }
      replace (length (l1 ++ [x]) + length xs + length l3) with (length l1 + S (length xs) + length l3) in E2 by (rewrite app_length; cbn; lia).
      replace (length (l1 ++ [x])) with (S (length l1)) in E2 by (rewrite app_length; cbn; lia).
      rewrite map_app, <- !app_assoc in E2. cbn [map app] in E2. rewrite E2. exists e2. split; [|exact B2]. reflexivity.
  Qed.

  Lemma insertIter_ok e a l at_ xs : rep a l -> at_ < length l -> xs <> [] -> budget e = None ->
    exists ok e1 a1, insertIter limit above e a at_ (length xs) xs = Ok (ok, e1, a1) /\ budget e1 = None /\
      if ok : bool then rep a1 (firstn at_ l ++ xs ++ skipn at_ l) /\ within limit (length l + length xs) = true
      else rep a1 l /\ within limit (length l + length xs) = false.
  Proof.
    intros R LT NE B. unfold insertIter, reserveAt.
    destruct (addExtra_ok e a l (length xs) R) as (ok & e1 & a1 & E & R1 & H). rewrite E. cbn [obind]. destruct ok.
    - destruct H as (C & W & kk & K). assert (B1 : budget e1 = None) by (apply K; exact B).
      destruct R1 as (k & E1 & U1 & L1). rewrite E1, U1. rewrite E1, app_length, map_length, repeat_length in C.
      set (l1 := firstn at_ l). set (l3 := skipn at_ l).
      assert (EL : l = l1 ++ l3) by (symmetry; apply firstn_skipn).
      assert (LL1 : length l1 = at_) by (unfold l1; rewrite firstn_length; lia).
      assert (LL3 : length l = at_ + length l3) by (rewrite EL, app_length; lia).
      assert (NX : exists d, length xs = S d) by (destruct xs; [contradiction|eexists; reflexivity]). destruct NX as (d & NX).
      destruct (move_right e1 (map Some l1) (raw (k - length xs)) l3 d at_ (at_ + length xs)) as (ok & e2 & E2 & H2);
        [rewrite map_length; lia|lia|].
      replace (map Some l ++ raw k) with (map Some l1 ++ map Some l3 ++ raw (S d) ++ raw (k - length xs)).
      2:{ transitivity (map Some (l1 ++ l3) ++ raw k); [|rewrite <- EL; reflexivity]. rewrite map_app, <- app_assoc, <- repeat_app. do 3 f_equal. lia. }
      replace (length l - at_) with (length l3) by lia. rewrite E2. cbn [obind].
      destruct ok; [|destruct H2; contradiction].
      assert (B2 : budget e2 = None) by (apply H2; exact B1).
      destruct (writeIns_ok l3 (k - length xs) xs l1 e2 _ B2 eq_refl) as (e3 & E3 & B3). rewrite LL1 in E3.
      replace (length l + length xs) with (at_ + length xs + length l3) by lia. rewrite <- NX. rewrite E3.
      do 3 eexists. split; [reflexivity|]. split; [exact B3|]. split.
      + exists (k - length xs). cbn [cells used]. split; [reflexivity|]. split; [reflexivity|].
        destruct limit; [|exact I]. rewrite E1, app_length, map_length, repeat_length in L1.
        rewrite app_length, map_length, repeat_length, !app_length. lia.
      + replace (at_ + length xs + length l3) with (length l + length xs) by lia. exact W.
    - destruct H as [(W & -> & ->)|[X _]]; [|contradiction]. do 3 eexists. split; [reflexivity|]. auto.
  Qed.

  Lemma init_rep : rep (init limit) [].
  Proof.
    unfold rep, init. cbn [cells used map app length]. destruct limit as [c|].
    - exists c. rewrite repeat_length. auto.
    - exists 0. auto.
  Qed.

  Lemma get_ok a l i : rep a l -> i < length l -> exists x, nth_error l i = Some x /\ get a i = Ok x.
  Proof.
    intros (k & E & U & L) H. destruct (nth_error l i) as [x|] eqn:N; [|apply nth_error_None in N; lia].
    exists x. split; [reflexivity|]. unfold get. rewrite E, nth_error_app1 by (rewrite map_length; exact H).
    rewrite nth_error_map, N. reflexivity.
  Qed.

  Lemma upd_map {A B} (f : A -> B) (l0 : list A) : forall i x, upd (map f l0) i (f x) = map f (upd l0 i x).
  Proof. induction l0 as [|y l0 IH]; intros [|i] x; cbn [map upd]; try reflexivity. rewrite IH. reflexivity. Qed.
  Lemma upd_app {A} (p q : list A) : forall i x, i < length p -> upd (p ++ q) i x = upd p i x ++ q.
  Proof. induction p as [|y p IH]; intros [|i] x H; cbn in *; try lia; [reflexivity|]. rewrite IH by lia. reflexivity. Qed.

  Lemma set_ok e a l i x : rep a l -> i < length l ->
    exists ok e1 a1, set e a i x = Ok (ok, e1, a1) /\
      if ok : bool then rep a1 (upd l i x) /\ ticks 0 e e1 else rep a1 l /\ thrown e e1.
  Proof.
    intros (k & E & U & L) H. unfold set. destruct (nth_error l i) as [y|] eqn:N; [|apply nth_error_None in N; lia].
    rewrite E, nth_error_app1 by (rewrite map_length; exact H). rewrite nth_error_map, N. cbn [option_map].
    destruct (spend_ok e) as (ok & e1 & ES & HS). rewrite ES. do 3 eexists. split; [reflexivity|]. destruct ok.
    - split; [|exact HS]. exists k. cbn [cells used]. rewrite upd_app by (rewrite map_length; exact H). rewrite upd_map, upd_length.
      split; [reflexivity|]. split; [exact U|]. destruct limit; [|exact I]. rewrite <- L, E, !app_length, !map_length, upd_length. reflexivity.
    - split; [exists k; auto|exact HS].
  Qed.
  Lemma within_le n n1 : n <= n1 -> within limit n1 = true -> within limit n = true.
  Proof. unfold within. destruct limit; [|reflexivity]. rewrite !Nat.leb_le. lia. Qed.

  (** one operation; [i] as in [seen_throw] *)
  Definition good (e : env) l (o : aop T) (r : outcome (answer T * env * arr)) : Prop :=
    exists x e1 a1, r = Ok (x, e1, a1) /\
      ((x = fst (spec dflt limit l o) /\ rep a1 (snd (spec dflt limit l o)) /\ (budget e = None -> budget e1 = None)) \/
       (x = Failed /\ thrown e e1 /\ exists i, rep a1 (l ++ firstn i (added l o)))).

  Definition st (r : outcome (bool * env * arr)) : outcome (answer T * env * arr) :=
    let! (ok, e1, a1) := r in Ok (if ok : bool then Done else Failed, e1, a1).

  Lemma good_grows e l o new r : grows e l new r -> added l o = new -> spec dflt limit l o = grow limit l (l ++ new) ->
    good e l o (st r).
  Proof.
    intros (ok & e1 & a1 & -> & H) A S. unfold good, st. cbn [obind]. do 3 eexists. split; [reflexivity|].
    rewrite S, A. unfold grow. rewrite app_length. destruct ok.
    - destruct H as (R & W & k & K). left. rewrite W. split; [reflexivity|]. split; [exact R|]. apply K.
    - destruct H as [(R & W & ->)|(R & X)].
      + left. rewrite W. split; [reflexivity|]. split; [exact R|auto].
      + right. split; [reflexivity|]. split; [exact X|exact R].
  Qed.

  Lemma run1_good e a l o : rep a l -> allowed l o -> budget e = None \/ atEnd l o = true ->
    good e l o (run1 dflt limit above e a o).
  Proof.
    intros R [WL AL] MAY. pose proof (rep_within a l R) as WR.
    assert (USED : used a = length l) by (destruct R as (k & E & U & L); exact U).
    assert (NIL : forall a1, rep a1 l -> exists i, rep a1 (l ++ firstn i (@nil T))).
    { intros a1 H. exists 0. rewrite app_nil_r. exact H. }
    destruct o; cbn [run1]; try (change (let! (ok, e1, a1) := ?r in Ok (if ok : bool then Done else Failed, e1, a1)) with (st r)).
    - apply (good_grows e l (Add x) [x]); [apply add_grows; exact R|reflexivity|reflexivity].
    - apply (good_grows e l (AddN x n) (repeat x n)); [apply addN_grows; exact R|reflexivity|reflexivity].
    - apply (good_grows e l (Append l0) l0); [apply append_grows; exact R|reflexivity|reflexivity].
    - unfold resize. rewrite USED. destruct (Nat.ltb_spec (length l) n) as [C|C].
      + apply (good_grows e l (Resize n x) (repeat x (n - length l))); [apply addN_grows; exact R|reflexivity|].
        cbn [spec]. rewrite firstn_all2 by lia. reflexivity.
      + assert (S : spec dflt limit l (Resize n x) = (Done, firstn n l)).
        { cbn [spec]. replace (n - length l) with 0 by lia. cbn [repeat]. rewrite app_nil_r. unfold grow.
          rewrite (within_le (length (firstn n l)) (length l)); [reflexivity|rewrite firstn_length; lia|exact WR]. }
        destruct (Nat.ltb_spec n (length l)) as [D|D].
        * destruct (trunc_ok e a l (length l - n) R WL) as (e1 & a1 & E1 & R1 & k & K). rewrite E1.
          unfold good, st. cbn [obind]. do 3 eexists. split; [reflexivity|]. left. rewrite S.
          replace (length l - (length l - n)) with n in R1 by lia. split; [reflexivity|]. split; [exact R1|apply K].
        * unfold good, st. cbn [obind]. do 3 eexists. split; [reflexivity|]. left. rewrite S, firstn_all2 by lia. auto.
    - destruct (resizeD_ok e a l n R WL) as (ok & e1 & a1 & E1 & H). rewrite E1.
      unfold good, st. cbn [obind spec added]. do 3 eexists. split; [reflexivity|]. unfold grow.
      rewrite app_length, firstn_length, repeat_length. replace (Nat.min n (length l) + (n - length l)) with n by lia.
      destruct ok.
      + destruct H as (R1 & W & k & K). left. rewrite (within_le n _ (Nat.le_max_l n (length l)) W).
        split; [reflexivity|]. split; [exact R1|apply K].
      + destruct H as (R1 & [(W & ->)|X]); [left|right; auto].
        assert (WN : within limit n = false).
        { destruct (within limit n) eqn:WN; [|reflexivity]. unfold within in *. destruct limit; [|discriminate].
          rewrite Nat.leb_le in *. apply Nat.leb_gt in W. lia. }
        rewrite WN. auto.
    - unfold insert. rewrite USED. cbn [allowed] in AL. cbn [spec].
      destruct (Nat.ltb_spec (length l) at_) as [C|C].
      { unfold good, st. cbn [obind]. do 3 eexists. split; [reflexivity|]. left. cbn [spec].
        destruct (Nat.ltb_spec (length l) at_); [|lia]. auto. }
      destruct (Nat.eqb_spec at_ (length l)) as [D|D].
      + apply (good_grows e l (Insert at_ x n) (repeat x n)); [apply addN_grows; exact R|reflexivity|].
        cbn [spec]. destruct (Nat.ltb_spec (length l) at_); [lia|]. rewrite D, firstn_all, skipn_all, app_nil_r. reflexivity.
      + destruct MAY as [B|B]; [|cbn in B; apply Nat.leb_le in B; lia].
        destruct (insertIter_ok e a l at_ (repeat x n) R) as (ok & e1 & a1 & E1 & B1 & H); [lia| |exact B|].
        { destruct n; [specialize (AL ltac:(lia)); lia|discriminate]. }
        rewrite repeat_length in E1, H. rewrite E1. unfold good, st. cbn [obind]. do 3 eexists. split; [reflexivity|]. left.
        cbn [spec]. destruct (Nat.ltb_spec (length l) at_); [lia|]. unfold grow.
        rewrite !app_length, firstn_length, skipn_length, repeat_length.
        replace (Nat.min at_ (length l) + (n + (length l - at_))) with (length l + n) by lia.
        destruct ok, H as [R1 W]; rewrite W; auto.
    - unfold insertArray. rewrite USED. cbn [allowed] in AL.
      destruct (Nat.ltb_spec (length l) at_) as [C|C].
      { unfold good, st. cbn [obind]. do 3 eexists. split; [reflexivity|]. left. cbn [spec].
        destruct (Nat.ltb_spec (length l) at_); [|lia]. auto. }
      destruct (Nat.eqb_spec at_ (length l)) as [D|D].
      + apply (good_grows e l (InsertArray at_ l0) l0); [apply append_grows; exact R|reflexivity|].
        cbn [spec]. destruct (Nat.ltb_spec (length l) at_); [lia|]. rewrite D, firstn_all, skipn_all, app_nil_r. reflexivity.
      + destruct MAY as [B|B]; [|cbn in B; apply Nat.leb_le in B; lia].
        destruct (insertIter_ok e a l at_ l0 R) as (ok & e1 & a1 & E1 & B1 & H); [lia|apply AL; lia|exact B|].
        rewrite E1. unfold good, st. cbn [obind]. do 3 eexists. split; [reflexivity|]. left.
        cbn [spec]. destruct (Nat.ltb_spec (length l) at_); [lia|]. unfold grow.
        rewrite !app_length, firstn_length, skipn_length.
        replace (Nat.min at_ (length l) + (length l0 + (length l - at_))) with (length l + length l0) by lia.
        destruct ok, H as [R1 W]; rewrite W; auto.
    - destruct (erase_ok e a l at_ n R AL) as (ok & e1 & a1 & E1 & H). rewrite E1. unfold good, st. cbn [obind].
      do 3 eexists. split; [reflexivity|]. left. cbn [spec]. destruct (Nat.ltb_spec (length l) at_) as [C|C].
      + destruct H as (-> & -> & ->). auto.
      + destruct ok.
        * destruct H as (R1 & k & K). split; [reflexivity|]. split; [exact R1|apply K].
        * destruct H as ([X _] & LT). destruct MAY as [B|B]; [contradiction|]. cbn in B. apply N.leb_le in B. lia.
    - destruct (trunc_ok e a l n R WL) as (e1 & a1 & E1 & R1 & k & K). rewrite E1. unfold good, st. cbn [obind spec].
      do 3 eexists. split; [reflexivity|]. left. split; [reflexivity|]. split; [exact R1|apply K].
    - unfold clear. destruct (trunc_ok e a l (used a) R WL) as (e1 & a1 & E1 & R1 & k & K). rewrite E1. unfold good, st. cbn [obind spec].
      do 3 eexists. split; [reflexivity|]. left. rewrite USED, Nat.sub_diag in R1. split; [reflexivity|]. split; [exact R1|apply K].
    - destruct (reserve_ok e a l n R) as (ok & e1 & a1 & E1 & R1 & H). rewrite E1. unfold good, st. cbn [obind spec added].
      do 3 eexists. split; [reflexivity|]. destruct ok.
      + destruct H as (_ & W & k & K). left. rewrite W. split; [reflexivity|]. split; [exact R1|apply K].
      + destruct H as [(W & ->)|X]; [left; rewrite W; auto|right; auto].
    - destruct (freeExtra_ok e a l R) as (ok & e1 & a1 & E1 & R1 & H). rewrite E1. unfold good, st. cbn [obind spec added].
      do 3 eexists. split; [reflexivity|]. destruct ok.
      + destruct H as (k & K). left. split; [reflexivity|]. split; [exact R1|apply K].
      + right. auto.
    - destruct (get_ok a l i R AL) as (x & N & G). rewrite G. unfold good. cbn [obind spec]. rewrite N.
      do 3 eexists. split; [reflexivity|]. left. auto.
    - destruct (set_ok e a l i x R AL) as (ok & e1 & a1 & E1 & H). rewrite E1. unfold good, st. cbn [obind spec added].
      do 3 eexists. split; [reflexivity|]. destruct ok, H as [R1 K].
      + left. split; [reflexivity|]. split; [exact R1|apply K].
      + right. auto.
  Qed.

  Lemma run_good : forall os e a l, rep a l -> allowedRun dflt limit l os -> budget e = None ->
    exists e1 a1, run dflt limit above e a os = Ok (fst (specRun dflt limit l os), e1, a1) /\
      rep a1 (snd (specRun dflt limit l os)) /\ budget e1 = None.
  Proof.
    induction os as [|o os IH]; intros e a l R AL B; cbn [run specRun].
    - do 2 eexists. split; [reflexivity|]. auto.
    - cbn [allowedRun] in AL. destruct AL as [A1 A2].
      destruct (run1_good e a l o R A1 (or_introl B)) as (x & e1 & a1 & E & [(X & R1 & B1)|(_ & [X _] & _)]); [|contradiction].
      rewrite E. cbn [obind]. destruct (spec dflt limit l o) as [y l1] eqn:S. cbn [fst snd] in *. subst y.
      destruct (IH e1 a1 l1 R1 A2 (B1 B)) as (e2 & a2 & E2 & R2 & B2). rewrite E2. cbn [obind].
      destruct (specRun dflt limit l1 os) as [xs l2]. cbn [fst snd] in *. do 2 eexists. split; [reflexivity|]. auto.
  Qed.

  Lemma run_seen : forall os may e a l, rep a l -> allowedEnd dflt limit may l os -> (may = false -> budget e = None) ->
    exists xs e1 a1 l1, run dflt limit above e a os = Ok (xs, e1, a1) /\ rep a1 l1 /\ seen dflt limit may l os xs l1.
  Proof.
    induction os as [|o os IH]; intros may e a l R AL B; cbn [run].
    - do 4 eexists. split; [reflexivity|]. split; [exact R|constructor].
    - cbn [allowedEnd] in AL. destruct AL as (A1 & A2 & A3 & A4).
      destruct (run1_good e a l o R A1 (or_intror A2)) as (x & e1 & a1 & E & [(X & R1 & B1)|(X & [T1 T2] & i & R1)]).
      + rewrite E. cbn [obind]. destruct (spec dflt limit l o) as [y l1] eqn:S. cbn [fst snd] in *. subst y.
        destruct (IH may e1 a1 l1 R1 A3) as (xs & e2 & a2 & l2 & E2 & R2 & S2); [auto|].
        rewrite E2. cbn [obind]. do 4 eexists. split; [reflexivity|]. split; [exact R2|]. econstructor; eassumption.
      + destruct may; [|specialize (B eq_refl); contradiction].
        rewrite E. cbn [obind]. destruct (IH false e1 a1 _ R1 (A4 eq_refl i)) as (xs & e2 & a2 & l2 & E2 & R2 & S2); [auto|].
        rewrite E2. cbn [obind]. do 4 eexists. split; [reflexivity|]. split; [exact R2|]. subst x. exact (seen_throw dflt limit l o i os xs l2 S2).
  Qed.

  Lemma clear_raw e a l : rep a l -> (N.of_nat (length l) < 2 ^ 64)%N ->
    exists e1 a1, clear e a = Ok (true, e1, a1) /\ used a1 = 0 /\ Forall (eq None) (cells a1).
  Proof.
    intros R W. unfold clear. destruct (trunc_ok e a l (used a) R W) as (e1 & a1 & E1 & (k & E & U & _) & _). rewrite E1.
    assert (USED : used a = length l) by (destruct R as (? & _ & X & _); exact X). rewrite USED, Nat.sub_diag in *.
    do 2 eexists. split; [reflexivity|]. split; [exact U|]. rewrite E. cbn [firstn map app]. clear. induction k; constructor; auto.
  Qed.

  (** moves while adding *)
  Lemma add_moves e a l x : limit = None -> budget e = None -> rep a l ->
    exists e1 a1, add limit above e a x = Ok (true, e1, a1) /\ rep a1 (l ++ [x]) /\ budget e1 = None /\
      ((length l < length (cells a) /\ moves e1 = moves e /\ length (cells a1) = length (cells a)) \/
       (length l = length (cells a) /\ moves e1 = moves e + length l /\ length (cells a1) = Nat.max (length l * 3 / 2) (length l + 1))).
  Proof.
    intros EL B R. unfold add, addExtra. destruct (add_ok e a l x R) as (ok & e9 & a9 & E9 & H9).
    pose proof R as (k & E & U & L). rewrite U.
    assert (LC : length (cells a) = length l + k) by (rewrite E, app_length, map_length, repeat_length; reflexivity).
    destruct (Nat.ltb_spec (length (cells a)) (length l + 1)) as [C|C].
    - rewrite EL. rewrite E. destruct (realloc_ok e l k (Nat.max (length l * 3 / 2) (length l + 1)) EL) as (ok1 & e1 & E1 & H1); [lia|].
      rewrite E1. cbn [obind]. destruct ok1; [|destruct H1; contradiction].
      set (a1 := mkArr _ _). assert (R1 : rep a1 l).
      { eexists. cbn [cells used]. split; [reflexivity|]. split; [reflexivity|]. rewrite EL. exact I. }
      destruct (push_ok e1 a1 l x R1) as (ok2 & e2 & a2 & E2 & L2 & H2).
      { cbn [cells a1]. rewrite app_length, map_length, repeat_length. lia. }
      rewrite E2. destruct ok2.
      + destruct H1 as [M1 B1], H2 as (R2 & M2 & B2). do 2 eexists. split; [reflexivity|]. split; [exact R2|]. split; [auto|].
        right. rewrite <- E. split; [lia|]. split; [lia|]. rewrite L2. cbn [cells a1]. rewrite app_length, map_length, repeat_length. lia.
      + destruct H1 as [_ B1], H2 as (_ & X & _). specialize (B1 B). contradiction.
    - cbn [obind]. destruct (push_ok e a l x R) as (ok2 & e2 & a2 & E2 & L2 & H2); [lia|]. rewrite E2. destruct ok2.
      + destruct H2 as (R2 & M2 & B2). do 2 eexists. split; [reflexivity|]. split; [exact R2|]. split; [auto|]. left. lia.
      + destruct H2 as (_ & X & _). contradiction.
  Qed.

  Lemma adds_moves : limit = None -> forall xs e a l, budget e = None -> rep a l ->
    moves e <= 2 * length (cells a) + length l -> 2 * length (cells a) <= 3 * length l ->
    exists e1 a1, addAll limit above e a xs = Ok (true, e1, a1) /\ rep a1 (l ++ xs) /\ budget e1 = None /\
      moves e1 <= 2 * length (cells a1) + length (l ++ xs) /\ 2 * length (cells a1) <= 3 * length (l ++ xs).
  Proof.
    intros EL. induction xs as [|x xs IH]; intros e a l B R M1 M2; cbn [addAll].
    - do 2 eexists. split; [reflexivity|]. rewrite app_nil_r. auto.
    - destruct (add_moves e a l x EL B R) as (e1 & a1 & E1 & R1 & B1 & H). rewrite E1. cbn [obind].
      assert (X : moves e1 <= 2 * length (cells a1) + length (l ++ [x]) /\ 2 * length (cells a1) <= 3 * length (l ++ [x])).
      { rewrite app_length. cbn [length]. destruct H as [(H1 & H2 & H3)|(H1 & H2 & H3)]; [lia|].
        pose proof (Nat.div_mod (length l * 3) 2 ltac:(lia)). pose proof (Nat.mod_upper_bound (length l * 3) 2 ltac:(lia)). lia. }
      destruct X as [X1 X2]. destruct (IH e1 a1 (l ++ [x]) B1 R1 X1 X2) as (e2 & a2 & E2 & R2 & B2 & Y). rewrite E2.
      rewrite <- app_assoc in *. do 2 eexists. split; [reflexivity|]. auto.
  Qed.

  Lemma adds_room : forall xs e a l, budget e = None -> rep a l -> length l + length xs <= length (cells a) ->
    exists e1 a1, addAll limit above e a xs = Ok (true, e1, a1) /\ rep a1 (l ++ xs) /\
      moves e1 = moves e /\ allocs e1 = allocs e /\ length (cells a1) = length (cells a).
  Proof.
    induction xs as [|x xs IH]; intros e a l B R C; cbn [addAll].
    - do 2 eexists. split; [reflexivity|]. rewrite app_nil_r. auto.
    - cbn [length] in C. pose proof R as (k & E & U & L). unfold add, addExtra. rewrite U.
      destruct (Nat.ltb_spec (length (cells a)) (length l + 1)); [lia|]. cbn [obind].
      destruct (push_ok e a l x R) as (ok & e1 & a1 & E1 & L1 & H1); [lia|]. rewrite E1. cbn [obind].
      assert (SAME : e1 = e /\ ok = true).
      { unfold push in E1. destruct (copyTo e x (cells a) (used a)) as [[[ok' e'] m']| | |] eqn:CC; try discriminate. cbn [obind] in E1.
        unfold copyTo in CC. destruct (nth_error (cells a) (used a)) as [[?|]|]; try discriminate. rewrite spend_none in CC by exact B.
        inversion CC; subst. inversion E1; subst. auto. }
      destruct SAME as [-> ->]. destruct H1 as [R1 _].
      destruct (IH e a1 (l ++ [x]) B R1) as (e2 & a2 & E2 & R2 & M2 & A2 & L2); [rewrite app_length; cbn [length]; lia|].
      rewrite E2. rewrite <- app_assoc in R2. do 2 eexists. split; [reflexivity|]. split; [exact R2|]. split; [exact M2|]. split; [exact A2|lia].
  Qed.
End Proof.
