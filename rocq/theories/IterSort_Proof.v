(** Lemmas about the sorting filter. *)
From Coq Require Import Sorting.Permutation Sorting.Sorted.
From Verif Require Import Common Heap_Model Heap_Proof Iter_Spec Iter_Model Iter_Proof.

Section SortF.
  Context {A : Type} (isLess : A -> A -> bool).
  Hypothesis asym : forall a b, isLess a b = true -> isLess b a = false.
  Hypothesis trans : forall a b c, isLess b a = false -> isLess c b = false -> isLess c a = false.
  Variable cap : option nat.
  Hypothesis cap1 : cap <> Some 0.

  Definition sf_bag (s : sortf A) : list A := arr (sfHeap s) ++ match sfExtra s with Some e => [e] | None => [] end.
  Record sf_inv (s : sortf A) : Prop := {
    si_heap : forall d, isHeap isLess d (sfHeap s);
    si_size : hsize (sfHeap s) = length (arr (sfHeap s));
    si_cap : match cap with Some c => length (arr (sfHeap s)) <= c | None => True end;
    si_extra : sfExtra s <> None -> exists c, cap = Some c /\ length (arr (sfHeap s)) = c }.

  Lemma sf_inv_new : sf_inv sf_new.
  Proof.
    split; cbn; auto; try congruence; [|destruct cap; lia].
    intros d. split; cbn; auto. intros i; lia.
  Qed.

  Lemma sf_add_ok h x : (forall d, isHeap isLess d h) -> hsize h = length (arr h) ->
    exists h', sf_add isLess h x = Ok h' /\ (forall d, isHeap isLess d h') /\ hsize h' = length (arr h') /\ Permutation (x :: arr h) (arr h').
  Proof.
    intros I S. unfold sf_add.
    assert (P : forall d, isHeap isLess d (mkHeap (arr h ++ [x]) (hsize h))).
    { intros d. destruct (I d) as [L O]. split; cbn [hsize arr]; [rewrite app_length; lia|].
      intros i Hi Hi'. specialize (O i Hi Hi'). pose proof (parent_lt isLess d i Hi).
      rewrite !app_nth1 by lia. exact O. }
    assert (L : hsize (mkHeap (arr h ++ [x]) (hsize h)) < length (arr (mkHeap (arr h ++ [x]) (hsize h)))).
    { cbn. rewrite app_length. cbn. lia. }
    destruct (push_ok isLess x asym trans _ (P x) L) as (h' & E & _ & Sz & R). cbn [hsize arr] in *.
    rewrite E. cbn [obind]. exists h'. split; [reflexivity|]. split; [|split].
    - intros d. destruct (push_ok isLess d asym trans _ (P d) L) as (h2 & E2 & I2 & _). rewrite E in E2. injection E2 as <-. exact I2.
    - rewrite (reorder_length x _ _ _ R), app_length. cbn. lia.
    - eapply Permutation_trans; [|apply (ro_perm _ _ _ _ R)]. apply Permutation_cons_append.
  Qed.

  Lemma sf_input_ok s x : sf_inv s -> sfExtra s = None ->
    exists s', sf_input isLess cap s x = Ok s' /\ sf_inv s' /\ Permutation (x :: sf_bag s) (sf_bag s') /\
      (needI (sortFilter isLess cap) s' = false -> exists c, cap = Some c /\ length (sf_bag s') = c + 1).
  Proof.
    intros [H S C E] N. unfold sf_input. rewrite N. cbn [obind].
    destruct (sf_room cap s) eqn:R.
    - destruct (sf_add_ok (sfHeap s) x H S) as (h & Ea & Hh & Sh & P). rewrite Ea. cbn [obind]. eexists. split; [reflexivity|].
      pose proof (Permutation_length P) as L. cbn in L. split; [split; cbn; auto|split].
      + unfold sf_room in R. destruct cap; auto. apply Nat.ltb_lt in R. lia.
      + congruence.
      + unfold sf_bag. cbn. rewrite N, !app_nil_r. exact P.
      + cbn. rewrite N. discriminate.
    - eexists. split; [reflexivity|]. split; [split; cbn; auto|split].
      + intros _. unfold sf_room in R. destruct cap as [c|]; [|discriminate]. apply Nat.ltb_ge in R. exists c. split; auto. lia.
      + unfold sf_bag. cbn. rewrite N, app_nil_r. apply Permutation_cons_append.
      + intros _. unfold sf_room in R. destruct cap as [c|]; [|discriminate]. apply Nat.ltb_ge in R. exists c. split; auto.
        unfold sf_bag. cbn. rewrite app_length. cbn. lia.
  Qed.

  Lemma heap_top_max d h : isHeap isLess d h -> hsize h = length (arr h) -> forall t, nth_error (arr h) 0 = Some t ->
    Forall (fun x => isLess t x = false) (arr h).
  Proof.
    intros [L O] S t T. apply Forall_forall. intros x Hx. apply (In_nth _ _ d) in Hx as (i & Hi & <-).
    apply nth_error_nth with (d := d) in T. rewrite <- T. apply (top_max isLess d asym trans (hsize h) (arr h) O). lia.
  Qed.

  Lemma sf_output_ok s : sf_inv s -> sf_bag s <> [] ->
    exists t s', sf_output isLess s = Ok (t, s') /\ sf_inv s' /\ sfExtra s' = None /\ Permutation (sf_bag s) (t :: sf_bag s') /\
      Forall (fun x => isLess t x = false) (sf_bag s).
  Proof.
    intros [H S C E] N. unfold sf_output, sf_bag in *.
    destruct (arr (sfHeap s)) as [|a l] eqn:Ar.
    { destruct (sfExtra s) eqn:X; [|cbn in N; congruence]. destruct E as (c & Ec & Lc); [congruence|].
      exfalso. rewrite Ec in cap1. rewrite <- Lc in cap1. cbn in cap1. congruence. }
    assert (Top : nth_error (arr (sfHeap s)) 0 = Some a) by (rewrite Ar; reflexivity).
    pose proof (heap_top_max a _ (H a) ltac:(rewrite S, Ar; reflexivity) a Top) as M. rewrite Ar in M.
    destruct (sfExtra s) as [e|] eqn:X.
    - unfold isBetter, top, get. rewrite Ar. cbn [nth_error obind].
      destruct (isLess a e) eqn:B.
      + exists e, (mkSortf (sfHeap s) None). cbn [sfHeap sfExtra]. split; [reflexivity|]. split; [split; cbn [sfHeap sfExtra]; rewrite ?Ar; auto; congruence|].
        split; [reflexivity|]. rewrite Ar. split; [rewrite app_nil_r; apply Permutation_sym, Permutation_cons_append|].
        apply Forall_app. split; [|constructor; [destruct (isLess e e) eqn:Q; auto; apply asym in Q as Q'; congruence|constructor]].
        eapply Forall_impl; [|exact M]. cbn. intros y Hy. apply (trans y a e); auto.
      + destruct (E ltac:(congruence)) as (c & Ec & Lc).
        assert (Sh : forall d, exists l', shiftDown isLess (e :: l) (hsize (sfHeap s)) 0 = Ok l' /\ reorder d (hsize (sfHeap s)) (e :: l) l' /\
                     heapOrder isLess d (hsize (sfHeap s)) l').
        { intros d. apply shiftDown0_ok; auto; [rewrite S; cbn; lia|]. intros i Hi Hi' Np. pose proof (parent_lt isLess d i Hi).
          destruct (H d) as [_ O]. rewrite Ar in O. specialize (O i Hi Hi'). destruct i as [|i]; [lia|].
          destruct (parent (Datatypes.S i)) as [|k]; [lia|]. exact O. }
        cbn [upd]. destruct (Sh a) as (l' & El & Rl & _). rewrite El. cbn [obind].
        exists a, (mkSortf (mkHeap l' (hsize (sfHeap s))) None). cbn [sfHeap sfExtra arr hsize].
        pose proof (reorder_length a _ _ _ Rl) as Ll. cbn in Ll. split; [reflexivity|]. split; [|split; [reflexivity|split]].
        * split; cbn [sfHeap sfExtra arr hsize]; try congruence.
          -- intros d. destruct (Sh d) as (l2 & E2 & R2 & O2). rewrite El in E2. injection E2 as <-.
             split; cbn [arr hsize]; [rewrite S, Ll; cbn; lia|exact O2].
          -- rewrite S, Ll. reflexivity.
          -- rewrite Ll. rewrite Ec. cbn [length] in Lc |- *. lia.
        * rewrite app_nil_r. cbn [app]. constructor. eapply Permutation_trans; [|apply (ro_perm _ _ _ _ Rl)].
          apply Permutation_sym, Permutation_cons_append.
        * apply Forall_app. split; auto.
    - rewrite app_nil_r in *. unfold top, get. rewrite Ar. cbn [nth_error obind].
      destruct (pop_ok isLess a asym trans (sfHeap s) (H a) ltac:(rewrite S; cbn; lia)) as (h & Ep & _ & Sz & R & T).
      rewrite Ep. cbn [obind]. eexists a, _. split; [reflexivity|].
      pose proof (reorder_length a _ _ _ R) as Lh. rewrite Ar in Lh, R, T. cbn [length nth] in Lh, T.
      assert (Sh : hsize h = length l) by (rewrite Sz, S; cbn; lia).
      assert (Tr : trunc (arr h) 1 = firstn (hsize h) (arr h)) by (unfold trunc; rewrite Lh, Sh; f_equal; lia).
      assert (Lt : length (trunc (arr h) 1) = hsize h) by (rewrite Tr, firstn_length; lia).
      split; [|split; [reflexivity|split]].
      + split; cbn [sfHeap sfExtra arr hsize]; try congruence.
        * intros d. destruct (pop_ok isLess d asym trans (sfHeap s) (H d) ltac:(rewrite S; cbn; lia)) as (h2 & E2 & I2 & _).
          rewrite Ep in E2. injection E2 as <-. destruct I2 as [_ O2]. split; cbn [arr hsize]; [lia|].
          intros i Hi Hi'. pose proof (parent_lt isLess d i Hi). rewrite Tr, !nth_firstn_lt by lia. apply O2; auto.
        * destruct cap; auto. cbn in C. lia.
      + cbn [sfHeap sfExtra arr]. rewrite app_nil_r, Tr. eapply Permutation_trans; [apply (ro_perm _ _ _ _ R)|].
        rewrite <- T. rewrite <- (firstn_all (arr h)) at 1. rewrite Lh, <- Sh. apply firstn_S_perm. lia.
      + exact M.
  Qed.

  Lemma sf_output_empty s : sf_inv s -> sf_bag s = [] -> sf_output isLess s = Throw.
  Proof.
    unfold sf_bag, sf_output. intros _ N. apply app_eq_nil in N as [N1 N2]. destruct (sfExtra s); [discriminate|]. rewrite N1. reflexivity.
  Qed.
  Lemma sf_has s : sf_inv s -> hasO (sortFilter isLess cap) s = match sf_bag s with [] => false | _ => true end.
  Proof.
    intros [H S C E]. unfold sf_bag. cbn. destruct (arr (sfHeap s)) eqn:Ar; cbn; auto.
    destruct (sfExtra s) eqn:X; auto. destruct E as (c & Ec & Lc); [congruence|]. cbn in Lc. subst c. congruence.
  Qed.
End SortF.

(** ** Reading and writing through the sorting filter without limit *)
Section SortAll.
  Context {A : Type} (isLess : A -> A -> bool).
  Hypothesis asym : forall a b, isLess a b = true -> isLess b a = false.
  Hypothesis trans : forall a b c, isLess b a = false -> isLess c b = false -> isLess c a = false.
  Notation F := (sortFilter isLess None).
  Notation inv := (sf_inv isLess None).
  Definition desc (a b : A) : Prop := isLess a b = false.
  Lemma cap_none : @None nat <> Some 0. Proof. discriminate. Qed.

  Lemma inv_extra s : inv s -> sfExtra s = None.
  Proof. intros [_ _ _ E]. destruct (sfExtra s); auto. destruct E as (c & Q & _); [discriminate|discriminate]. Qed.
  Lemma inv_need s : inv s -> needI F s = true.
  Proof. intros H. cbn. now rewrite (inv_extra s H). Qed.

  Lemma fetch_all : forall xs s, inv s -> exists s', fetchLoop F s xs = Ok (s', []) /\ inv s' /\ Permutation (xs ++ sf_bag s) (sf_bag s').
  Proof.
    induction xs as [|x xs IH]; intros s H.
    - exists s. cbn [fetchLoop]. rewrite (inv_need s H). auto.
    - cbn [fetchLoop]. rewrite (inv_need s H).
      destruct (sf_input_ok isLess asym trans None cap_none s x H (inv_extra s H)) as (s1 & E & H1 & P & _).
      change (finput F s x) with (sf_input isLess None s x). rewrite E. cbn [obind].
      destruct (IH s1 H1) as (s2 & E2 & H2 & P2). exists s2. split; [exact E2|]. split; [exact H2|].
      eapply Permutation_trans; [|exact P2]. cbn [app]. eapply Permutation_trans; [apply Permutation_middle|]. now apply Permutation_app_head.
  Qed.

  (** [drains s l]: output() gives the items of [l], and nothing is left *)
  Inductive drains : sortf A -> list A -> Prop :=
  | dr_end s : inv s -> sf_bag s = [] -> drains s []
  | dr_next s t s' l : inv s -> sf_bag s <> [] -> sf_output isLess s = Ok (t, s') -> drains s' l -> drains s (t :: l).

  Lemma drains_inv s l : drains s l -> inv s.
  Proof. destruct 1; auto. Qed.
  Lemma drains_has s l : drains s l -> hasO F s = match l with [] => false | _ => true end.
  Proof.
    intros H. rewrite (sf_has isLess None cap_none s (drains_inv s l H)). destruct H as [s H E|s t s' l H E O D].
    - now rewrite E.
    - destruct (sf_bag s); congruence.
  Qed.
  Lemma drains_ex : forall n s, inv s -> length (sf_bag s) = n ->
    exists l, drains s l /\ Permutation (sf_bag s) l /\ StronglySorted desc l.
  Proof.
    induction n as [|n IH]; intros s H L.
    - destruct (sf_bag s) eqn:B; [|discriminate]. exists []. split; [constructor; auto|]. split; constructor.
    - assert (B : sf_bag s <> []) by (intros B; rewrite B in L; discriminate).
      destruct (sf_output_ok isLess asym trans None cap_none s H B) as (t & s' & E & H' & _ & P & M).
      destruct (IH s' H') as (l & D & Pl & S). { apply Permutation_length in P. cbn in P. lia. }
      exists (t :: l). split; [econstructor; eauto|]. split; [eapply Permutation_trans; [exact P|now constructor]|].
      constructor; auto. apply Forall_forall. intros x Hx. rewrite Forall_forall in M. apply M.
      apply Permutation_sym in P. apply (Permutation_in _ P). right. apply Permutation_sym in Pl. now apply (Permutation_in _ Pl).
  Qed.

  (** the items the reader [r] still gives *)
  Definition sr_rest (r : fread (I:=A) (O:=A) (S:=sortf A)) (l : list A) : Prop :=
    match frBuf r with
    | Fetched1 x => frSrc r = [] /\ exists l', drains (frFlt r) l' /\ l = x :: l'
    | _ => exists s', inv (frFlt r) /\ (frSrc r = [] \/ sf_bag (frFlt r) = []) /\ fetchLoop F (frFlt r) (frSrc r) = Ok (s', []) /\ drains s' l
    end.

  Lemma sr_op r l o : sr_rest r l -> exists r', fr_op F r o = Ok (fst (read_op l o), r') /\ sr_rest r' (snd (read_op l o)).
  Proof.
    intros H.
    assert (G : exists r', fr_getBuffer F r = Ok (match l with [] => None | x :: _ => Some x end, r') /\ sr_rest r' l /\
                 match l with [] => True | x :: l' => frBuf r' = Fetched1 x /\ frSrc r' = [] /\ drains (frFlt r') l' end).
    { unfold fr_getBuffer, sr_rest in *. destruct (frBuf r) eqn:B.
      2: { destruct H as (Sr & l' & D & ->). exists r. rewrite B. split; auto. split; eauto. }
      all: destruct H as (s' & I & Em & Ft & D).
      all: assert (Q : (if hasO F (frFlt r) then Ok (frFlt r, frSrc r) else blockFetch F (frFlt r) (frSrc r)) = Ok (s', []));
        [destruct (hasO F (frFlt r)) eqn:Ho;
         [rewrite (sf_has isLess None cap_none _ I) in Ho; destruct Em as [Em|Em]; [|rewrite Em in Ho; discriminate];
          rewrite Em in Ft |- *; cbn [fetchLoop] in Ft; rewrite (inv_need _ I) in Ft; exact Ft
         |unfold blockFetch; rewrite Ft; cbn [obind]; destruct (needI F s'); reflexivity]|].
      all: rewrite Q; cbn [obind]; rewrite (drains_has s' l D); pose proof D as D0; destruct D as [s' I' B'|s' t s2 l I' B' O' D'].
      all: try (eexists; split; [reflexivity|]; cbn [frBuf frSrc frFlt]; split; auto; exists s'; split; auto; split; auto; split; [cbn [fetchLoop]; now rewrite (inv_need _ I')|exact D0]).
      all: change (foutput F s') with (sf_output isLess s'); rewrite O'; cbn [obind]; eexists; split; [reflexivity|]; cbn [frBuf frSrc frFlt]; split; eauto. }
    destruct G as (r' & E & R & N). destruct o; cbn [fr_op].
    - exists r. split; [|destruct l; exact H]. f_equal. f_equal.
      assert (Q : fr_hasItems F r = match l with [] => false | _ => true end); [|rewrite Q; destruct l; reflexivity].
      unfold fr_hasItems, sr_rest in *. destruct (frBuf r).
      2: { destruct H as (_ & l' & _ & ->). reflexivity. }
      all: destruct H as (s' & I & Em & Ft & D); cbn [orb]; rewrite (inv_need _ I), andb_true_r.
      all: rewrite (sf_has isLess None cap_none _ I).
      all: destruct (fetch_all (frSrc r) _ I) as (s2 & E2 & I2 & P2); rewrite Ft in E2; injection E2 as <-.
      all: pose proof (Permutation_length P2) as L; rewrite app_length in L.
      all: pose proof (drains_has s' l D) as Hs; rewrite (sf_has isLess None cap_none _ I2) in Hs; rewrite <- Hs.
      all: destruct (frSrc r), (sf_bag (frFlt r)), (sf_bag s'); cbn in L |- *; auto; lia.
    - rewrite E. cbn [obind]. exists r'. destruct l; cbn; auto.
    - unfold fr_getNext. rewrite E. cbn [obind]. destruct l as [|x l]; cbn [obind read_op fst snd]; [exists r'; auto|].
      eexists. split; [reflexivity|]. destruct N as (Nb & Ns & D). unfold sr_rest. cbn [frBuf frFlt frSrc].
      exists (frFlt r'). rewrite Ns. pose proof (drains_inv _ _ D) as I. split; auto. split; auto. split; auto. cbn [fetchLoop]. now rewrite (inv_need _ I).
  Qed.
  Lemma sr_ops : forall os r l, sr_rest r l -> exists r', fr_ops F r os = Ok (fst (read_ops l os), r').
  Proof.
    induction os as [|o os IH]; intros r l H; [exists r; auto|]. cbn [fr_ops read_ops].
    destruct (sr_op r l o H) as (r1 & E1 & R1). rewrite E1. cbn [obind].
    destruct (read_op l o) as [a l1]. cbn [fst snd] in *. destruct (IH r1 l1 R1) as (r2 & E2). rewrite E2. cbn [obind]. exists r2.
    destruct (read_ops l1 os). reflexivity.
  Qed.

  Lemma feed_drains : forall l s t fuel cnt, drains s l -> length l <= fuel -> t_fits t (length l) = true ->
    exists s', blockFeed F fuel s t cnt = Ok (s', t_push t l) /\ inv s' /\ sf_bag s' = [].
  Proof.
    induction l as [|x l IH]; intros s t fuel cnt D L Ft.
    - exists s. pose proof (drains_has s [] D) as Hs. inversion D; subst. split; auto. rewrite t_push_nil.
      destruct fuel; cbn [blockFeed]; rewrite Hs; reflexivity.
    - destruct fuel as [|fuel]; [cbn in L; lia|]. cbn [blockFeed]. rewrite (drains_has s (x :: l) D), (t_fits_open t _ Ft), orb_true_r. cbn [andb].
      inversion D; subst. change (foutput F s) with (sf_output isLess s). rewrite H4. cbn [obind]. rewrite (t_write_ok _ _ (t_fits_open t _ Ft)). cbn [obind].
      destruct (IH s' (t_push t [x]) fuel (cnt + 1)) as (s2 & E & I2 & B2); auto; [cbn in L; lia|now apply t_fits_push|].
      exists s2. rewrite E, t_push_app. auto.
  Qed.
  Lemma fw_writes_ok fuel t : forall xs s, inv s -> exists s', fw_writes F fuel (mkFwrite t s) xs = Ok (mkFwrite t s') /\ inv s' /\ Permutation (xs ++ sf_bag s) (sf_bag s').
  Proof.
    induction xs as [|x xs IH]; intros s H; [exists s; auto|]. cbn [fw_writes]. unfold fw_write. cbn [fwFlt fwT]. rewrite (inv_need s H). cbn [obind fwFlt fwT].
    destruct (sf_input_ok isLess asym trans None cap_none s x H (inv_extra s H)) as (s1 & E & H1 & P & _).
    change (finput F s x) with (sf_input isLess None s x). rewrite E. cbn [obind fwFlt]. rewrite (inv_need s1 H1). cbn [obind].
    destruct (IH s1 H1) as (s2 & E2 & H2 & P2). exists s2. split; [exact E2|]. split; [exact H2|].
    eapply Permutation_trans; [|exact P2]. cbn [app]. eapply Permutation_trans; [apply Permutation_middle|]. now apply Permutation_app_head.
  Qed.

  (** a copy made by the copy constructor repeats its first item *)
  Lemma copy_outputs a : forall n (l : list A), length l = n -> sf_outputs isLess (S n) (mkSortf (mkHeap (a :: l) 0) None) = Ok (repeat a (S n), mkSortf (mkHeap [] 0) None).
  Proof.
    induction n as [|n IH]; intros l L.
    - destruct l; [|discriminate]. reflexivity.
    - cbn [sf_outputs]. unfold sf_output at 1. cbn [sfExtra sfHeap arr]. unfold top, get. cbn [arr nth_error obind].
      unfold pop. cbn [hsize Nat.ltb Nat.leb obind arr]. unfold trunc. cbn [length]. rewrite L.
      replace (S (S n) - 1) with (S n) by lia. cbn [firstn].
      assert (L' : length (firstn n l) = n) by (rewrite firstn_length; lia).
      specialize (IH (firstn n l) L'). cbn [sf_outputs] in IH. rewrite IH. reflexivity.
  Qed.
End SortAll.
