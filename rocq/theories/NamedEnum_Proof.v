(** Proofs for named values. *)
From Coq Require Import Sorting.Permutation Sorting.Sorted.
From Verif Require Import Common NamedEnum_Spec Heap_Model Heap_Proof Heap_Props NamedEnum_Model.

(** * Comparison of strings is the lexicographic order *)
Fixpoint lex (a b : list Z) : cmpr :=
  match a, b with
  | [], [] => CEqual | [], _ => CLess | _, [] => CGreater
  | x :: a, y :: b => match compareItems x y with CEqual => lex a b | c => c end
  end.
Lemma ci_swap : forall x y, compareItems y x = swapc (compareItems x y).
Proof. intros. unfold compareItems. destruct (Z.eqb_spec x y), (Z.eqb_spec y x), (Z.ltb_spec x y), (Z.ltb_spec y x); try reflexivity; lia. Qed.
Lemma ci_eq : forall x y, compareItems x y = CEqual <-> x = y.
Proof. intros. unfold compareItems. destruct (Z.eqb_spec x y), (Z.ltb_spec x y); split; try easy; lia. Qed.
Lemma lex_swap : forall a b, lex b a = swapc (lex a b).
Proof. induction a as [|x a IH]; intros [|y b]; cbn; auto. rewrite (ci_swap x y). destruct (compareItems x y); cbn; auto. Qed.
Lemma lex_eq : forall a b, lex a b = CEqual <-> a = b.
Proof.
  induction a as [|x a IH]; intros [|y b]; cbn; try easy. destruct (compareItems x y) eqn:E.
  - split; [easy|]. intros Q. injection Q as -> ->. assert (compareItems y y = CEqual) by now apply ci_eq. congruence.
  - apply ci_eq in E. subst. rewrite IH. split; congruence.
  - split; [easy|]. intros Q. injection Q as -> ->. assert (compareItems y y = CEqual) by now apply ci_eq. congruence.
Qed.
Lemma cmpLoop_ok : forall a b, length a <= length b -> exists c, cmpLoop a b CEqual = Ok c /\ lex a b = match c with CEqual => if length a <? length b then CLess else CEqual | c => c end.
Proof.
  induction a as [|x a IH]; intros [|y b] L; cbn [cmpLoop lex length] in *; try lia.
  - exists CEqual. auto.
  - exists CEqual. auto.
  - destruct (compareItems x y) eqn:E; eauto. destruct (IH b) as [c [A B]]; [lia|]. exists c. split; [auto|]. rewrite B. reflexivity.
Qed.
Lemma compare1_ok : forall a b, length a <= length b -> compare1 a b = Ok (lex a b).
Proof.
  intros a b L. destruct a as [|x a]; [destruct b; reflexivity|]. destruct (cmpLoop_ok (x :: a) b L) as [c [A B]]. unfold compare1. rewrite A. cbn [obind]. now rewrite B.
Qed.
Lemma compare_ok : forall a b, compare a b = Ok (lex a b).
Proof.
  intros a b. unfold compare. destruct (Nat.ltb_spec (length b) (length a)) as [H|H].
  - rewrite compare1_ok by lia. cbn [obind]. now rewrite <- lex_swap.
  - now apply compare1_ok.
Qed.
Lemma ci_cases : forall x y, (compareItems x y = CLess /\ (x < y)%Z) \/ (compareItems x y = CEqual /\ x = y) \/ (compareItems x y = CGreater /\ (y < x)%Z).
Proof. intros. unfold compareItems. destruct (Z.eqb_spec x y), (Z.ltb_spec x y); auto; right; right; split; auto; lia. Qed.
Lemma lex_trans : forall a b c, lex a b <> CGreater -> lex b c <> CGreater -> lex a c <> CGreater /\ (lex a c = CEqual -> lex a b = CEqual /\ lex b c = CEqual).
Proof.
  induction a as [|x a IH]; intros [|y b] [|z c]; cbn; try easy.
  intros H1 H2. destruct (ci_cases x y) as [[E1 F1]|[[E1 F1]|[E1 F1]]], (ci_cases y z) as [[E2 F2]|[[E2 F2]|[E2 F2]]], (ci_cases x z) as [[E3 F3]|[[E3 F3]|[E3 F3]]]; try lia;
    rewrite E1, E2, E3 in *; try easy. now apply IH.
Qed.

(** * Binary search *)
Fixpoint bs (fuel : nat) (f : nat -> cmpr) (h t : nat) : outcome (option nat) :=
  if h <? t then match fuel with O => NoFuel | S k => let c := (h + t) / 2 in match f c with CLess => bs k f h c | CGreater => bs k f (c + 1) t | CEqual => Ok (Some c) end end
  else Ok None.
Lemma bs_ok : forall fuel f n h t, t <= n -> t - h <= fuel ->
  (forall i j, i < j -> j < n -> f i = CLess -> f j = CLess) -> (forall i j, i < j -> j < n -> f j = CGreater -> f i = CGreater) ->
  exists r, bs fuel f h t = Ok r /\ match r with Some c => h <= c < t /\ f c = CEqual | None => forall c, h <= c < t -> f c <> CEqual end.
Proof.
  induction fuel as [|k IH]; intros f n h t L1 L2 M1 M2; cbn [bs]; destruct (Nat.ltb_spec h t) as [H|H]; try lia.
  - exists None. split; [auto|]. intros; lia.
  - pose proof (Nat.div_mod (h + t) 2 ltac:(lia)) as D. pose proof (Nat.mod_upper_bound (h + t) 2 ltac:(lia)) as D2. set (c := (h + t) / 2) in *. cbv zeta. destruct (f c) eqn:E.
    + destruct (IH f n h c ltac:(lia) ltac:(lia) M1 M2) as [r [A B]]. exists r. split; [auto|]. destruct r as [x|]; [split; [lia|tauto]|]. intros x X Q.
      destruct (Nat.lt_ge_cases x c); [apply (B x); auto; lia|]. destruct (Nat.eq_dec x c); [congruence|]. rewrite (M1 c x) in Q; [discriminate|lia|lia|auto].
    + exists (Some c). split; [auto|]. split; [lia|auto].
    + destruct (IH f n (c + 1) t ltac:(lia) ltac:(lia) M1 M2) as [r [A B]]. exists r. split; [auto|]. destruct r as [x|]; [split; [lia|tauto]|]. intros x X Q.
      destruct (Nat.lt_ge_cases c x); [apply (B x); auto; lia|]. destruct (Nat.eq_dec x c); [congruence|]. rewrite (M2 x c) in Q; [discriminate|lia|lia|auto].
  - exists None. split; [auto|]. intros; lia.
Qed.

(** * Orders *)
Lemma sorted_nth : forall A (P : A -> A -> Prop) l i j x y, StronglySorted P l -> i < j -> nth_error l i = Some x -> nth_error l j = Some y -> P x y.
Proof.
  intros A P l i j x y S. revert i j. induction S as [|a l S IH F]; intros i j L E1 E2; [destruct i; discriminate|].
  destruct j; [lia|]. cbn in E2. destruct i; cbn in E1.
  - injection E1 as ->. rewrite Forall_forall in F. apply F. eapply nth_error_In; eauto.
  - eapply IH; [|exact E1|exact E2]. lia.
Qed.
Definition ent (l : list defn) (i : nat) : defn := nth i l (0%Z, []).
Lemma ent_some : forall l i, i < length l -> nth_error l i = Some (ent l i).
Proof. intros. unfold ent. now apply nth_error_nth'. Qed.
Lemma strLess_lex : forall a b, strLess a b = true <-> lex a b = CLess.
Proof. intros. unfold strLess. rewrite compare_ok. destruct (lex a b); split; easy. Qed.
Lemma nl_sw : forall l, strict_weak (nameLess l).
Proof.
  intros l. split; unfold nameLess.
  - intros a b H. fold (ent l a) (ent l b) in *. apply strLess_lex in H. destruct (strLess (snd (ent l b)) (snd (ent l a))) eqn:E; [|auto]. apply strLess_lex in E. rewrite lex_swap, H in E. discriminate.
  - intros a b c H1 H2. fold (ent l a) (ent l b) (ent l c) in *. destruct (strLess (snd (ent l c)) (snd (ent l a))) eqn:E; [|auto]. apply strLess_lex in E.
    assert (X : forall x y, strLess y x = false -> lex x y <> CGreater). { intros x y Q G. assert (lex y x = CLess) by (rewrite lex_swap, G; reflexivity). apply strLess_lex in H. congruence. }
    apply X in H1. apply X in H2. destruct (lex_trans _ _ _ H1 H2) as [Y _]. rewrite lex_swap, E in Y. now elim Y.
Qed.
Lemma el_sw : forall l, strict_weak (enumLess l).
Proof. intros l. unfold enumLess. split; intros *; rewrite ?Z.ltb_lt, ?Z.ltb_ge; lia. Qed.
Lemma strLess_ge : forall a b, strLess b a = false -> lex a b <> CGreater.
Proof. intros a b H G. assert (E : lex b a = CLess) by (rewrite lex_swap, G; reflexivity). apply strLess_lex in E. congruence. Qed.

Record ok (l : list defn) (e : ne) : Prop := {
  ok_items : items e = l;
  ok_pn : Permutation (seq 0 (length l)) (byName e);
  ok_pe : Permutation (seq 0 (length l)) (byEnum e);
  ok_sn : StronglySorted (fun i j => nameLess l j i = false) (byName e);
  ok_se : StronglySorted (fun i j => enumLess l j i = false) (byEnum e) }.
Lemma construct_ok : forall l, exists e, construct l = Ok e /\ ok l e.
Proof.
  intros l. destruct (C21_sort _ _ (nl_sw l) (seq 0 (length l))) as [a [A1 [A2 A3]]]. destruct (C21_sort _ _ (el_sw l) (seq 0 (length l))) as [b [B1 [B2 B3]]].
  unfold construct. rewrite A1. cbn [obind]. rewrite B1. cbn [obind]. eexists. split; [reflexivity|]. constructor; auto.
Qed.
Lemma perm_nth : forall n p c, Permutation (seq 0 n) p -> c < n -> exists i, nth_error p c = Some i /\ i < n.
Proof.
  intros n p c P L. pose proof (Permutation_length P) as E. rewrite seq_length in E. destruct (nth_error p c) as [i|] eqn:X; [|apply nth_error_None in X; lia].
  exists i. split; [auto|]. apply nth_error_In in X. apply (Permutation_in _ (Permutation_sym P)) in X. apply in_seq in X. lia.
Qed.
Lemma perm_find : forall n p i, Permutation (seq 0 n) p -> i < n -> exists c, nth_error p c = Some i /\ c < n.
Proof.
  intros n p i P L. pose proof (Permutation_length P) as E. rewrite seq_length in E. assert (I : In i p) by (apply (Permutation_in _ P); apply in_seq; lia).
  apply In_nth_error in I. destruct I as [c I]. exists c. split; [auto|]. rewrite E. apply nth_error_Some. congruence.
Qed.
Definition cname (l : list defn) (p : list nat) (s : list Z) (c : nat) : cmpr := lex s (snd (ent l (nth c p 0))).
Lemma findLoop_bs : forall l e s, ok l e -> forall fuel h t, t <= length l ->
  findLoop fuel e s h t = let! r := bs fuel (cname l (byName e) s) h t in Ok (match r with Some c => Some (fst (ent l (nth c (byName e) 0))) | None => None end).
Proof.
  intros l e s K. induction fuel as [|k IH]; intros h t L; cbn [findLoop bs]; destruct (Nat.ltb_spec h t) as [H|H]; try reflexivity.
  cbv zeta. pose proof (Nat.div_mod (h + t) 2 ltac:(lia)) as D. pose proof (Nat.mod_upper_bound (h + t) 2 ltac:(lia)) as D2. set (c := (h + t) / 2) in *.
  destruct (perm_nth _ _ c (ok_pn _ _ K) ltac:(lia)) as [i [A B]]. unfold nth_o at 1. rewrite A. cbn [obind]. unfold nth_o. rewrite (ok_items _ _ K), (ent_some l i B). cbn [obind]. rewrite compare_ok. cbn [obind].
  assert (N : nth c (byName e) 0 = i) by (now apply nth_error_nth). unfold cname at 1. rewrite N. destruct (lex s (snd (ent l i))).
  - apply IH. lia.
  - cbn [obind]. now rewrite N.
  - apply IH. lia.
Qed.
Definition cenum (l : list defn) (p : list nat) (v : Z) (c : nat) : cmpr := compareItems v (fst (ent l (nth c p 0))).
Lemma nameLoop_bs : forall l e v, ok l e -> forall fuel h t, t <= length l ->
  nameLoop fuel e v h t = let! r := bs fuel (cenum l (byEnum e) v) h t in Ok (match r with Some c => snd (ent l (nth c (byEnum e) 0)) | None => [] end).
Proof.
  intros l e v K. induction fuel as [|k IH]; intros h t L; cbn [nameLoop bs]; destruct (Nat.ltb_spec h t) as [H|H]; try reflexivity.
  cbv zeta. pose proof (Nat.div_mod (h + t) 2 ltac:(lia)) as D. pose proof (Nat.mod_upper_bound (h + t) 2 ltac:(lia)) as D2. set (c := (h + t) / 2) in *.
  destruct (perm_nth _ _ c (ok_pe _ _ K) ltac:(lia)) as [i [A B]]. unfold nth_o at 1. rewrite A. cbn [obind]. unfold nth_o. rewrite (ok_items _ _ K), (ent_some l i B). cbn [obind].
  assert (N : nth c (byEnum e) 0 = i) by (now apply nth_error_nth). unfold cenum at 1. rewrite N.
  destruct (ci_cases v (fst (ent l i))) as [[E F]|[[E F]|[E F]]]; rewrite E.
  - destruct (Z.ltb_spec v (fst (ent l i))); [|lia]. apply IH. lia.
  - destruct (Z.ltb_spec v (fst (ent l i))); [lia|]. destruct (Z.ltb_spec (fst (ent l i)) v); [lia|]. cbn [obind]. now rewrite N.
  - destruct (Z.ltb_spec v (fst (ent l i))); [lia|]. destruct (Z.ltb_spec (fst (ent l i)) v); [|lia]. apply IH. lia.
Qed.
Lemma cname_mono : forall l e s, ok l e -> (forall i j, i < j -> j < length l -> cname l (byName e) s i = CLess -> cname l (byName e) s j = CLess)
  /\ (forall i j, i < j -> j < length l -> cname l (byName e) s j = CGreater -> cname l (byName e) s i = CGreater).
Proof.
  intros l e s K. assert (G : forall i j, i < j -> j < length l -> lex (snd (ent l (nth i (byName e) 0))) (snd (ent l (nth j (byName e) 0))) <> CGreater).
  { intros i j L1 L2. destruct (perm_nth _ _ i (ok_pn _ _ K) ltac:(lia)) as [x [X1 X2]]. destruct (perm_nth _ _ j (ok_pn _ _ K) L2) as [y [Y1 Y2]].
    pose proof (sorted_nth _ _ _ _ _ _ _ (ok_sn _ _ K) L1 X1 Y1) as S. cbn in S. rewrite (nth_error_nth _ _ 0 X1), (nth_error_nth _ _ 0 Y1). now apply strLess_ge. }
  split; intros i j L1 L2 H; specialize (G i j L1 L2); unfold cname in *.
  - destruct (lex_trans s _ _ ltac:(rewrite H; easy) G) as [A B]. destruct (lex s (snd (ent l (nth j (byName e) 0)))); [auto| |congruence]. destruct (B eq_refl). congruence.
  - destruct (lex s (snd (ent l (nth i (byName e) 0)))) eqn:E; [| |auto].
    + destruct (lex_trans s _ _ ltac:(rewrite E; easy) G) as [A B]. congruence.
    + destruct (lex_trans s _ _ ltac:(rewrite E; easy) G) as [A B]. congruence.
Qed.
Lemma cenum_mono : forall l e s, ok l e -> (forall i j, i < j -> j < length l -> cenum l (byEnum e) s i = CLess -> cenum l (byEnum e) s j = CLess)
  /\ (forall i j, i < j -> j < length l -> cenum l (byEnum e) s j = CGreater -> cenum l (byEnum e) s i = CGreater).
Proof.
  intros l e s K. assert (G : forall i j, i < j -> j < length l -> (fst (ent l (nth i (byEnum e) 0%nat)) <= fst (ent l (nth j (byEnum e) 0%nat)))%Z).
  { intros i j L1 L2. destruct (perm_nth _ _ i (ok_pe _ _ K) ltac:(lia)) as [x [X1 X2]]. destruct (perm_nth _ _ j (ok_pe _ _ K) L2) as [y [Y1 Y2]].
    pose proof (sorted_nth _ _ _ _ _ _ _ (ok_se _ _ K) L1 X1 Y1) as S. cbn in S. rewrite (nth_error_nth _ _ 0 X1), (nth_error_nth _ _ 0 Y1). unfold enumLess in S. fold (ent l x) (ent l y) in S. apply Z.ltb_ge in S. exact S. }
  split; intros i j L1 L2 H; specialize (G i j L1 L2); unfold cenum in *;
    destruct (ci_cases s (fst (ent l (nth i (byEnum e) 0)))) as [[E1 F1]|[[E1 F1]|[E1 F1]]], (ci_cases s (fst (ent l (nth j (byEnum e) 0)))) as [[E2 F2]|[[E2 F2]|[E2 F2]]]; rewrite E1, E2 in *; auto; try lia; discriminate.
Qed.
Lemma ent_in : forall l i, i < length l -> In (fst (ent l i), snd (ent l i)) l.
Proof. intros l i H. rewrite <- surjective_pairing. unfold ent. now apply nth_In. Qed.
Lemma in_ent : forall l d, In d l -> exists i, i < length l /\ ent l i = d.
Proof. intros l d H. destruct (In_nth l d (0%Z, []) H) as [i [A B]]. eauto. Qed.
Lemma find_ok : forall l e s, ok l e -> exists r, find e s = Ok r /\ match r with Some v => In (v, s) l | None => ~ has_name l s end.
Proof.
  intros l e s K. destruct (cname_mono l e s K) as [M1 M2]. unfold find. rewrite (ok_items _ _ K). rewrite (findLoop_bs l e s K) by lia.
  destruct (bs_ok (length l) (cname l (byName e) s) (length l) 0 (length l) ltac:(lia) ltac:(lia) M1 M2) as [r [A B]]. rewrite A. cbn [obind]. eexists. split; [reflexivity|].
  destruct r as [c|].
  - destruct B as [B1 B2]. unfold cname in B2. apply lex_eq in B2. destruct (perm_nth _ _ c (ok_pn _ _ K) ltac:(lia)) as [i [C1 C2]]. rewrite (nth_error_nth _ _ 0 C1) in *. rewrite B2. now apply ent_in.
  - intros [v I]. apply in_ent in I. destruct I as [i [I1 I2]]. destruct (perm_find _ _ i (ok_pn _ _ K) I1) as [c [C1 C2]]. apply (B c); [lia|]. unfold cname. rewrite (nth_error_nth _ _ 0 C1), I2. now apply lex_eq.
Qed.
Lemma name_ok : forall l e v, ok l e -> exists s, nameOf e v = Ok s /\ (has_value l v -> In (v, s) l) /\ (~ has_value l v -> s = []).
Proof.
  intros l e v K. destruct (cenum_mono l e v K) as [M1 M2]. unfold nameOf. rewrite (ok_items _ _ K). rewrite (nameLoop_bs l e v K) by lia.
  destruct (bs_ok (length l) (cenum l (byEnum e) v) (length l) 0 (length l) ltac:(lia) ltac:(lia) M1 M2) as [r [A B]]. rewrite A. cbn [obind]. eexists. split; [reflexivity|].
  destruct r as [c|].
  - destruct B as [B1 B2]. unfold cenum in B2. apply ci_eq in B2. destruct (perm_nth _ _ c (ok_pe _ _ K) ltac:(lia)) as [i [C1 C2]]. rewrite (nth_error_nth _ _ 0 C1) in *.
    assert (I : In (v, snd (ent l i)) l) by (rewrite B2; now apply ent_in). split; [auto|]. intros Q. elim Q. now exists (snd (ent l i)).
  - split; [|auto]. intros [s I]. exfalso. apply in_ent in I. destruct I as [i [I1 I2]]. destruct (perm_find _ _ i (ok_pe _ _ K) I1) as [c [C1 C2]]. apply (B c); [lia|]. unfold cenum. rewrite (nth_error_nth _ _ 0 C1), I2. now apply ci_eq.
Qed.
Lemma fold_joined : forall sep t a, fold_left (fun acc (d : defn) => acc ++ sep ++ snd d) t a = a ++ match t with [] => [] | _ => sep ++ joined sep t end.
Proof.
  induction t as [|d t IH]; intros a; cbn [fold_left]; [now rewrite app_nil_r|]. rewrite IH. cbn [joined]. destruct t as [|d2 t]; [now rewrite app_nil_r|]. rewrite <- !app_assoc. reflexivity.
Qed.
Lemma toString_ok : forall e sep, toString e sep = joined sep (items e).
Proof. intros e sep. unfold toString. destruct (items e) as [|d t]; [reflexivity|]. rewrite fold_joined. destruct t; cbn; [now rewrite app_nil_r|reflexivity]. Qed.
