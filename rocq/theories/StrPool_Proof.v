(** Proofs about the string pool. *)
From Coq Require Import ZArith.
From Verif Require Import Common StrPool_Spec StrPool_Model.
Open Scope Z_scope.

Lemma addAll_eq c : forall p, items (addAll c p) = items p ++ chars c /\ ref (addAll c p) = ref p.
Proof.
  induction c as [|[x mv] c IH]; cbn; intros p; [rewrite app_nil_r; auto|]. destruct (IH (grow mv [x] p)) as [A B]. rewrite A, B. cbn. rewrite <- app_assoc. auto.
Qed.
Lemma writes_all c : forall p, writes c p = addAll c p.
Proof. induction c as [|[x mv] c IH]; cbn; intros p; [reflexivity|apply IH]. Qed.
Lemma zero_items z mv p : items (zero z mv p) = items p ++ (if z then [0] else []).
Proof. destruct z; cbn; [reflexivity|rewrite app_nil_r; reflexivity]. Qed.

Definition good (z : bool) (l : list Z) (e : sref * list Z * bool) : Prop :=
  let '(r, s, f) := e in len r = Z.of_nat (length s) /\
  exists a b, l = a ++ s ++ b /\ off r = Z.of_nat (length a) /\ (z = true -> f = true -> s <> [] -> exists q, b = 0 :: q).
Definition Inv (z : bool) (s : pool * book) : Prop :=
  size (fst s) < 2 ^ 32 /\ (ref (fst s) = Some (blk (fst s)) \/ items (fst s) = []) /\ Forall (good z (items (fst s))) (snd s).
Lemma good_more z l c e : good z l e -> good z (l ++ c) e.
Proof.
  destruct e as [[r s] f]. cbn. intros (L & a & b & -> & O & Z0). split; [exact L|]. exists a, (b ++ c). rewrite <- !app_assoc. split; [reflexivity|]. split; [exact O|].
  intros A B C. destruct (Z0 A B C) as (q & ->). exists (q ++ c). reflexivity.
Qed.
Lemma more z l c b : Forall (good z l) b -> Forall (good z (l ++ c)) b.
Proof. apply Forall_impl. intros e. apply good_more. Qed.
Lemma n32_small x : 0 <= x < 2 ^ 32 -> n32 x = x.
Proof. intros H. unfold n32. apply Z.mod_small. exact H. Qed.
Lemma size_app (l c : list Z) : Z.of_nat (length (l ++ c)) = Z.of_nat (length l) + Z.of_nat (length c).
Proof. rewrite app_length. lia. Qed.
Lemma good_new z l s w : Z.of_nat (length (l ++ s ++ w)) < 2 ^ 32 -> (z = true -> exists q, w = 0 :: q) ->
  good z (l ++ s ++ w) (mkRef (n32 (Z.of_nat (length l))) (n32 (Z.of_nat (length s))), s, true).
Proof.
  intros B W. rewrite !size_app in B. cbn. rewrite !n32_small by lia. split; [reflexivity|]. exists l, w. split; [reflexivity|]. split; [reflexivity|]. auto.
Qed.

Lemma session_size z w : forall k p b, (size p <= size (fst (session z k w p b))).
Proof.
  induction w as [|[c mv] w IH]; cbn [session]; intros k p b; [cbn; lia|]. destruct (finish z k mv (writes c p)) as [[p1 r] k1] eqn:E.
  specialize (IH k1 p1 ((r, chars c, true) :: b)). assert (Q : size p <= size p1); [|lia]. unfold finish in E. injection E as <- _ _. rewrite writes_all. destruct (addAll_eq c p) as [A _].
  unfold size, setref. cbn [items]. rewrite zero_items, A, !size_app. lia.
Qed.
Lemma session_ok z w : forall p b, Inv z (p, b) -> size (fst (session z (size p) w p b)) < 2 ^ 32 -> Inv z (session z (size p) w p b).
Proof.
  induction w as [|[c mv] w IH]; cbn [session]; intros p b V B; [exact V|]. destruct (finish z (size p) mv (writes c p)) as [[p1 r] k1] eqn:E.
  pose proof (session_size z w k1 p1 ((r, chars c, true) :: b)) as L. unfold finish in E. injection E as E1 E2 E3. rewrite E1 in E3. subst k1. apply IH; [|exact B].
  destruct V as (_ & R & F). cbn [fst snd] in *. rewrite writes_all in *. destruct (addAll_eq c p) as [A1 A2]. assert (LL : size p1 < 2 ^ 32) by lia.
  split; [exact LL|]. cbn [fst snd]. split; [left; subst p1; reflexivity|]. subst p1 r. unfold size, setref in *. cbn [items] in *. rewrite zero_items in *. rewrite A1 in *. rewrite <- app_assoc in *. constructor.
  - rewrite size_app. replace (Z.of_nat (length (items p)) + Z.of_nat (length (chars c)) - Z.of_nat (length (items p))) with (Z.of_nat (length (chars c))) by lia.
    apply good_new; [exact LL|]. intros ->. eauto.
  - apply more. exact F.
Qed.
Lemma exec_ok z o s s' : Inv z s -> exec z o s = Some s' -> Inv z s'.
Proof.
  destruct s as [p b]. intros (B & R & F) E. cbn [fst snd] in *. destruct o as [t mv mv'|i k l|c mv|ws|m|mv|]; cbn [exec] in E.
  - unfold add in E. destruct t as [|x t].
    + destruct (size p <? 2 ^ 32) eqn:L; [|discriminate]. injection E as <-. split; [exact B|]. split; [exact R|]. constructor; [|exact F].
      cbn. split; [reflexivity|]. exists [], (items p). split; [reflexivity|]. split; [reflexivity|]. congruence.
    + set (t' := x :: t) in *. destruct (size _ <? 2 ^ 32) eqn:L; [|discriminate]. injection E as <-. apply Z.ltb_lt in L. split; [exact L|]. cbn [fst snd]. split; [left; reflexivity|].
      unfold size, setref in L. cbn [items] in L. unfold setref. cbn [items]. rewrite zero_items in *. cbn [grow items] in *. rewrite <- app_assoc in *. constructor.
      * apply good_new; [exact L|]. intros ->. eauto.
      * apply more. exact F.
  - destruct (nth_error b i) as [[[r t] f]|] eqn:N; [|discriminate]. destruct (k + l <=? length t)%nat eqn:K; [|discriminate].
    destruct (size p <? 2 ^ 32) eqn:L; [|discriminate]. injection E as <-. split; [exact B|]. split; [exact R|]. cbn [fst snd]. constructor; [|exact F].
    apply nth_error_In in N. rewrite Forall_forall in F. specialize (F _ N). cbn in F. destruct F as (LE & a & q & E & O & _). apply Nat.leb_le in K.
    assert (PL : length (part k l t) = l) by (unfold part; rewrite firstn_length, skipn_length; lia).
    unfold addIn. destruct (Z.of_nat l =? 0) eqn:L0.
    + cbn. assert (part k l t = []) as -> by (apply length_zero_iff_nil; lia). split; [reflexivity|]. exists [], (items p). split; [reflexivity|]. split; [reflexivity|]. congruence.
    + unfold size in B. rewrite E, !app_length in B. cbn. rewrite !n32_small by lia. split; [lia|].
      exists (a ++ firstn k t), (skipn l (skipn k t) ++ q). split; [|split; [rewrite app_length, firstn_length; lia|discriminate]].
      rewrite E. unfold part. rewrite <- !app_assoc. f_equal. rewrite (app_assoc (firstn l _)), firstn_skipn, app_assoc, firstn_skipn. reflexivity.
  - unfold addConst in E. destruct (addAll_eq c p) as [A1 A2]. destruct (size _ <? 2 ^ 32) eqn:L; [|discriminate]. injection E as <-. apply Z.ltb_lt in L. split; [exact L|]. cbn [fst snd].
    split; [left; reflexivity|]. unfold size, setref in *. cbn [items] in *. rewrite zero_items in *. rewrite A1 in *. rewrite <- app_assoc in *. constructor.
    + rewrite size_app. replace (Z.of_nat (length (items p)) + Z.of_nat (length (chars c)) - Z.of_nat (length (items p))) with (Z.of_nat (length (chars c))) by lia.
      apply good_new; [exact L|]. intros ->. eauto.
    + apply more. exact F.
  - pose proof (session_ok z ws p b) as S. destruct (session z (size p) ws p b) as [p' b']. cbn [fst] in S. destruct (size p' <? 2 ^ 32) eqn:L; [|discriminate]. injection E as <-.
    apply S; [|lia]. split; [exact B|]. split; [exact R|exact F].
  - destruct (m <? 0) eqn:M; [discriminate|]. destruct (size _ <? 2 ^ 32) eqn:L; [|discriminate]. injection E as <-. apply Z.ltb_lt in L. split; [exact L|]. cbn [fst snd].
    assert (FF : Forall (good z (items p)) (filter (older z m) b)).
    { apply Forall_forall. intros e I. apply filter_In in I. rewrite Forall_forall in F. apply F. apply I. }
    unfold release. destruct (m <? size p) eqn:MS; [|split; [exact R|exact FF]]. split; [left; reflexivity|]. cbn [setref items].
    apply Forall_forall. intros e I. rewrite Forall_forall in FF. specialize (FF e I). apply filter_In in I. destruct I as [_ I]. destruct e as [[r s] f]. cbn in FF, I. apply Z.leb_le in I.
    destruct FF as (LE & a & q & E & O & Z0). cbn. split; [exact LE|]. rewrite E. exists a, (firstn (Z.to_nat m - length a - length s) q). split; [|split; [exact O|]].
    + rewrite firstn_app. rewrite firstn_all2 by (destruct (z && f)%bool; lia). f_equal. rewrite firstn_app. rewrite firstn_all2 by (destruct (z && f)%bool; lia). reflexivity.
    + intros Z1 F1 S1. destruct (Z0 Z1 F1 S1) as (q' & ->). rewrite Z1, F1 in I. cbn in I.
      replace (Z.to_nat m - length a - length s)%nat with (S (Z.to_nat m - length a - length s - 1)) by lia. cbn. eauto.
  - destruct (size _ <? 2 ^ 32) eqn:L; [|discriminate]. injection E as <-. apply Z.ltb_lt in L. split; [exact L|]. cbn [fst snd]. split; [left; reflexivity|]. cbn. rewrite app_nil_r. exact F.
  - destruct (size _ <? 2 ^ 32) eqn:L; [|discriminate]. injection E as <-. split; [cbn; lia|]. cbn [fst snd]. split; [left; reflexivity|]. constructor.
Qed.
Lemma run_ok z l : forall s s', Inv z s -> run z l s = Some s' -> Inv z s'.
Proof.
  induction l as [|o l IH]; cbn; intros s s' V E; [injection E as <-; exact V|]. destruct (exec z o s) as [s1|] eqn:X; [|discriminate].
  apply (IH s1); auto. apply (exec_ok z o s); auto.
Qed.
Lemma init_ok z : Inv z (empty_pool, []).
Proof. split; [reflexivity|]. split; [right; reflexivity|constructor]. Qed.

Lemma good_read z p r s f : ref p = Some (blk p) \/ items p = [] -> good z (items p) (r, s, f) -> read r p = Ok s.
Proof.
  intros R (L & a & b & E & O & _). unfold read. destruct (len r =? 0) eqn:Z0.
  - destruct s; [reflexivity|cbn in L; lia].
  - assert (R' : ref p = Some (blk p)).
    { destruct R as [R|R]; [exact R|]. rewrite R in E. symmetry in E. apply app_eq_nil in E. destruct E as [_ E]. apply app_eq_nil in E. destruct E as [-> _]. cbn in L. lia. }
    unfold data. rewrite R'. cbn [obind]. rewrite Nat.eqb_refl. unfold size. rewrite E, O, L, !app_length.
    destruct (Z.of_nat (length a) + Z.of_nat (length s) <=? Z.of_nat (length a + (length s + length b))) eqn:Q; [|lia]. cbn [andb]. f_equal.
    rewrite !Nat2Z.id. rewrite skipn_app, skipn_all, Nat.sub_diag. cbn [skipn app]. rewrite firstn_app, firstn_all, Nat.sub_diag. cbn. apply app_nil_r.
Qed.
