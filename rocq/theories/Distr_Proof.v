(** Proofs for the distributor: the model refines the queue of Distr_Spec.v if one stage is used. *)
From Verif Require Import Common Distr_Spec Distr_Model.

Lemma cut_drop : forall i (l : list entry), cut i l = drop_entry i l.
Proof. induction l as [|e t IH]; cbn; [reflexivity|]. destruct (i =? fst e); [reflexivity|now rewrite IH]. Qed.
Lemma find_same : forall p (l : list entry), findIfc p l = find_listener p l.
Proof. induction l as [|e t IH]; cbn; [reflexivity|]. rewrite (Nat.eqb_sym p). destruct (snd e =? p); auto. Qed.
Lemma count_same : forall p (l : list entry), countIfc p l = number p l.
Proof. unfold number. induction l as [|e t IH]; cbn; [reflexivity|]. rewrite (Nat.eqb_sym p). destruct (snd e =? p); cbn; now rewrite IH. Qed.
Lemma last_id_snoc : forall A (l : list (nat * A)) e, last_id (l ++ [e]) = Some (fst e).
Proof. intros. unfold last_id. now rewrite rev_app_distr. Qed.
Lemma last_id_cons : forall A (a b : nat * A) l, last_id (a :: b :: l) = last_id (b :: l).
Proof. intros. unfold last_id. cbn. destruct (rev l); reflexivity. Qed.
Lemma last_id_some : forall A (l : list (nat * A)), l <> [] -> exists i, last_id l = Some i.
Proof. intros A l H. destruct l as [|e t] using rev_ind; [easy|]. exists (fst e). apply last_id_snoc. Qed.
Lemma ll_next_app : forall A (pre : list (nat * A)) e r, NoDup (map fst (pre ++ e :: r)) -> ll_next (fst e) (pre ++ e :: r) = Ok (snd e, first_id r).
Proof.
  induction pre as [|a pre IH]; intros e r ND; cbn.
  - now rewrite Nat.eqb_refl.
  - inversion ND as [|? ? NI ND']; subst. destruct (Nat.eqb_spec (fst e) (fst a)) as [E|E].
    + exfalso. apply NI. rewrite <- E. rewrite map_app. apply in_app_iff. right. now left.
    + now apply IH.
Qed.
Lemma drop_notin : forall i (l : list entry), ~ In i (map fst l) -> drop_entry i l = l.
Proof. induction l as [|e t IH]; cbn; intros H; [reflexivity|]. destruct (Nat.eqb_spec i (fst e)); [subst; tauto|]. rewrite IH; tauto. Qed.
Lemma drop_app_l : forall i (a b : list entry), In i (map fst a) -> drop_entry i (a ++ b) = drop_entry i a ++ b.
Proof. induction a as [|e t IH]; cbn; intros b H; [easy|]. destruct (Nat.eqb_spec i (fst e)); [reflexivity|]. cbn. rewrite IH; [reflexivity|]. destruct H; [congruence|auto]. Qed.
Lemma drop_app_r : forall i (a b : list entry), ~ In i (map fst a) -> drop_entry i (a ++ b) = a ++ drop_entry i b.
Proof. induction a as [|e t IH]; cbn; intros b H; [reflexivity|]. destruct (Nat.eqb_spec i (fst e)); [subst; tauto|]. rewrite IH; tauto. Qed.
Lemma drop_in : forall i j (l : list entry), In j (map fst (drop_entry i l)) -> In j (map fst l).
Proof. induction l as [|e t IH]; cbn; [auto|]. destruct (i =? fst e); cbn; tauto. Qed.
Lemma drop_nodup : forall i (l : list entry), NoDup (map fst l) -> NoDup (map fst (drop_entry i l)).
Proof.
  induction l as [|e t IH]; cbn; intros H; [auto|]. inversion H; subst. destruct (i =? fst e); [auto|]. cbn. constructor; [|auto].
  intros Q. apply drop_in in Q. auto.
Qed.
Lemma find_in : forall p l i, find_listener p l = Some i -> In (i, p) l.
Proof.
  induction l as [|[j q] t IH]; cbn; intros i H; [easy|]. destruct (Nat.eqb_spec p q); [injection H as <-; subst; auto|auto].
Qed.

(** an item of the list of stages stands for a message and the rest of listeners *)
Definition rep (L : list entry) (p : nat * list entry) (x : nat * stage) : Prop :=
  msg (snd x) = fst p /\ num (snd x) = 0 /\ pos (snd x) = first_id (snd p) /\ exists pre, L = pre ++ snd p.
Record SR (L : list entry) (q : list (nat * list entry)) (g : LL stage) (sf : nat) : Prop := {
  sr_rep : Forall2 (rep L) q (items g);
  sr_nd : NoDup (map fst (items g));
  sr_lt : Forall (fun x => fst x < sf) (items g);
  sr_last : lastp g = last_id (items g) }.
Definition fok (f : frame) : Prop := match f with FSel 0 _ => True | _ => False end.
Record R (s : sst) (m : st) : Prop := {
  r_items : items (listeners m) = lst s;
  r_nd : NoDup (map fst (lst s));
  r_lt : Forall (fun x => fst x < next s) (lst s);
  r_fresh : fresh m = next s;
  r_last : lastok s = true -> lastp (listeners m) = last_id (lst s);
  r_none : lst s = [] -> lastok s = true;
  r_st : SR (lst s) (queue s) (stages m) (sfresh m);
  r_depth : length (frames m) = depth s;
  r_fok : Forall fok (frames m) }.

Lemma SR_empty : forall L sf, SR L [] ll_empty sf.
Proof. intros. constructor; cbn; auto; constructor. Qed.
Lemma R_init : R sinit init.
Proof. constructor; cbn; auto; try constructor; cbn; auto; constructor. Qed.

Lemma SR_nil : forall L g sf, SR L [] g sf -> g = ll_empty.
Proof. intros L [its lp] sf H. destruct H as [H1 H2 H3 H4]. cbn in *. destruct its; [|inversion H1]. rewrite H4. reflexivity. Qed.
Lemma SR_tail : forall L p q x t lp sf, SR L (p :: q) (mkL (x :: t) lp) sf -> SR L q (ll_erase (fst x) (mkL (x :: t) lp)) sf.
Proof.
  intros L p q x t lp sf [H1 H2 H3 H4]. cbn in *. inversion H1; subst. inversion H2; subst. inversion H3; subst.
  unfold ll_erase; cbn [items lastp]. rewrite Nat.eqb_refl. constructor; cbn [items lastp]; auto.
  destruct t as [|y t]; [reflexivity|apply last_id_cons].
Qed.
Lemma put_head : forall i g h t, put_stage i g ((i, h) :: t) = (i, g) :: t.
Proof. intros. cbn. now rewrite Nat.eqb_refl. Qed.

Lemma finish_ok : forall q m fr L, items (listeners m) = L -> NoDup (map fst L) -> SR L q (stages m) (sfresh m) -> length (items (stages m)) <= fr ->
  exists m', finishLoop fr 0 m = Ok (match fst (advance q) with Some (e, k) => Some (snd e, k) | None => None end, m')
    /\ listeners m' = listeners m /\ frames m' = frames m /\ fresh m' = fresh m /\ sfresh m' = sfresh m /\ SR L (snd (advance q)) (stages m') (sfresh m').
Proof.
  induction q as [|[k rem] q IH]; intros m fr L HL ND S LE.
  - pose proof (SR_nil _ _ _ S) as E. exists m. assert (F : finishLoop fr 0 m = Ok (None, m)) by (destruct fr; cbn; rewrite E; reflexivity). rewrite F. cbn. auto 8.
  - destruct m as [l [its lp] fs fh sf]; cbn [listeners stages frames fresh sfresh items] in *.
    pose proof (sr_rep _ _ _ _ S) as F2. cbn [items] in F2. inversion F2 as [|? [i g] ? t [Q1 [Q2 [Q3 [pre Q4]]]] F2']; subst. cbn [fst snd] in *.
    destruct rem as [|e r].
    + cbn [advance]. destruct fr as [|fr]; [cbn in LE; lia|].
      pose proof (SR_tail _ _ _ _ _ _ _ S) as S'. cbn [fst] in S'.
      assert (X : finishLoop (Datatypes.S fr) 0 (mkS l (mkL ((i, g) :: t) lp) fs fh sf) = finishLoop fr 0 (mkS l (ll_erase i (mkL ((i, g) :: t) lp)) fs fh sf)).
      { cbn [finishLoop stages items findStage snd]. rewrite Q2. cbn [Nat.eqb]. rewrite Q3. cbn [first_id]. reflexivity. }
      rewrite X. destruct (IH (mkS l (ll_erase i (mkL ((i, g) :: t) lp)) fs fh sf) fr (items l)) as [m' IHm]; cbn [listeners stages frames fresh sfresh]; auto.
      * unfold ll_erase; cbn [items fst]. rewrite Nat.eqb_refl. cbn [items]. cbn in LE. lia.
      * exists m'. auto.
    + cbn [advance fst snd].
      assert (X : finishLoop fr 0 (mkS l (mkL ((i, g) :: t) lp) fs fh sf) = Ok (Some (snd e, msg g), mkS l (mkL ((i, mkG (msg g) (num g) (first_id r) (sender g)) :: t) lp) fs fh sf)).
      { assert (N : ll_next (fst e) (items l) = Ok (snd e, first_id r)) by (rewrite Q4 in ND |- *; exact (ll_next_app _ pre e r ND)).
        destruct fr; cbn [finishLoop stages items findStage snd listeners lastp frames fresh sfresh]; rewrite Q2; cbn [Nat.eqb]; rewrite Q3; cbn [first_id]; rewrite N; cbn [obind]; rewrite put_head, ?Q2; reflexivity. }
      rewrite X, Q1. eexists. split; [reflexivity|]. cbn [listeners stages frames fresh sfresh].
      split; [reflexivity|]. split; [reflexivity|]. split; [reflexivity|]. split; [reflexivity|].
      destruct S as [S1 S2 S3 S4]. cbn [items lastp] in *. constructor; cbn [items lastp].
      * constructor; [|auto]. split; [|split; [|split]]; cbn; auto. exists (pre ++ [e]). rewrite <- app_assoc. exact Q4.
      * exact S2.
      * inversion S3; constructor; auto.
      * rewrite S4. destruct t as [|y t]; [reflexivity|]. now rewrite !last_id_cons.
Qed.
Lemma goOn_ok : forall s m q d0 d1 it rest, items (listeners m) = lst s -> NoDup (map fst (lst s)) -> Forall (fun x => fst x < next s) (lst s) ->
  fresh m = next s -> (lastok s = true -> lastp (listeners m) = last_id (lst s)) -> (lst s = [] -> lastok s = true) -> SR (lst s) q (stages m) (sfresh m) ->
  length rest = d0 -> d1 = S d0 -> Forall fok rest ->
  exists m', goOn (FSel 0 it) rest m = Ok (fst (go s q d0 d1), m') /\ R (snd (go s q d0 d1)) m'.
Proof.
  intros s m q d0 d1 it rest H1 H2 H3 H4 H5 H6 H7 H8 H9 H10.
  destruct (finish_ok q m (length (items (stages m))) (lst s) H1 H2 H7 (le_n _)) as [m' [E [A1 [A2 [A3 [A4 A5]]]]]].
  unfold goOn. rewrite E. cbn [obind]. unfold go. destruct (advance q) as [[[e k]|] q'] eqn:AD; cbn [fst snd] in *.
  - eexists. split; [reflexivity|]. constructor; cbn; rewrite ?A1; try congruence; auto. constructor; cbn; auto.
  - assert (q' = []) as ->. { clear - AD. revert q' AD. induction q as [|[k [|e r]] q IH]; cbn; intros q' AD; [congruence|auto|discriminate]. }
    pose proof (SR_nil _ _ _ A5) as E0. rewrite E0 in *. cbn [items ll_empty].
    assert (X : match it with Some i => existsb (fun e : nat * stage => i =? fst e) [] | None => false end = false) by (destruct it; reflexivity).
    rewrite X. eexists. split; [reflexivity|]. constructor; cbn; rewrite ?A1; try congruence; auto.
Qed.
Lemma stop_ok : forall L q g sf, SR L q g sf -> stop_ 0 g = ll_empty.
Proof.
  intros L q [its lp] sf S. unfold stop_. cbn [items]. revert q lp S. induction its as [|[i x] t IH]; intros q lp S.
  - cbn. destruct S as [S1 S2 S3 S4]. cbn in S4. subst. reflexivity.
  - pose proof (sr_rep _ _ _ _ S) as F2. cbn [items] in F2. inversion F2 as [|p ? q' ? [Q1 [Q2 Q3]] F2']; subst. cbn [snd] in Q2.
    cbn [stopIds snd]. rewrite Q2. cbn [Nat.eqb fst fold_left]. pose proof (SR_tail _ _ _ _ _ _ _ S) as S'. cbn [fst] in S'.
    unfold ll_erase in S' |- *. cbn [items lastp fst] in S' |- *. rewrite Nat.eqb_refl in S' |- *. eapply IH. exact S'.
Qed.
Lemma first_drop : forall i rem, first_id rem <> Some i -> first_id (drop_entry i rem) = first_id rem.
Proof. intros i [|e r] H; cbn in *; [reflexivity|]. destruct (Nat.eqb_spec i (fst e)); [congruence|reflexivity]. Qed.
Lemma nodup_apart : forall (a b : list nat) i, NoDup (a ++ b) -> In i a -> ~ In i b.
Proof.
  induction a as [|x a IH]; intros b i ND I; [easy|]. cbn in ND. inversion ND as [|y z NI ND' E]. destruct I as [I|I]; [|exact (IH _ _ ND' I)].
  intros Q. apply NI. rewrite I. apply in_app_iff. now right.
Qed.
Lemma rep_drop : forall L i nx p x pq, NoDup (map fst L) -> ll_next i L = Ok (pq, nx) -> rep L p x ->
  rep (drop_entry i L) (fst p, drop_entry i (snd p)) (fst x, match pos (snd x) with Some y => if y =? i then mkG (msg (snd x)) (num (snd x)) nx (sender (snd x)) else snd x | None => snd x end).
Proof.
  intros L i nx [k rem] [j g] pq ND N [Q1 [Q2 [Q3 [pre Q4]]]]. cbn [fst snd] in *. unfold rep; cbn [fst snd].
  assert (SUF : exists pre', drop_entry i L = pre' ++ drop_entry i rem).
  { subst L. destruct (in_dec Nat.eq_dec i (map fst pre)) as [I|I].
    - rewrite drop_app_l by auto. rewrite (drop_notin i rem); [eauto|]. rewrite map_app in ND. exact (nodup_apart _ _ _ ND I).
    - rewrite drop_app_r by auto. eauto. }
  destruct (pos g) as [y|] eqn:P.
  - destruct (Nat.eqb_spec y i) as [->|NE]; cbn [msg num pos].
    + destruct rem as [|e r]; [discriminate|]. cbn in Q3. injection Q3 as ->. split; [auto|]. split; [auto|]. split; [|exact SUF].
      cbn [drop_entry]. rewrite Nat.eqb_refl. subst L. pose proof (eq_trans (eq_sym N) (ll_next_app _ pre e r ND)) as N'. injection N' as _ N'. exact N'.
    + split; [auto|]. split; [auto|]. split; [|exact SUF]. rewrite first_drop; congruence.
  - split; [auto|]. split; [auto|]. split; [|exact SUF]. rewrite first_drop; congruence.
Qed.
Lemma skipAt_ids : forall i nx l, map fst (skipAt i nx l) = map fst l.
Proof. induction l as [|[j g] t IH]; cbn; [auto|]. now rewrite IH. Qed.
Lemma last_id_map : forall A B (a : list (nat * A)) (b : list (nat * B)), map fst a = map fst b -> last_id a = last_id b.
Proof.
  intros A B a b H. unfold last_id. apply (f_equal (@rev nat)) in H. rewrite <- !map_rev in H. destruct (rev a), (rev b); cbn in *; congruence.
Qed.
Lemma SR_ids : forall L L' q q' its its' lp sf, SR L q (mkL its lp) sf -> map fst its' = map fst its -> Forall2 (rep L') q' its' -> SR L' q' (mkL its' lp) sf.
Proof.
  intros L L' q q' its its' lp sf [S1 S2 S3 S4] E F. cbn in *. constructor; cbn; auto.
  - now rewrite E.
  - apply Forall_forall. intros x I. rewrite Forall_forall in S3. apply (in_map fst) in I. rewrite E in I. apply in_map_iff in I. destruct I as [y [Y1 Y2]].
    rewrite <- Y1. auto.
  - rewrite S4. apply last_id_map. auto.
Qed.
Lemma SR_drop : forall L q g sf i nx pq, NoDup (map fst L) -> ll_next i L = Ok (pq, nx) -> SR L q g sf ->
  SR (drop_entry i L) (map (fun p => (fst p, drop_entry i (snd p))) q) (mkL (skipAt i nx (items g)) (lastp g)) sf.
Proof.
  intros L q [its lp] sf i nx pq ND N S. cbn [items lastp]. apply (SR_ids _ _ _ _ _ _ _ _ S (skipAt_ids _ _ _)).
  pose proof (sr_rep _ _ _ _ S) as F. cbn in F. clear S. induction F as [|p [j g] q' its' H F IH]; cbn; constructor; auto.
  apply (rep_drop _ _ _ _ _ _ ND N H).
Qed.
Lemma Forall2_map_l : forall A B C (P : A -> B -> Prop) (Q : C -> B -> Prop) (f : A -> C) l k, Forall2 P l k -> (forall a b, P a b -> Q (f a) b) -> Forall2 Q (map f l) k.
Proof. intros. induction H; cbn; constructor; auto. Qed.
Lemma Forall2_mono : forall A B (P Q : A -> B -> Prop) l k, Forall2 P l k -> (forall a b, P a b -> Q a b) -> Forall2 Q l k.
Proof. intros. induction H; constructor; auto. Qed.
Lemma SR_add : forall L q g sf e, SR L q g sf -> SR (L ++ [e]) (map (join e) q) g sf.
Proof.
  intros L q [its lp] sf e S. apply (SR_ids _ _ _ _ _ _ _ _ S eq_refl). pose proof (sr_rep _ _ _ _ S) as F. cbn in F.
  apply (Forall2_map_l _ _ _ _ _ _ _ _ F). intros [k rem] [j x] [Q1 [Q2 [Q3 [pre Q4]]]]. unfold rep, join; cbn [fst snd] in *.
  split; [auto|]. split; [auto|]. destruct rem as [|a r].
  - split; [auto|]. exists (L ++ [e]). now rewrite app_nil_r.
  - split; [auto|]. exists pre. subst L. now rewrite <- app_assoc.
Qed.
Lemma SR_front : forall L q g sf e, SR L q g sf -> SR (e :: L) q g sf.
Proof.
  intros L q [its lp] sf e S. apply (SR_ids _ _ _ _ _ _ _ _ S eq_refl). pose proof (sr_rep _ _ _ _ S) as F. cbn in F.
  apply (Forall2_mono _ _ _ _ _ _ F). intros [k rem] [j x] [Q1 [Q2 [Q3 [pre Q4]]]]. unfold rep; cbn [fst snd] in *.
  split; [auto|]. split; [auto|]. split; [auto|]. exists (e :: pre). subst L. reflexivity.
Qed.
Lemma in_snoc_nodup : forall (l : list nat) a, NoDup l -> ~ In a l -> NoDup (l ++ [a]).
Proof. induction l as [|b t IH]; intros a H1 H2; cbn; [constructor; auto|]. inversion H1; subst. constructor; [|apply IH; cbn in *; tauto]. rewrite in_app_iff. cbn in *. intuition. Qed.
Lemma lt_notin : forall A (l : list (nat * A)) n, Forall (fun x => fst x < n) l -> ~ In n (map fst l).
Proof. intros A l n H I. apply in_map_iff in I. destruct I as [x [E I]]. rewrite Forall_forall in H. specialize (H x I). lia. Qed.
Lemma SR_send : forall L q g sf m sdr, SR L q g sf -> exists g', ll_add sf (mkG m 0 (first_id L) sdr) g = Ok g' /\ SR L (q ++ [(m, L)]) g' (S sf).
Proof.
  intros L q [its lp] sf m sdr [S1 S2 S3 S4]. cbn in *. unfold ll_add. cbn [lastp items].
  assert (E : exists g', (match lp with None => Ok (mkL [(sf, mkG m 0 (first_id L) sdr)] (Some sf)) | Some q => match last_id its with Some r => if q =? r then Ok (mkL (its ++ [(sf, mkG m 0 (first_id L) sdr)]) (Some sf)) else Undef | None => Undef end end) = Ok g' /\ g' = mkL (its ++ [(sf, mkG m 0 (first_id L) sdr)]) (Some sf)).
  { destruct its as [|a t].
    - cbn in S4. subst lp. eexists. split; reflexivity.
    - destruct (last_id_some _ (a :: t)) as [i Ei]; [easy|]. rewrite Ei in *. subst lp. rewrite Nat.eqb_refl. eexists. split; reflexivity. }
  destruct E as [g' [E ->]]. eexists. split; [exact E|]. constructor; cbn [items lastp].
  - apply Forall2_app; [exact S1|]. constructor; [|constructor]. split; [|split; [|split]]; cbn; auto. now exists [].
  - rewrite map_app. cbn. apply in_snoc_nodup; auto. now apply lt_notin.
  - apply Forall_app. split; [|constructor; [cbn; lia|constructor]]. eapply Forall_impl; [|exact S3]. cbn. intros. lia.
  - now rewrite last_id_snoc.
Qed.
Lemma last_entry_id : forall l, last_entry l = last_id l. Proof. reflexivity. Qed.
Lemma last_drop : forall i l j, last_id l = Some j -> i <> j -> last_id (drop_entry i l) = Some j.
Proof.
  intros i l j H NE. destruct l as [|e t] using rev_ind; [discriminate|]. clear IHt. rewrite last_id_snoc in H. injection H as <-.
  destruct (in_dec Nat.eq_dec i (map fst t)) as [I|I].
  - rewrite drop_app_l by auto. apply last_id_snoc.
  - rewrite drop_app_r by auto. cbn. destruct (Nat.eqb_spec i (fst e)); [congruence|]. apply last_id_snoc.
Qed.

Theorem exec_ok : forall s m a o s', R s m -> sexec a s = Some (o, s') -> exists m', exec a m = Ok (o, m') /\ R s' m'.
Proof.
  intros s m a o s' HR E. pose proof HR as [H1 H2 H3 H4 H5 H6 H7 H8 H9]. destruct a as [p|p|p| |p| |sd k sl|sl|sl|k| | ]; cbn [sexec] in E.
  - destruct (lastok s) eqn:OK; [|discriminate]. injection E as <- <-. specialize (H5 eq_refl). cbn [exec].
    assert (X : ll_add (fresh m) p (listeners m) = Ok (mkL (items (listeners m) ++ [(fresh m, p)]) (Some (fresh m)))).
    { unfold ll_add. rewrite H5, H1. destruct (lst s) as [|a t] eqn:EL; [reflexivity|]. destruct (last_id_some _ (a :: t)) as [i Ei]; [easy|]. rewrite Ei, Nat.eqb_refl. reflexivity. }
    rewrite X. cbn [obind]. eexists. split; [reflexivity|]. constructor; cbn [lst queue depth next lastok listeners stages frames fresh sfresh items lastp].
    + now rewrite H1, H4.
    + rewrite map_app. cbn. apply in_snoc_nodup; auto. now apply lt_notin.
    + apply Forall_app. split; [|constructor; [cbn; lia|constructor]]. eapply Forall_impl; [|exact H3]. cbn; intros; lia.
    + now rewrite H4.
    + intros _. rewrite last_id_snoc. cbn. now rewrite H4.
    + auto.
    + now apply SR_add.
    + auto.
    + auto.
  - injection E as <- <-. cbn [exec]. eexists. split; [reflexivity|]. unfold ll_first. constructor; cbn [lst queue depth next lastok listeners stages frames fresh sfresh items lastp].
    + now rewrite H1, H4.
    + cbn. constructor; auto. now apply lt_notin.
    + constructor; [cbn; lia|]. eapply Forall_impl; [|exact H3]. cbn; intros; lia.
    + now rewrite H4.
    + intros OK. rewrite (H5 OK), H4. destruct (lst s) as [|b t]; [reflexivity|]. rewrite last_id_cons. destruct (last_id_some _ (b :: t)) as [i Ei]; [easy|]. now rewrite Ei.
    + discriminate.
    + now apply SR_front.
    + auto.
    + auto.
  - cbn [exec]. rewrite H1, find_same. destruct (find_listener p (lst s)) as [i|] eqn:F.
    2:{ injection E as <- <-. eauto. }
    injection E as <- <-. apply find_in in F. apply in_split in F. destruct F as [pre [post F]].
    assert (N : ll_next i (lst s) = Ok (p, first_id post)) by (rewrite F in H2 |- *; exact (ll_next_app _ pre (i, p) post H2)). rewrite N. cbn [obind].
    eexists. split; [reflexivity|]. 
    assert (EI : items (ll_erase i (listeners m)) = drop_entry i (lst s)).
    { unfold ll_erase. rewrite H1. destruct (lst s) as [|e t]; [cbn; auto|]. cbn [drop_entry]. destruct (i =? fst e) eqn:Q; [reflexivity|]. cbn [items]. rewrite cut_drop. cbn [drop_entry]. now rewrite Q. }
    constructor; cbn [lst queue depth next lastok listeners stages frames fresh sfresh].
    + exact EI.
    + now apply drop_nodup.
    + apply Forall_forall. intros x I. apply (in_map fst) in I. apply drop_in in I. apply in_map_iff in I. destruct I as [y [Y1 Y2]]. rewrite <- Y1. rewrite Forall_forall in H3. auto.
    + auto.
    + intros OK. destruct (drop_entry i (lst s)) as [|b t] eqn:D.
      * unfold ll_erase. rewrite H1. destruct (lst s) as [|e t]; [cbn in F; destruct pre; discriminate|]. cbn [drop_entry] in D. destruct (i =? fst e); [subst t; reflexivity|discriminate].
      * rewrite last_entry_id in OK. destruct (last_id_some _ (lst s)) as [j Ej]; [rewrite F; destruct pre; discriminate|]. rewrite Ej in OK.
        destruct (Nat.eqb_spec i j) as [Q|Q]; [discriminate|]. specialize (H5 OK). rewrite <- D. rewrite (last_drop i (lst s) j Ej Q). rewrite <- Ej, <- H5.
        unfold ll_erase. rewrite H1. destruct (lst s) as [|e t']; [discriminate|]. cbn [drop_entry] in D. destruct (i =? fst e); [subst t'; reflexivity|reflexivity].
    + intros D. rewrite D. reflexivity.
    + apply (SR_drop _ _ _ _ _ _ _ H2 N H7).
    + auto.
    + auto.
  - injection E as <- <-. cbn [exec]. eexists. split; [reflexivity|]. constructor; cbn; auto; try constructor; cbn; auto; constructor.
  - injection E as <- <-. cbn [exec]. rewrite H1, count_same. eauto.
  - injection E as <- <-. cbn [exec]. rewrite H1. eauto.
  - destruct sl; [|discriminate]. injection E as E. cbn [exec]. rewrite H1.
    destruct (SR_send _ _ _ _ k sd H7) as [g' [E1 E2]]. rewrite E1. cbn [obind].
    edestruct (goOn_ok s (mkS (listeners m) g' (frames m) (fresh m) (S (sfresh m))) (queue s ++ [(k, lst s)]) (depth s) (S (depth s)) (Some (sfresh m)) (frames m)) as [m' [G1 G2]]; cbn [listeners stages frames fresh sfresh]; auto.
    exists m'. rewrite E in G1, G2. auto.
  - destruct sl; [|discriminate]. injection E as E. cbn [exec].
    edestruct (goOn_ok s m (queue s) (depth s) (S (depth s)) None (frames m)) as [m' [G1 G2]]; auto. exists m'. rewrite E in G1, G2. auto.
  - destruct sl; [|discriminate]. injection E as <- <-. cbn [exec]. eexists. split; [reflexivity|]. rewrite (stop_ok _ _ _ _ H7).
    constructor; cbn [lst queue depth next lastok listeners stages frames fresh sfresh]; auto. apply SR_empty.
  - discriminate.
  - destruct (depth s) as [|d] eqn:D; [discriminate|]. injection E as E. cbn [exec]. destruct (frames m) as [|f r]; [discriminate|]. inversion H9 as [|? ? FK H9']; subst. cbn in H8.
    destruct f as [[|n] it|]; try easy. edestruct (goOn_ok s m (queue s) d (S d) it r) as [m' [G1 G2]]; auto. exists m'. rewrite E in G1, G2. auto.
  - destruct (depth s) as [|d] eqn:D; [discriminate|]. injection E as <- <-. cbn [exec]. destruct (frames m) as [|f r]; [discriminate|]. inversion H9 as [|? ? FK H9']; subst. cbn in H8.
    destruct f as [[|n] it|]; try easy. rewrite (stop_ok _ _ _ _ H7). cbn [items ll_empty].
    assert (X : match it with Some i => existsb (fun e : nat * stage => i =? fst e) [] | None => false end = false) by (destruct it; reflexivity).
    rewrite X. eexists. split; [reflexivity|]. constructor; cbn [lst queue depth next lastok listeners stages frames fresh sfresh]; auto. apply SR_empty.
Qed.
Lemma run_ok : forall l s m o s', R s m -> srun l s = Some (o, s') -> exists m', run l m = Ok (o, m') /\ R s' m'.
Proof.
  induction l as [|a t IH]; cbn; intros s m o s' HR E; [injection E as <- <-; eauto|].
  destruct (sexec a s) as [[x s1]|] eqn:E1; [|discriminate]. destruct (srun t s1) as [[xs s2]|] eqn:E2; [|discriminate]. injection E as <- <-.
  destruct (exec_ok _ _ _ _ _ HR E1) as [m1 [X1 R1]]. destruct (IH _ _ _ _ R1 E2) as [m2 [X2 R2]]. rewrite X1. cbn [obind]. rewrite X2. cbn [obind]. eauto.
Qed.

(** * Who gets what *)
Lemma srun_app : forall a b s, srun (a ++ b) s = match srun a s with Some (o, s1) => match srun b s1 with Some (o2, s2) => Some (o ++ o2, s2) | None => None end | None => None end.
Proof.
  induction a as [|x t IH]; intros b s; cbn; [destruct (srun b s) as [[? ?]|]; reflexivity|]. destruct (sexec x s) as [[o s1]|]; [|reflexivity]. rewrite IH.
  destruct (srun t s1) as [[o1 s2]|]; [|reflexivity]. destruct (srun b s2) as [[o2 s3]|]; reflexivity.
Qed.
Lemma run_app : forall a b s, run (a ++ b) s = let! (o, s1) := run a s in let! (o2, s2) := run b s1 in Ok (o ++ o2, s2).
Proof.
  induction a as [|x t IH]; intros b s; cbn; [destruct (run b s) as [[? ?]| | |]; reflexivity|]. destruct (exec x s) as [[o s1]| | |]; cbn; try reflexivity. rewrite IH.
  destruct (run t s1) as [[o1 s2]| | |]; cbn; try reflexivity. destruct (run b s2) as [[o2 s3]| | |]; reflexivity.
Qed.
Lemma got_app : forall p a b, got p (a ++ b) = got p a ++ got p b.
Proof. intros p a c. induction a as [|x t IH]; [reflexivity|]. destruct x; cbn; rewrite ?IH; auto. destruct (p =? p0); cbn; now rewrite ?IH. Qed.
Definition pend (p : nat) (q : list (nat * list entry)) : list nat := flat_map (fun x => repeat (fst x) (number p (snd x))) q.
Lemma number_cons : forall p e l, number p (e :: l) = (if p =? snd e then 1 else 0) + number p l.
Proof. intros. unfold number. cbn. destruct (p =? snd e); reflexivity. Qed.
Lemma number_app : forall p a b, number p (a ++ b) = number p a + number p b.
Proof. intros. unfold number. now rewrite filter_app, app_length. Qed.
Lemma advance_pend : forall p q, pend p q = (match fst (advance q) with Some (e, m) => if p =? snd e then [m] else [] | None => [] end) ++ pend p (snd (advance q)).
Proof.
  induction q as [|[k [|e r]] q IH]; [reflexivity|exact IH|]. cbn [advance fst snd]. unfold pend. cbn [flat_map fst snd]. rewrite number_cons. destruct (p =? snd e); reflexivity.
Qed.
Lemma advance_none : forall q, fst (advance q) = None -> snd (advance q) = [].
Proof. induction q as [|[k [|e r]] q IH]; cbn; auto; discriminate. Qed.
Lemma go_pend : forall p s q d0 d1, pend p q = got p [fst (go s q d0 d1)] ++ pend p (queue (snd (go s q d0 d1))).
Proof.
  intros. rewrite (advance_pend p q). unfold go. destruct (advance q) as [[[e m]|] q'] eqn:E; cbn [fst snd queue got]; [|reflexivity]. destruct (p =? snd e); reflexivity.
Qed.
Lemma go_lst : forall s q d0 d1, lst (snd (go s q d0 d1)) = lst s.
Proof. intros. unfold go. destruct (advance q) as [[[e m]|] q']; reflexivity. Qed.
Lemma go_depth : forall s q d, depth (snd (go s q d (S d))) = 0 -> queue (snd (go s q d (S d))) = [].
Proof. intros s q d H. unfold go in *. pose proof (advance_none q) as N. destruct (advance q) as [[[e m]|] q']; cbn in *; [discriminate|auto]. Qed.

Definition idle (s : sst) : Prop := depth s = 0 -> queue s = [].
Lemma quiet_step : forall a s o s', quiet a = true -> sexec a s = Some (o, s') -> idle s ->
  lst s' = lst s /\ idle s' /\ forall p, got p [o] ++ pend p (queue s') = pend p (queue s) ++ flat_map (fun m => repeat m (number p (lst s))) (sent [a]).
Proof.
  intros a s o s' Q E I. destruct a as [x|x|x| |x| |sd k sl|sl|sl|k| | ]; try discriminate; cbn [sexec] in E.
  - injection E as <- <-. split; [auto|]. split; [auto|]. intros; cbn. now rewrite app_nil_r.
  - injection E as <- <-. split; [auto|]. split; [auto|]. intros; cbn. now rewrite app_nil_r.
  - destruct sl; [|discriminate]. injection E as E. apply (f_equal fst) in E as E1. apply (f_equal snd) in E. cbn [fst snd] in *. subst o s'.
    split; [apply go_lst|]. split; [exact (go_depth _ _ _)|]. intros p. rewrite <- go_pend. unfold pend. rewrite flat_map_app. cbn. now rewrite !app_nil_r.
  - destruct sl; [|discriminate]. injection E as E. apply (f_equal fst) in E as E1. apply (f_equal snd) in E. cbn [fst snd] in *. subst o s'.
    split; [apply go_lst|]. split; [exact (go_depth _ _ _)|]. intros p. rewrite <- go_pend. cbn. now rewrite !app_nil_r.
  - destruct (depth s) as [|d]; [discriminate|]. injection E as E. apply (f_equal fst) in E as E1. apply (f_equal snd) in E. cbn [fst snd] in *. subst o s'.
    split; [apply go_lst|]. split; [exact (go_depth _ _ _)|]. intros p. rewrite <- go_pend. cbn. now rewrite !app_nil_r.
Qed.
Lemma sent_cons : forall a t, sent (a :: t) = sent [a] ++ sent t.
Proof. destruct a; reflexivity. Qed.
Lemma got_cons : forall p o t, got p (o :: t) = got p [o] ++ got p t.
Proof. intros. change (o :: t) with ([o] ++ t). apply got_app. Qed.
Lemma quiet_run : forall l s o s', forallb quiet l = true -> srun l s = Some (o, s') -> idle s ->
  lst s' = lst s /\ idle s' /\ forall p, got p o ++ pend p (queue s') = pend p (queue s) ++ flat_map (fun m => repeat m (number p (lst s))) (sent l).
Proof.
  induction l as [|a t IH]; cbn [forallb srun]; intros s o s' Q E I.
  - injection E as <- <-. split; [auto|]. split; [auto|]. intros; cbn. now rewrite app_nil_r.
  - apply andb_prop in Q. destruct Q as [Q1 Q2]. destruct (sexec a s) as [[x s1]|] eqn:E1; [|discriminate]. destruct (srun t s1) as [[xs s2]|] eqn:E2; [|discriminate].
    injection E as <- <-. destruct (quiet_step _ _ _ _ Q1 E1 I) as [A1 [A2 A3]]. destruct (IH _ _ _ Q2 E2 A2) as [B1 [B2 B3]].
    split; [congruence|]. split; [auto|]. intros p. rewrite got_cons, sent_cons, flat_map_app, <- app_assoc, B3, !app_assoc, A3, A1. reflexivity.
Qed.
Lemma quiet_back : forall l s m o m', forallb quiet l = true -> R s m -> run l m = Ok (o, m') -> exists s', srun l s = Some (o, s') /\ R s' m'.
Proof.
  induction l as [|a t IH]; cbn [forallb run]; intros s m o m' Q HR E.
  - injection E as <- <-. exists s. auto.
  - apply andb_prop in Q. destruct Q as [Q1 Q2]. destruct (exec a m) as [[x m1]| | |] eqn:E1; cbn [obind] in E; try discriminate.
    destruct (run t m1) as [[xs m2]| | |] eqn:E2; cbn [obind] in E; try discriminate. injection E as <- <-.
    assert (X : exists y s1, sexec a s = Some (y, s1)).
    { destruct a as [z|z|z| |z| |sd k sl|sl|sl|k| | ]; try discriminate; cbn [sexec]; eauto.
      - destruct sl; [|discriminate]. destruct (go s (queue s ++ [(k, lst s)]) (depth s) (S (depth s))); eauto.
      - destruct sl; [|discriminate]. destruct (go s (queue s) (depth s) (S (depth s))); eauto.
      - pose proof (r_depth _ _ HR) as D. cbn [exec] in E1. destruct (frames m); [discriminate|]. cbn in D. rewrite <- D. destruct (go s (queue s) (length l) (S (length l))); eauto. }
    destruct X as [y [s1 X]]. destruct (exec_ok _ _ _ _ _ HR X) as [m1' [Y1 R1]]. rewrite E1 in Y1. injection Y1 as -> ->.
    destruct (IH _ _ _ _ Q2 R1 E2) as [s2 [Z R2]]. exists s2. split; [|auto]. cbn [srun]. now rewrite X, Z.
Qed.
Lemma adds_run : forall ps s, lastok s = true -> queue s = [] -> exists s', srun (map Add ps) s = Some (repeat Nothing (length ps), s')
   /\ queue s' = [] /\ depth s' = depth s /\ (forall p, number p (lst s') = number p (lst s) + count_occ Nat.eq_dec ps p).
Proof.
  induction ps as [|x ps IH]; intros s OK Q; cbn [map srun sexec length repeat].
  - exists s. split; [reflexivity|]. split; [auto|]. split; [auto|]. intros; cbn; lia.
  - rewrite OK. destruct (IH (mkSS (lst s ++ [(next s, x)]) (map (join (next s, x)) (queue s)) (depth s) (S (next s)) true)) as [s' [A1 [A2 [A3 A4]]]]; [reflexivity|cbn; now rewrite Q|].
    rewrite A1. exists s'. split; [reflexivity|]. split; [auto|]. split; [auto|]. intros p. rewrite A4. cbn [lst]. rewrite number_app, number_cons. cbn [snd count_occ].
    destruct (Nat.eqb_spec p x), (Nat.eq_dec x p); cbn; try congruence; lia.
Qed.
Lemma got_nothing : forall p n, got p (repeat Nothing n) = [].
Proof. induction n; auto. Qed.
Lemma sent_adds : forall ps l, sent (map Add ps ++ l) = sent l.
Proof. induction ps; auto. Qed.

Lemma all_ok : forall ps l o m, forallb quiet l = true -> run (map Add ps ++ l) init = Ok (o, m) -> frames m = [] ->
  forall p, got p o = flat_map (fun k => repeat k (count_occ Nat.eq_dec ps p)) (sent l).
Proof.
  intros ps l o m Q E F p. destruct (adds_run ps sinit eq_refl eq_refl) as [s [A1 [A2 [A3 A4]]]].
  destruct (run_ok _ _ _ _ _ R_init A1) as [m1 [B1 B2]]. rewrite run_app, B1 in E. cbn [obind] in E. destruct (run l m1) as [[o2 m2]| | |] eqn:E2; cbn [obind] in E; try discriminate.
  injection E as <- <-. destruct (quiet_back _ _ _ _ _ Q B2 E2) as [s2 [C1 C2]].
  destruct (quiet_run _ _ _ _ Q C1) as [D1 [D2 D3]]; [intros _; exact A2|]. specialize (D3 p). rewrite A2 in D3. rewrite D2 in D3.
  2:{ rewrite <- (r_depth _ _ C2), F. reflexivity. }
  cbn in D3. rewrite app_nil_r in D3. rewrite got_app, got_nothing, D3. cbn. apply flat_map_ext. intros k. now rewrite A4.
Qed.

(** sends end *)
Definition todo (q : list (nat * list entry)) : nat := fold_right (fun x n => length (snd x) + n) 0 q.
Lemma advance_todo : forall q, match fst (advance q) with Some _ => todo q = S (todo (snd (advance q))) | None => todo q = 0 end.
Proof. induction q as [|[k [|e r]] q IH]; cbn; auto. Qed.
Lemma returns_run : forall n s, idle s -> todo (queue s) + depth s = n -> exists o s', srun (repeat Return n) s = Some (o, s') /\ depth s' = 0 /\ queue s' = [].
Proof.
  induction n as [|n IH]; intros s I E; cbn [repeat srun].
  - exists [], s. split; [auto|]. split; [lia|]. apply I. lia.
  - cbn [sexec]. destruct (depth s) as [|d] eqn:D; [rewrite (I D) in E; cbn in E; lia|].
    pose proof (go_depth s (queue s) d) as G. unfold go in *. pose proof (advance_todo (queue s)) as T. pose proof (advance_none (queue s)) as N.
    destruct (advance (queue s)) as [[[e m]|] q']; cbn [fst snd queue depth] in *.
    + destruct (IH (mkSS (lst s) q' (S d) (next s) (lastok s))) as [o [s' [A [B C]]]]; [exact G|cbn [queue depth]; try change (todo []) with 0; lia|]. rewrite A. eauto.
    + rewrite (N eq_refl) in *. destruct (IH (mkSS (lst s) [] d (next s) (lastok s))) as [o [s' [A [B C]]]]; [exact G|cbn [queue depth]; try change (todo []) with 0; lia|]. rewrite A. eauto.
Qed.
Lemma idle_step : forall a s o s', idle s -> sexec a s = Some (o, s') -> idle s'.
Proof.
  intros a s o s' I E. destruct a as [x|x|x| |x| |sd k sl|sl|sl|k| | ]; cbn [sexec] in E.
  - destruct (lastok s); [|discriminate]. injection E as <- <-. intros D. cbn in *. now rewrite (I D).
  - injection E as <- <-. exact I.
  - destruct (find_listener x (lst s)); injection E as <- <-; [|exact I]. intros D. cbn in *. now rewrite (I D).
  - injection E as <- <-. intros D. reflexivity.
  - injection E as <- <-. exact I.
  - injection E as <- <-. exact I.
  - destruct sl; [|discriminate]. injection E as E. apply (f_equal snd) in E. cbn [snd] in E. subst s'. exact (go_depth _ _ _).
  - destruct sl; [|discriminate]. injection E as E. apply (f_equal snd) in E. cbn [snd] in E. subst s'. exact (go_depth _ _ _).
  - destruct sl; [|discriminate]. injection E as <- <-. intros D. reflexivity.
  - discriminate.
  - destruct (depth s) as [|d]; [discriminate|]. injection E as E. apply (f_equal snd) in E. cbn [snd] in E. subst s'. exact (go_depth _ _ _).
  - destruct (depth s) as [|d]; [discriminate|]. injection E as <- <-. intros D. reflexivity.
Qed.
Lemma idle_run : forall l s o s', idle s -> srun l s = Some (o, s') -> idle s'.
Proof.
  induction l as [|a t IH]; cbn; intros s o s' I E; [injection E as <- <-; auto|]. destruct (sexec a s) as [[x s1]|] eqn:E1; [|discriminate]. destruct (srun t s1) as [[xs s2]|] eqn:E2; [|discriminate].
  injection E as <- <-. eapply IH; [|exact E2]. eapply idle_step; eauto.
Qed.

(** order with changes *)
Lemma sub_refl : forall A (l : list A), sub l l. Proof. induction l; constructor; auto. Qed.
Lemma sub_app : forall A (a b c d : list A), sub a c -> sub b d -> sub (a ++ b) (c ++ d).
Proof. intros A a b c d H. revert b d. induction H; intros b' d' K; cbn; [|constructor; auto|constructor; auto]. induction b as [|x b IH]; cbn; [auto|constructor; auto]. Qed.
Lemma sub_trans : forall A (a b c : list A), sub a b -> sub b c -> sub a c.
Proof.
  intros A a b c H1 H2. revert a H1. induction H2 as [c|x b c H2 IH|x b c H2 IH]; intros a H1.
  - inversion H1; constructor.
  - inversion H1; subst; [constructor|constructor; auto|constructor; auto].
  - constructor. auto.
Qed.
Lemma sub_app_r : forall A (a b c : list A), sub a b -> sub a (b ++ c).
Proof. intros. rewrite <- (app_nil_r a). apply sub_app; [auto|constructor]. Qed.
Lemma sub_repeat : forall A (x : A) n m, n <= m -> sub (repeat x n) (repeat x m).
Proof. intros A x n. induction n; intros m H; [constructor|]. destruct m; [lia|]. cbn. constructor. apply IHn. lia. Qed.
Lemma pend_drop : forall p i q, sub (pend p (map (fun x => (fst x, drop_entry i (snd x))) q)) (pend p q).
Proof.
  induction q as [|[k r] q IH]; [constructor|]. unfold pend in *. cbn [map flat_map fst snd]. apply sub_app; [|exact IH]. apply sub_repeat.
  clear. induction r as [|e r IH]; cbn [drop_entry]; [lia|]. destruct (i =? fst e); rewrite ?number_cons; destruct (p =? snd e); lia.
Qed.
Definition apart (p : nat) (s : sst) : Prop := number p (lst s) = 0 /\ Forall (fun x => number p (snd x) = 0) (queue s).
Lemma apart_pend : forall p s, apart p s -> pend p (queue s) = [].
Proof. intros p s [_ H]. unfold pend. induction H as [|x q H1 H2 IH]; [reflexivity|]. cbn. now rewrite H1, IH. Qed.
Lemma drop_number : forall p i l, number p l = 0 -> number p (drop_entry i l) = 0.
Proof. induction l as [|e l IH]; cbn [drop_entry]; intros H; [auto|]. rewrite number_cons in H. destruct (i =? fst e); [lia|]. rewrite number_cons, IH; lia. Qed.
Lemma advance_apart : forall p q, Forall (fun x => number p (snd x) = 0) q -> Forall (fun x => number p (snd x) = 0) (snd (advance q)).
Proof. intros p q H. induction H as [|[k [|e r]] q H1 H2 IH]; cbn [advance fst snd]; auto. constructor; auto. cbn [fst snd] in *. rewrite number_cons in H1. lia. Qed.
Lemma go_apart : forall p s q d0 d1, number p (lst s) = 0 -> Forall (fun x => number p (snd x) = 0) q -> apart p (snd (go s q d0 d1)).
Proof. intros. unfold go. pose proof (advance_apart p q H0) as A. destruct (advance q) as [[[e m]|] q']; cbn in *; split; auto. Qed.
Lemma apart_step : forall p a s o s', apart p s -> ~ In p (added [a]) -> sexec a s = Some (o, s') -> apart p s'.
Proof.
  intros p a s o s' [A1 A2] NI E. destruct a as [x|x|x| |x| |sd k sl|sl|sl|k| | ]; cbn [sexec added] in *.
  - destruct (lastok s); [|discriminate]. injection E as <- <-. cbn in NI. assert (N : p =? x = false) by (apply Nat.eqb_neq; intros ->; tauto).
    split; cbn [lst queue]; [rewrite number_app, number_cons; cbn; rewrite N, A1; reflexivity|].
    clear - A2 N. induction A2 as [|[k r] q H1 H2 IH]; constructor; auto. cbn [join fst snd] in *. destruct r as [|e r]; [auto|]. rewrite number_app, H1, number_cons. cbn [snd]. rewrite N. reflexivity.
  - injection E as <- <-. cbn in NI. assert (N : p =? x = false) by (apply Nat.eqb_neq; intros ->; tauto). split; cbn [lst queue]; [rewrite number_cons; cbn [snd]; rewrite N; auto|auto].
  - destruct (find_listener x (lst s)); injection E as <- <-; [|split; auto]. split; cbn [lst queue]; [now apply drop_number|].
    clear - A2. induction A2; constructor; auto. cbn. now apply drop_number.
  - injection E as <- <-. split; [reflexivity|constructor].
  - injection E as <- <-. split; auto.
  - injection E as <- <-. split; auto.
  - destruct sl; [|discriminate]. injection E as E. apply (f_equal snd) in E. cbn [snd] in E. subst s'. apply go_apart; [auto|]. apply Forall_app. split; [auto|]. constructor; auto.
  - destruct sl; [|discriminate]. injection E as E. apply (f_equal snd) in E. cbn [snd] in E. subst s'. apply go_apart; auto.
  - destruct sl; [|discriminate]. injection E as <- <-. split; [auto|constructor].
  - discriminate.
  - destruct (depth s) as [|d]; [discriminate|]. injection E as E. apply (f_equal snd) in E. cbn [snd] in E. subst s'. apply go_apart; auto.
  - destruct (depth s) as [|d]; [discriminate|]. injection E as <- <-. split; [auto|constructor].
Qed.
(** every message of the queue was sent; what a listener will get follows what it got *)
Definition msgs (s : sst) : list nat := map fst (queue s).
Lemma advance_msgs : forall q, sub (map fst (snd (advance q))) (map fst q).
Proof. induction q as [|[k [|e r]] q IH]; cbn; [constructor|constructor; auto|apply sub_refl]. Qed.
Lemma go_msgs : forall s q d0 d1, sub (msgs (snd (go s q d0 d1))) (map fst q).
Proof. intros. unfold go. pose proof (advance_msgs q) as A. destruct (advance q) as [[[e m]|] q']; exact A. Qed.
Lemma msgs_step : forall a s o s', sexec a s = Some (o, s') -> sub (msgs s') (msgs s ++ sent [a]).
Proof.
  intros a s o s' E. destruct a as [x|x|x| |x| |sd k sl|sl|sl|k| | ]; cbn [sexec sent] in *; rewrite ?app_nil_r.
  - destruct (lastok s); [|discriminate]. injection E as <- <-. unfold msgs. cbn [queue]. rewrite map_map. cbn. apply sub_refl.
  - injection E as <- <-. apply sub_refl.
  - destruct (find_listener x (lst s)); injection E as <- <-; [|apply sub_refl]. unfold msgs. cbn [queue]. rewrite map_map. cbn. apply sub_refl.
  - injection E as <- <-. constructor.
  - injection E as <- <-. apply sub_refl.
  - injection E as <- <-. apply sub_refl.
  - destruct sl; [|discriminate]. injection E as E. apply (f_equal snd) in E. cbn [snd] in E. subst s'. eapply sub_trans; [apply go_msgs|]. rewrite map_app. apply sub_refl.
  - destruct sl; [|discriminate]. injection E as E. apply (f_equal snd) in E. cbn [snd] in E. subst s'. apply go_msgs.
  - destruct sl; [|discriminate]. injection E as <- <-. constructor.
  - discriminate.
  - destruct (depth s) as [|d]; [discriminate|]. injection E as E. apply (f_equal snd) in E. cbn [snd] in E. subst s'. apply go_msgs.
  - destruct (depth s) as [|d]; [discriminate|]. injection E as <- <-. constructor.
Qed.
Lemma pend_sub : forall p q, (forall x, In x q -> number p (snd x) <= 1) -> sub (pend p q) (map fst q).
Proof.
  induction q as [|[k r] q IH]; intros H; [constructor|]. unfold pend in *. cbn [flat_map fst snd map]. pose proof (H (k, r) (or_introl eq_refl)) as L. cbn [snd] in L.
  assert (IH' : sub (flat_map (fun x : nat * list entry => repeat (fst x) (number p (snd x))) q) (map fst q)) by (apply IH; intros; apply H; now right).
  destruct (number p r) as [|[|n]]; cbn [repeat app]; [constructor; auto|constructor; auto|lia].
Qed.
(** a step of a listener that is not being added *)
Lemma step_pend : forall p a s o s', number p (lst s) <= 1 -> ~ In p (added [a]) -> sexec a s = Some (o, s') -> number p (lst s') <= 1 /\ sub (got p [o] ++ pend p (queue s')) (pend p (queue s) ++ sent [a]).
Proof.
  intros p a s o s' N1 NI E. destruct a as [x|x|x| |x| |sd k sl|sl|sl|k| | ]; cbn [sexec added sent] in *; rewrite ?app_nil_r.
  - destruct (lastok s); [|discriminate]. injection E as <- <-. cbn in NI. assert (N : p =? x = false) by (apply Nat.eqb_neq; intros ->; tauto). cbn [lst queue got app].
    split; [rewrite number_app, number_cons; cbn [snd]; rewrite N; change (number p []) with 0; lia|]. replace (pend p (map (join (next s, x)) (queue s))) with (pend p (queue s)); [apply sub_refl|].
    unfold pend. rewrite !flat_map_concat_map, map_map. f_equal. apply map_ext. intros [k r]. cbn [join fst snd]. destruct r as [|e r]; [reflexivity|]. rewrite number_app, (number_cons p (next s, x)). cbn [snd]. rewrite N. change (number p []) with 0. now rewrite !Nat.add_0_r.
  - injection E as <- <-. cbn in NI. assert (N : p =? x = false) by (apply Nat.eqb_neq; intros ->; tauto). cbn [lst queue got app]. rewrite number_cons. cbn [snd]. rewrite N. split; [auto|apply sub_refl].
  - destruct (find_listener x (lst s)) as [i|]; injection E as <- <-; [|split; [auto|apply sub_refl]]. cbn [lst queue got app]. split; [|apply pend_drop].
    revert N1. clear. induction (lst s) as [|e l IH]; cbn [drop_entry]; intros N1; [lia|]. destruct (i =? fst e); rewrite ?number_cons in *; destruct (p =? snd e); cbn in *; try lia.
    rewrite (drop_number p i l); lia.
  - injection E as <- <-. split; [cbn; lia|constructor].
  - injection E as <- <-. split; [auto|apply sub_refl].
  - injection E as <- <-. split; [auto|apply sub_refl].
  - destruct sl; [|discriminate]. injection E as E. apply (f_equal fst) in E as E1. apply (f_equal snd) in E. cbn [fst snd] in *. subst o s'. rewrite go_lst. split; [auto|].
    rewrite <- go_pend. unfold pend. rewrite flat_map_app. apply sub_app; [apply sub_refl|]. cbn [flat_map fst snd]. rewrite app_nil_r. destruct (number p (lst s)) as [|[|n]]; [constructor|apply sub_refl|lia].
  - destruct sl; [|discriminate]. injection E as E. apply (f_equal fst) in E as E1. apply (f_equal snd) in E. cbn [fst snd] in *. subst o s'. rewrite go_lst. split; [auto|]. rewrite <- go_pend. apply sub_refl.
  - destruct sl; [|discriminate]. injection E as <- <-. split; [auto|constructor].
  - discriminate.
  - destruct (depth s) as [|d]; [discriminate|]. injection E as E. apply (f_equal fst) in E as E1. apply (f_equal snd) in E. cbn [fst snd] in *. subst o s'. rewrite go_lst. split; [auto|]. rewrite <- go_pend. apply sub_refl.
  - destruct (depth s) as [|d]; [discriminate|]. injection E as <- <-. split; [auto|constructor].
Qed.
Lemma step_apart_got : forall p a s o s', apart p s -> sexec a s = Some (o, s') -> got p [o] = [].
Proof.
  intros p a s o s' A E. 
  assert (G : forall q d0 d1, Forall (fun x => number p (snd x) = 0) q -> got p [fst (go s q d0 d1)] = []).
  { intros q d0 d1 F. pose proof (go_pend p s q d0 d1) as P. assert (pend p q = []) as Z. { unfold pend. clear - F. induction F as [|x q H1 H2 IH]; [reflexivity|]. cbn. now rewrite H1, IH. }
    rewrite Z in P. symmetry in P. apply app_eq_nil in P. tauto. }
  destruct A as [A1 A2]. destruct a as [x|x|x| |x| |sd k sl|sl|sl|k| | ]; cbn [sexec] in E.
  - destruct (lastok s); [|discriminate]. injection E as <- <-. reflexivity.
  - injection E as <- <-. reflexivity.
  - destruct (find_listener x (lst s)); injection E as <- <-; reflexivity.
  - injection E as <- <-. reflexivity.
  - injection E as <- <-. reflexivity.
  - injection E as <- <-. reflexivity.
  - destruct sl; [|discriminate]. injection E as E. apply (f_equal fst) in E. cbn [fst] in E. subst o. apply G. apply Forall_app. split; auto.
  - destruct sl; [|discriminate]. injection E as E. apply (f_equal fst) in E. cbn [fst] in E. subst o. apply G. auto.
  - destruct sl; [|discriminate]. injection E as <- <-. reflexivity.
  - discriminate.
  - destruct (depth s) as [|d]; [discriminate|]. injection E as E. apply (f_equal fst) in E. cbn [fst] in E. subst o. apply G. auto.
  - destruct (depth s) as [|d]; [discriminate|]. injection E as <- <-. reflexivity.
Qed.
Lemma apart_run : forall p l s o s', apart p s -> ~ In p (added l) -> srun l s = Some (o, s') -> got p o = [].
Proof.
  induction l as [|a t IH]; cbn [srun]; intros s o s' A NI E; [injection E as <- <-; reflexivity|].
  destruct (sexec a s) as [[x s1]|] eqn:E1; [|discriminate]. destruct (srun t s1) as [[xs s2]|] eqn:E2; [|discriminate]. injection E as <- <-.
  assert (N : ~ In p (added [a]) /\ ~ In p (added t)) by (destruct a; cbn in *; tauto). destruct N as [N1 N2].
  rewrite got_cons, (step_apart_got _ _ _ _ _ A E1), (IH _ _ _ (apart_step _ _ _ _ _ A N1 E1) N2 E2). reflexivity.
Qed.
Lemma later_run : forall p l s o s', number p (lst s) <= 1 -> ~ In p (added l) -> srun l s = Some (o, s') -> sub (got p o) (pend p (queue s) ++ sent l).
Proof.
  induction l as [|a t IH]; cbn [srun]; intros s o s' A NI E; [injection E as <- <-; constructor|].
  destruct (sexec a s) as [[x s1]|] eqn:E1; [|discriminate]. destruct (srun t s1) as [[xs s2]|] eqn:E2; [|discriminate]. injection E as <- <-.
  assert (N : ~ In p (added [a]) /\ ~ In p (added t)) by (destruct a; cbn in *; tauto). destruct N as [N1 N2].
  destruct (step_pend _ _ _ _ _ A N1 E1) as [B1 B2]. specialize (IH _ _ _ B1 N2 E2). rewrite got_cons, sent_cons, app_assoc.
  eapply sub_trans; [apply sub_app; [apply sub_refl|exact IH]|]. rewrite app_assoc. apply sub_app; [exact B2|apply sub_refl].
Qed.
Lemma msgs_number : forall s m, R s m -> forall p x, In x (queue s) -> number p (snd x) <= number p (lst s).
Proof.
  intros s m HR p x I. pose proof (sr_rep _ _ _ _ (r_st _ _ HR)) as F. induction F as [|a b q its H F IH]; [easy|]. destruct I as [->|I]; [|auto].
  destruct H as [_ [_ [_ [pre H]]]]. rewrite H, number_app. lia.
Qed.
Lemma order_run : forall p l s m o s', R s m -> apart p s -> count_occ Nat.eq_dec (added l) p <= 1 -> srun l s = Some (o, s') -> sub (got p o) (msgs s ++ sent l).
Proof.
  induction l as [|a t IH]; cbn [srun]; intros s m o s' HR A C E; [injection E as <- <-; constructor|].
  destruct (sexec a s) as [[x s1]|] eqn:E1; [|discriminate]. destruct (srun t s1) as [[xs s2]|] eqn:E2; [|discriminate]. injection E as <- <-.
  destruct (exec_ok _ _ _ _ _ HR E1) as [m1 [_ R1]]. rewrite got_cons, (step_apart_got _ _ _ _ _ A E1). cbn [app]. rewrite sent_cons, app_assoc.
  pose proof (msgs_step _ _ _ _ E1) as M.
  destruct (in_dec Nat.eq_dec p (added [a])) as [I|I].
  - assert (NI : ~ In p (added t)).
    { intros Q. apply (count_occ_In Nat.eq_dec) in Q. destruct a; cbn in I; try tauto; destruct I as [->|[]]; cbn in C; destruct (Nat.eq_dec p p); try congruence; lia. }
    assert (N1 : number p (lst s1) <= 1).
    { destruct A as [A1 A2]. destruct a as [y|y| | | | | | | | | |]; cbn in I; try tauto; destruct I as [->|[]]; cbn [sexec] in E1.
      - destruct (lastok s); [|discriminate]. injection E1 as <- <-. cbn [lst]. rewrite number_app, number_cons, A1. cbn. destruct (p =? p); cbn; lia.
      - injection E1 as <- <-. cbn [lst]. rewrite number_cons, A1. destruct (p =? _); lia. }
    eapply sub_trans; [exact (later_run _ _ _ _ _ N1 NI E2)|]. apply sub_app; [|apply sub_refl]. eapply sub_trans; [|exact M]. apply pend_sub.
    intros z Z. pose proof (msgs_number _ _ R1 p z Z). lia.
  - eapply sub_trans; [exact (IH _ _ _ _ R1 (apart_step _ _ _ _ _ A I E1) ltac:(destruct a; cbn in *; try exact C; destruct (Nat.eq_dec _ _); tauto || lia) E2)|].
    apply sub_app; [exact M|apply sub_refl].
Qed.
Lemma pend_in : forall p q m, In m (pend p q) -> In m (map fst q).
Proof. intros p q m H. unfold pend in H. apply in_flat_map in H. destruct H as [x [H1 H2]]. apply repeat_spec in H2. subst. now apply in_map. Qed.
Lemma sub_in : forall A (a b : list A) x, sub a b -> In x a -> In x b.
Proof. intros A a b x H. induction H; cbn; intuition. Qed.
Lemma in_run : forall l s o s' p k, srun l s = Some (o, s') -> In k (got p o) -> In k (msgs s ++ sent l).
Proof.
  induction l as [|a t IH]; cbn [srun]; intros s o s' p k E I; [injection E as <- <-; destruct I|].
  destruct (sexec a s) as [[x s1]|] eqn:E1; [|discriminate]. destruct (srun t s1) as [[xs s2]|] eqn:E2; [|discriminate]. injection E as <- <-.
  rewrite got_cons in I. apply in_app_iff in I. rewrite sent_cons, app_assoc. apply in_app_iff. destruct I as [I|I].
  - left. assert (G : forall q d0 d1, In k (got p [fst (go s q d0 d1)]) -> In k (map fst q)).
    { intros q d0 d1 J. apply (pend_in p). rewrite (go_pend p s q d0 d1). apply in_app_iff. now left. }
    clear IH E2. destruct a as [y|y|y| |y| |sd j sl|sl|sl|j| | ]; cbn [sexec sent] in *.
    + destruct (lastok s); [|discriminate]. injection E1 as <- <-. destruct I.
    + injection E1 as <- <-. destruct I.
    + destruct (find_listener y (lst s)); injection E1 as <- <-; destruct I.
    + injection E1 as <- <-. destruct I.
    + injection E1 as <- <-. destruct I.
    + injection E1 as <- <-. destruct I.
    + destruct sl; [|discriminate]. injection E1 as E. apply (f_equal fst) in E. cbn [fst] in E. subst x. apply G in I. rewrite map_app in I. exact I.
    + destruct sl; [|discriminate]. injection E1 as E. apply (f_equal fst) in E. cbn [fst] in E. subst x. apply G in I. rewrite app_nil_r. exact I.
    + destruct sl; [|discriminate]. injection E1 as <- <-. destruct I.
    + discriminate.
    + destruct (depth s) as [|d]; [discriminate|]. injection E1 as E. apply (f_equal fst) in E. cbn [fst] in E. subst x. apply G in I. rewrite app_nil_r. exact I.
    + destruct (depth s) as [|d]; [discriminate|]. injection E1 as <- <-. destruct I.
  - specialize (IH _ _ _ _ _ E2 I). apply in_app_iff in IH. destruct IH as [IH|IH]; [left|now right]. exact (sub_in _ _ _ _ (msgs_step _ _ _ _ E1) IH).
Qed.
