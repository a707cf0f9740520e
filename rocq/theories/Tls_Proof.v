(** Lemmas about thread variables. *)
From Verif Require Import Common Tls_Spec Heap_Model Tls_Model.
From Coq Require Import Permutation.

Notation at_ t i := (nth i t empty).

Lemma upd_beyond {A} (t : list A) i r : length t <= i -> upd t i r = t.
Proof. revert i. induction t as [|a t IH]; intros [|i] H; cbn in *; auto; try lia. f_equal. apply IH. lia. Qed.

Lemma upd_self (t : list record) i : upd t i (at_ t i) = t.
Proof. revert i. induction t as [|a t IH]; intros [|i]; cbn; auto. f_equal. apply IH. Qed.

Lemma at_upd (t : list record) i r j : at_ (upd t i r) j =
  if (j =? i) && (i <? length t) then r else at_ t j.
Proof.
  revert i j. induction t as [|a t IH]; intros i j.
  - cbn. rewrite andb_false_r. auto.
  - destruct i as [|i], j as [|j]; cbn [upd nth length]; auto. rewrite IH. auto.
Qed.

Lemma at_upd_empty (t : list record) i j : at_ (upd t i empty) j = if j =? i then empty else at_ t j.
Proof.
  rewrite at_upd. destruct (Nat.eqb_spec j i) as [->|]; auto. cbn [andb].
  destruct (Nat.ltb_spec i (length t)); auto. apply nth_overflow. auto.
Qed.

Section Filter.
Variable f : record -> bool.
Hypothesis F0 : f empty = false.

Lemma filter_upd t i r : i < length t ->
  Permutation (filter f (upd t i r)) ((if f r then [r] else []) ++ filter f (upd t i empty)).
Proof.
  revert i. induction t as [|a t IH]; intros i H; cbn in H; [lia|].
  destruct i as [|i]; cbn [upd filter].
  - rewrite F0. destruct (f r); auto.
  - specialize (IH i ltac:(lia)). destruct (f a); auto.
    eapply Permutation_trans; [apply perm_skip, IH|].
    destruct (f r); cbn [app]; auto. apply perm_swap.
Qed.

Lemma filter_at t i :
  Permutation (filter f t) ((if f (at_ t i) then [at_ t i] else []) ++ filter f (upd t i empty)).
Proof.
  destruct (Nat.lt_ge_cases i (length t)) as [L|L].
  - rewrite <- (upd_self t i) at 1. apply filter_upd. auto.
  - rewrite nth_overflow, F0, upd_beyond by auto. auto.
Qed.

Lemma filter_grow t n : filter f (t ++ repeat empty n) = filter f t.
Proof.
  rewrite filter_app. assert (E : filter f (repeat empty n) = []); [|rewrite E; apply app_nil_r].
  induction n; cbn; auto. rewrite F0. auto.
Qed.

Lemma filter_none t : (forall j, f (at_ t j) = false) -> filter f t = [].
Proof.
  induction t as [|a t IH]; intros H; auto. cbn. pose proof (H 0) as H0. cbn in H0. rewrite H0. apply IH. intros j. apply (H (S j)).
Qed.

Lemma filter_empty_at t j : filter f t = [] -> f (at_ t j) = false.
Proof.
  intros H. pose proof (filter_at t j) as P. rewrite H in P.
  destruct (f (at_ t j)); auto. apply Permutation_nil in P. discriminate P.
Qed.
End Filter.

Lemma at_grow (t : list record) n j : at_ (t ++ repeat empty n) j = at_ t j.
Proof.
  destruct (Nat.lt_ge_cases j (length t)) as [L|L].
  - apply app_nth1. auto.
  - rewrite app_nth2 by auto. rewrite (nth_overflow t) by auto.
    generalize (j - length t). intros m. revert m. induction n as [|n IH]; intros [|m]; cbn; auto.
Qed.

Definition owned (t : list record) : list nat := map fst (filter snd t).

Lemma owned_at t i : Permutation (owned t) ((if snd (at_ t i) then [fst (at_ t i)] else []) ++ owned (upd t i empty)).
Proof.
  unfold owned. eapply Permutation_trans; [apply Permutation_map, (filter_at snd eq_refl t i)|].
  rewrite map_app. destruct (snd (at_ t i)); auto.
Qed.

Lemma owned_upd t i v d : i < length t ->
  Permutation (owned (upd t i (v, d))) ((if d then [v] else []) ++ owned (upd t i empty)).
Proof.
  intros H. unfold owned. eapply Permutation_trans; [apply Permutation_map, (filter_upd snd eq_refl t i (v, d) H)|].
  rewrite map_app. cbn [snd]. destruct d; auto.
Qed.

Definition good (s : st) : Prop := Permutation (puts s) (dels s ++ owned (tab s)).

Section Run.
Variable react : nat -> list op.
Variable c : option nat.

Definition fits (o : op) : Prop := match c with None => True | Some n => below n o end.
Hypothesis RF : forall v, Forall fits (react v).

Definition simple (o : op) : Prop :=
  match o with
  | Set_ _ w d => d = false \/ react w = []
  | Unset _ => True
  | _ => False
  end.
Hypothesis RT : forall v, Forall simple (react v).

Definition liveb (r : record) : bool := snd r && match react (fst r) with [] => false | _ => true end.
Definition nlive (s : st) : nat := length (filter liveb (tab s)).

Lemma live0 : liveb empty = false.
Proof. reflexivity. Qed.

(** ** more fuel does no harm *)
Definition kle (k k' : list op -> st -> outcome st) : Prop := forall l s s', k l s = Ok s' -> k' l s = Ok s'.

Lemma unset_mono k k' i s s' : kle k k' -> unset react k i s = Ok s' -> unset react k' i s = Ok s'.
Proof. intros K. unfold unset. destruct (snd _); auto. Qed.

Lemma unsetVar_mono k k' i s s' : kle k k' -> unsetVar react k i s = Ok s' -> unsetVar react k' i s = Ok s'.
Proof. intros K. unfold unsetVar. destruct (_ <=? _); auto. apply unset_mono. auto. Qed.

Lemma set_mono k k' i v d s s' : kle k k' -> set_ react k i v d s = Ok s' -> set_ react k' i v d s = Ok s'.
Proof.
  intros K. unfold set_. destruct (unset react k i s) eqn:E; cbn [obind]; try discriminate.
  rewrite (unset_mono k k' _ _ _ K E). auto.
Qed.

Lemma setVar_mono k k' i v d s s' : kle k k' -> setVar react k i v d s = Ok s' -> setVar react k' i v d s = Ok s'.
Proof.
  intros K. unfold setVar. destruct (_ && _); auto.
  destruct (if _ <=? _ then _ else _); cbn [obind]; try discriminate. apply set_mono. auto.
Qed.

Lemma pass_mono k k' xs : kle k k' -> forall rep s r, pass react k xs rep s = Ok r -> pass react k' xs rep s = Ok r.
Proof.
  intros K. induction xs as [|x xs IH]; intros rep s r; cbn [pass]; auto.
  destruct (isInited _); auto. destruct (unset react k x s) eqn:E; cbn [obind]; try discriminate.
  rewrite (unset_mono k k' _ _ _ K E). cbn [obind]. auto.
Qed.

Lemma run_mono1 f : kle (run react f) (run react (S f)).
Proof.
  induction f as [|f IH]; intros l s s' H; [discriminate H|].
  remember (S f) as g. cbn [run]. subst g. cbn [run] in H.
  destruct l as [|[i v d|i v d|i|] l]; auto.
  - destruct (unsetVar react (run react f) i s) eqn:E1; cbn [obind] in H; try discriminate H.
    rewrite (unsetVar_mono _ _ _ _ _ IH E1). cbn [obind].
    destruct (setVar react (run react f) i v d a) eqn:E2; cbn [obind] in H; try discriminate H.
    rewrite (setVar_mono _ _ _ _ _ _ _ IH E2). cbn [obind]. auto.
  - destruct (setVar react (run react f) i v d s) eqn:E2; cbn [obind] in H; try discriminate H.
    rewrite (setVar_mono _ _ _ _ _ _ _ IH E2). cbn [obind]. auto.
  - destruct (unsetVar react (run react f) i s) eqn:E1; cbn [obind] in H; try discriminate H.
    rewrite (unsetVar_mono _ _ _ _ _ IH E1). cbn [obind]. auto.
  - destruct (pass react (run react f) (seq 0 (length (tab s))) false s) eqn:E1; cbn [obind] in H; try discriminate H.
    rewrite (pass_mono _ _ _ IH _ _ _ E1). cbn [obind]. auto.
Qed.

Lemma run_mono f g : f <= g -> kle (run react f) (run react g).
Proof.
  intros H. induction H as [|g H IH]; intros l s s' E; auto. apply run_mono1. auto.
Qed.

(** ** what calls leave behind *)
Definition post (s s' : st) : Prop :=
  cap s' = cap s /\ (good s -> good s') /\
  (forall j, liveb (at_ (tab s') j) = true -> liveb (at_ (tab s) j) = true) /\ nlive s' <= nlive s.

Lemma post_refl s : post s s.
Proof. unfold post. auto. Qed.

Lemma post_trans a b d : post a b -> post b d -> post a d.
Proof.
  intros (A1 & A2 & A3 & A4) (B1 & B2 & B3 & B4). split; [congruence|]. split; auto. split; auto. lia.
Qed.

(** the record is emptied, its value is on the way to the delete function *)
Definition taken (s : st) (i : nat) : st :=
  let r := at_ (tab s) i in
  let s1 := setTab s (upd (tab s) i empty) in
  if snd r then logDel s1 (fst r) else s1.

Lemma taken_tab s i : tab (taken s i) = upd (tab s) i empty.
Proof. unfold taken. destruct (snd _); auto. Qed.

Lemma taken_post s i : post s (taken s i).
Proof.
  unfold post, nlive. rewrite taken_tab. split; [|split; [|split]].
  - unfold taken. destruct (snd _); auto.
  - unfold good. rewrite taken_tab. pose proof (owned_at (tab s) i) as P.
    intros G. unfold taken. destruct (snd (at_ (tab s) i)) eqn:E; cbn [setTab logDel puts dels app] in *.
    + eapply Permutation_trans; [exact G|]. eapply Permutation_trans; [apply Permutation_app_head, P|].
      apply Permutation_sym, Permutation_middle.
    + eapply Permutation_trans; [exact G|]. apply Permutation_app_head, P.
  - intros j. rewrite at_upd_empty. destruct (j =? i); auto. discriminate.
  - rewrite (Permutation_length (filter_at liveb live0 (tab s) i)), app_length. lia.
Qed.

Lemma taken_live s i : liveb (at_ (tab s) i) = true -> nlive (taken s i) < nlive s.
Proof.
  intros L. unfold nlive. rewrite taken_tab.
  rewrite (Permutation_length (filter_at liveb live0 (tab s) i)), L, app_length. cbn. lia.
Qed.

Lemma unset_inert f s i : liveb (at_ (tab s) i) = false -> unset react (run react (S f)) i s = Ok (taken s i).
Proof.
  intros L. unfold unset, taken. unfold liveb in L. destruct (snd (at_ (tab s) i)) eqn:E; auto. cbn in L.
  destruct (react (fst (at_ (tab s) i))) eqn:R; [|discriminate L]. cbn [run]. auto.
Qed.

Lemma setVar_ok f s i v d : cap s = c -> fits (Set_ i v d) -> liveb (at_ (tab s) i) = false ->
  exists s', setVar react (run react (S f)) i v d s = Ok s' /\ cap s' = c /\ (good s -> good s') /\
    (forall j, at_ (tab s') j = if j =? i then (v, d) else at_ (tab s) j) /\
    nlive s' <= nlive s + (if liveb (v, d) then 1 else 0).
Proof.
  intros C F L. unfold setVar.
  destruct ((v =? 0) && negb d && (length (tab s) <=? i)) eqn:E0.
  { apply andb_prop in E0. destruct E0 as [E0 E3]. apply andb_prop in E0. destruct E0 as [E1 E2].
    apply Nat.eqb_eq in E1. apply negb_true_iff in E2. apply Nat.leb_le in E3. subst.
    exists s. split; auto. split; auto. split; auto. split; [|lia].
    intros j. destruct (Nat.eqb_spec j i) as [->|]; auto. apply nth_overflow. auto. }
  assert (G : exists s1, (if length (tab s) <=? i then grow (i + 1) s else Ok s) = Ok s1 /\ cap s1 = c /\
    puts s1 = puts s /\ dels s1 = dels s /\ owned (tab s1) = owned (tab s) /\ nlive s1 = nlive s /\
    (forall j, at_ (tab s1) j = at_ (tab s) j) /\ i < length (tab s1)).
  { destruct (Nat.leb_spec (length (tab s)) i) as [Li|Li]; [|exists s; repeat split; auto].
    unfold grow. assert (Z : forall x : st, (match cap s with Some c0 => if c0 <? i + 1 then Throw else Ok x | None => Ok x end) = Ok x).
    { intros x. rewrite C. unfold fits in F. destruct c as [n|]; auto. cbn in F.
      destruct (Nat.ltb_spec n (i + 1)); auto. lia. }
    rewrite Z. eexists. split; [reflexivity|]. unfold nlive, owned. cbn [setTab tab cap puts dels].
    rewrite !filter_grow by reflexivity. split; auto. split; auto. split; auto. split; auto. split; auto.
    split; [intros j; apply at_grow|]. rewrite app_length, repeat_length. lia. }
  destruct G as (s1 & -> & C1 & Pu & De & Ow & Nl & At & Li). cbn [obind]. unfold set_.
  rewrite unset_inert by (rewrite At; auto). cbn [obind].
  rewrite taken_tab, upd_length, Nat.eqb_refl. cbn [obind].
  destruct (taken_post s1 i) as (T1 & T2 & T3 & T4).
  eexists. split; [reflexivity|].
  assert (U : forall r, upd (upd (tab s1) i empty) i r = upd (tab s1) i r).
  { intros r. generalize (tab s1) i. intros t. induction t as [|a t IH]; intros [|k]; cbn; auto. f_equal. auto. }
  cbn [logPut setTab cap tab puts dels]. rewrite U.
  split; [congruence|]. split; [|split].
  - unfold good. cbn [tab puts dels]. intros Go.
    assert (Go1 : good s1) by (unfold good; rewrite Pu, De, Ow; auto).
    specialize (T2 Go1). unfold good in T2. rewrite taken_tab in T2.
    pose proof (owned_upd (tab s1) i v d Li) as P. destruct d; cbn [app] in P.
    + eapply Permutation_trans; [apply perm_skip, T2|]. eapply Permutation_trans; [apply Permutation_middle|].
      apply Permutation_app_head, Permutation_sym, P.
    + eapply Permutation_trans; [exact T2|]. apply Permutation_app_head, Permutation_sym, P.
  - intros j. rewrite at_upd, At. destruct (Nat.eqb_spec j i); auto.
    destruct (Nat.ltb_spec i (length (tab s1))); [auto|lia].
  - unfold nlive at 1. cbn [logPut setTab tab].
    rewrite (Permutation_length (filter_upd liveb live0 (tab s1) i (v, d) Li)), app_length.
    unfold nlive in T4 at 1. rewrite taken_tab in T4. destruct (liveb (v, d)); cbn [length]; lia.
Qed.

Lemma simple_ok : forall n l s, nlive s <= n -> cap s = c -> Forall simple l -> Forall fits l ->
  exists f s', run react f l s = Ok s' /\ post s s'.
Proof.
  induction n as [n IHn] using lt_wf_ind.
  assert (U : forall s i, nlive s <= n -> cap s = c -> exists f s', unset react (run react f) i s = Ok s' /\
    post s s' /\ liveb (at_ (tab s') i) = false).
  { intros s i Hn C. destruct (liveb (at_ (tab s) i)) eqn:L.
    - pose proof (taken_live s i L) as T. destruct (taken_post s i) as (T1 & T').
      destruct (IHn (nlive (taken s i)) ltac:(lia) (react (fst (at_ (tab s) i))) (taken s i)) as (f & s' & E & P); auto.
      { congruence. }
      exists f, s'. split; [|split].
      + unfold unset. unfold taken in E. unfold liveb in L. destruct (snd (at_ (tab s) i)); [|discriminate L]. exact E.
      + eapply post_trans; [apply taken_post|exact P].
      + destruct P as (_ & _ & P3 & _). specialize (P3 i). rewrite taken_tab, at_upd_empty, Nat.eqb_refl in P3.
        destruct (liveb (at_ (tab s') i)); auto. discriminate (P3 eq_refl).
    - exists 1, (taken s i). split; [apply unset_inert; auto|]. split; [apply taken_post|].
      rewrite taken_tab, at_upd_empty, Nat.eqb_refl. auto. }
  assert (UV : forall s i, nlive s <= n -> cap s = c -> exists f s', unsetVar react (run react f) i s = Ok s' /\
    post s s' /\ liveb (at_ (tab s') i) = false).
  { intros s i Hn C. unfold unsetVar. destruct (Nat.leb_spec (length (tab s)) i); auto.
    exists 0, s. split; auto. split; [apply post_refl|]. rewrite nth_overflow; auto. }
  induction l as [|o l IH]; intros s Hn C Hs Hf.
  - exists 1, s. split; auto. apply post_refl.
  - inversion Hs as [|? ? S1 S2]; subst. inversion Hf as [|? ? F1 F2]; subst.
    destruct o as [i v d|i v d|i|]; cbn [simple] in S1; try tauto.
    + destruct (UV s i Hn C) as (f1 & s1 & E1 & P1 & L1). pose proof P1 as (C1 & _ & _ & N1).
      destruct (setVar_ok 0 s1 i v d ltac:(congruence) F1 L1) as (s2 & E2 & C2 & G2 & A2 & N2).
      assert (LV : liveb (v, d) = false).
      { unfold liveb. cbn. destruct S1 as [-> | ->]; auto. apply andb_false_r. }
      assert (P2 : post s1 s2).
      { split; [congruence|]. split; auto. rewrite LV in N2. split; [|lia].
        intros j. rewrite A2. destruct (Nat.eqb_spec j i); auto. congruence. }
      destruct (IH s2) as (f3 & s3 & E3 & P3); auto; [rewrite LV in N2; lia|].
      exists (S (f1 + 1 + f3)), s3. split; [|eapply post_trans; [exact P1|]; eapply post_trans; eauto].
      cbn [run]. rewrite (unsetVar_mono (run react f1) _ i s s1); [|apply run_mono; lia|exact E1]. cbn [obind].
      rewrite (setVar_mono (run react 1) _ i v d s1 s2); [|apply run_mono; lia|exact E2]. cbn [obind].
      eapply (run_mono f3); [lia|exact E3].
    + destruct (UV s i Hn C) as (f1 & s1 & E1 & P1 & L1). pose proof P1 as (C1 & _ & _ & N1).
      destruct (IH s1) as (f3 & s3 & E3 & P3); auto; [lia|congruence|].
      exists (S (f1 + f3)), s3. split; [|eapply post_trans; eauto].
      cbn [run]. rewrite (unsetVar_mono (run react f1) _ i s s1); [|apply run_mono; lia|exact E1]. cbn [obind].
      eapply (run_mono f3); [lia|exact E3].
Qed.

Lemma unset_ok s i : cap s = c -> exists f s', unset react (run react f) i s = Ok s' /\
  post s s' /\ liveb (at_ (tab s') i) = false.
Proof.
  intros C. destruct (liveb (at_ (tab s) i)) eqn:L.
  - destruct (taken_post s i) as (T1 & T').
    destruct (simple_ok (nlive (taken s i)) (react (fst (at_ (tab s) i))) (taken s i)) as (f & s' & E & P); auto.
    { congruence. }
    exists f, s'. split; [|split].
    + unfold unset. unfold taken in E. unfold liveb in L. destruct (snd (at_ (tab s) i)); [|discriminate L]. exact E.
    + eapply post_trans; [apply taken_post|exact P].
    + destruct P as (_ & _ & P3 & _). specialize (P3 i). rewrite taken_tab, at_upd_empty, Nat.eqb_refl in P3.
      destruct (liveb (at_ (tab s') i)); auto. discriminate (P3 eq_refl).
  - exists 1, (taken s i). split; [apply unset_inert; auto|]. split; [apply taken_post|].
    rewrite taken_tab, at_upd_empty, Nat.eqb_refl. auto.
Qed.

Lemma unsetVar_ok s i : cap s = c -> exists f s', unsetVar react (run react f) i s = Ok s' /\
  post s s' /\ liveb (at_ (tab s') i) = false /\
  ((forall v, react v = []) -> forall j, at_ (tab s') j = if j =? i then empty else at_ (tab s) j).
Proof.
  intros C. unfold unsetVar. destruct (Nat.leb_spec (length (tab s)) i).
  - exists 0, s. split; auto. split; [apply post_refl|]. split; [rewrite nth_overflow; auto|].
    intros _ j. destruct (Nat.eqb_spec j i) as [->|]; auto. apply nth_overflow. auto.
  - destruct (unset_ok s i C) as (f & s' & E & P & L). exists f, s'. split; auto. split; auto. split; auto.
    intros R j. assert (Z : liveb (at_ (tab s) i) = false) by (unfold liveb; rewrite R; apply andb_false_r).
    pose proof (unset_inert f s i Z) as E2.
    assert (Q : unset react (run react (S f)) i s = Ok s') by (eapply unset_mono; [apply run_mono1|exact E]).
    rewrite E2 in Q. injection Q as <-. rewrite taken_tab. apply at_upd_empty.
Qed.

Lemma pass_ok xs : forall rep s, cap s = c -> exists f rep' s', pass react (run react f) xs rep s = Ok (rep', s') /\
  post s s' /\ (forall x, In x xs -> liveb (at_ (tab s') x) = false) /\
  (rep' = false -> s' = s /\ rep = false /\ forall x, In x xs -> isInited (at_ (tab s) x) = false).
Proof.
  induction xs as [|x xs IH]; intros rep s C; cbn [pass].
  - exists 0, rep, s. split; auto. split; [apply post_refl|]. split; [intros x []|]. intros ->. split; auto. split; auto.
    intros x [].
  - destruct (isInited (at_ (tab s) x)) eqn:I.
    + destruct (unset_ok s x C) as (f1 & s1 & E1 & P1 & L1). pose proof P1 as (C1 & _).
      destruct (IH true s1) as (f2 & rep' & s2 & E2 & P2 & L2 & R2); [congruence|].
      exists (f1 + f2), rep', s2. split; [|split; [|split]].
      * rewrite (unset_mono (run react f1) _ x s s1); [|apply run_mono; lia|exact E1]. cbn [obind].
        eapply pass_mono; [apply (run_mono f2); lia|exact E2].
      * eapply post_trans; eauto.
      * intros y [<-|H]; auto. destruct P2 as (_ & _ & P3 & _). specialize (P3 x).
        destruct (liveb (at_ (tab s2) x)); auto. rewrite P3 in L1; auto.
      * intros ->. destruct (R2 eq_refl) as (_ & X & _). discriminate X.
    + destruct (IH rep s C) as (f2 & rep' & s2 & E2 & P2 & L2 & R2). exists f2, rep', s2.
      split; auto. split; auto. split.
      * intros y [<-|H]; auto. destruct P2 as (_ & _ & P3 & _). specialize (P3 x).
        destruct (liveb (at_ (tab s2) x)); auto. specialize (P3 eq_refl). unfold liveb in P3. unfold isInited in I.
        destruct (snd (at_ (tab s) x)); [discriminate I|discriminate P3].
      * intros X. destruct (R2 X) as (-> & -> & R3). split; auto. split; auto. intros y [<-|H]; auto.
Qed.

Lemma pass_dead f xs : forall rep s, (forall j, liveb (at_ (tab s) j) = false) ->
  exists rep' s', pass react (run react (S f)) xs rep s = Ok (rep', s') /\ post s s' /\
    (forall j, at_ (tab s') j = if existsb (Nat.eqb j) xs then empty else at_ (tab s) j) /\
    length (tab s') = length (tab s).
Proof.
  induction xs as [|x xs IH]; intros rep s D; cbn [pass existsb].
  - exists rep, s. split; auto. split; [apply post_refl|]. auto.
  - destruct (isInited (at_ (tab s) x)) eqn:I.
    + rewrite unset_inert by auto. cbn [obind].
      destruct (IH true (taken s x)) as (rep' & s' & E & P & A & Le).
      { intros j. rewrite taken_tab, at_upd_empty. destruct (j =? x); auto. }
      exists rep', s'. split; auto. split; [eapply post_trans; [apply taken_post|exact P]|].
      rewrite taken_tab, upd_length in Le. split; auto.
      intros j. rewrite A, taken_tab, at_upd_empty. destruct (Nat.eqb_spec j x) as [->|]; cbn; auto.
      destruct (existsb _ _); auto.
    + destruct (IH rep s D) as (rep' & s' & E & P & A & Le).
      exists rep', s'. split; auto. split; auto. split; auto.
      intros j. rewrite A. destruct (Nat.eqb_spec j x) as [->|]; cbn; auto.
      destruct (existsb _ _); auto. unfold isInited in I. destruct (at_ (tab s) x) as [v d]. cbn in I.
      destruct d; [discriminate I|]. destruct v; [auto|discriminate I].
Qed.

Lemma pass_none f xs : forall rep s, (forall j, at_ (tab s) j = empty) -> pass react (run react f) xs rep s = Ok (rep, s).
Proof. induction xs as [|x xs IH]; intros rep s D; cbn [pass]; auto. rewrite D. cbn. auto. Qed.

Lemma in_seq_all j n : existsb (Nat.eqb j) (seq 0 n) = (j <? n).
Proof.
  destruct (Nat.ltb_spec j n).
  - apply existsb_exists. exists j. split; [apply in_seq; lia|apply Nat.eqb_refl].
  - destruct (existsb _ _) eqn:E; auto. apply existsb_exists in E. destruct E as (x & I & E).
    apply Nat.eqb_eq in E. subst. apply in_seq in I. lia.
Qed.

(** one call of a program *)
Definition leadsTo (o : op) (s s' : st) : Prop :=
  forall f l r, run react f l s' = Ok r -> exists g, run react g (o :: l) s = Ok r.

Lemma clear_ok s : cap s = c -> exists s', leadsTo Clear s s' /\ post s s' /\ (forall j, at_ (tab s') j = empty).
Proof.
  intros C. destruct (pass_ok (seq 0 (length (tab s))) false s C) as (f1 & rep1 & s1 & E1 & P1 & L1 & R1).
  destruct rep1.
  2:{ destruct (R1 eq_refl) as (-> & _ & N). exists s. split; [|split; [apply post_refl|]].
      - intros f l r H. exists (S (f1 + f)). cbn [run].
        rewrite (pass_mono (run react f1) (run react (f1 + f)) _ ltac:(apply run_mono; lia) _ _ _ E1). cbn [obind fst snd].
        eapply (run_mono f); [lia|exact H].
      - intros j. destruct (Nat.lt_ge_cases j (length (tab s))) as [L|L]; [|apply nth_overflow; auto].
        specialize (N j ltac:(apply in_seq; lia)). unfold isInited in N. destruct (at_ (tab s) j) as [v d]. cbn in N.
        destruct d; [discriminate N|]. destruct v; [auto|discriminate N]. }
  assert (D : forall j, liveb (at_ (tab s1) j) = false).
  { intros j. destruct (Nat.lt_ge_cases j (length (tab s))) as [L|L]; [apply L1, in_seq; lia|].
    destruct P1 as (_ & _ & P3 & _). specialize (P3 j). rewrite (nth_overflow (tab s)) in P3 by auto.
    destruct (liveb (at_ (tab s1) j)); auto. symmetry. exact (P3 eq_refl). }
  destruct (pass_dead 0 (seq 0 (length (tab s1))) false s1 D) as (rep2 & s2 & E2 & P2 & A2 & Le2).
  assert (Z : forall j, at_ (tab s2) j = empty).
  { intros j. rewrite A2, in_seq_all. destruct (Nat.ltb_spec j (length (tab s1))); auto. apply nth_overflow. auto. }
  exists s2. split; [|split; [eapply post_trans; eauto|auto]].
  intros f l r H. exists (S (S (S (f1 + 1 + f)))). remember (S (S (f1 + 1 + f))) as g1. cbn [run].
  rewrite (pass_mono (run react f1) (run react g1) _ ltac:(apply run_mono; lia) _ _ _ E1). cbn [obind fst snd].
  subst g1. remember (S (f1 + 1 + f)) as g2. cbn [run].
  rewrite (pass_mono (run react 1) (run react g2) _ ltac:(apply run_mono; lia) _ _ _ E2). cbn [obind fst snd].
  subst g2. destruct rep2.
  - cbn [run]. rewrite pass_none by auto. cbn [obind fst snd]. eapply (run_mono f); [lia|exact H].
  - eapply (run_mono f); [lia|exact H].
Qed.

Lemma op_ok o s : cap s = c -> fits o -> (notRaw o \/ forall v, react v = []) ->
  exists s', leadsTo o s s' /\ cap s' = c /\ (good s -> good s') /\
    match o with
    | Set_ i v _ => getVar s' i = v
    | Clear => forall j, at_ (tab s') j = empty
    | _ => True
    end /\
    ((forall v, react v = []) -> forall j, getVar s' j = apply1 (getVar s) o j).
Proof.
  intros C F N. destruct o as [i v d|i v d|i|].
  - destruct (unsetVar_ok s i C) as (f1 & s1 & E1 & (C1 & G1 & _) & L1 & Q1).
    destruct (setVar_ok 0 s1 i v d ltac:(congruence) F L1) as (s2 & E2 & C2 & G2 & A2 & _).
    exists s2. split; [|split; [auto|split; [auto|split]]].
    + intros f l r H. exists (S (f1 + 1 + f)). cbn [run].
      rewrite (unsetVar_mono (run react f1) _ i s s1); [|apply run_mono; lia|exact E1]. cbn [obind].
      rewrite (setVar_mono (run react 1) _ i v d s1 s2); [|apply run_mono; lia|exact E2]. cbn [obind].
      eapply (run_mono f); [lia|exact H].
    + unfold getVar. rewrite A2, Nat.eqb_refl. auto.
    + intros R j. unfold getVar. rewrite A2. cbn [apply1]. destruct (Nat.eqb_spec j i); auto.
      rewrite Q1 by auto. destruct (Nat.eqb_spec j i); [congruence|auto].
  - destruct N as [[]|R].
    assert (L : liveb (at_ (tab s) i) = false) by (unfold liveb; rewrite R; apply andb_false_r).
    destruct (setVar_ok 0 s i v d C F L) as (s2 & E2 & C2 & G2 & A2 & _).
    exists s2. split; [|split; [auto|split; [auto|split; [auto|]]]].
    + intros f l r H. exists (S (1 + f)). cbn [run].
      rewrite (setVar_mono (run react 1) _ i v d s s2); [|apply run_mono; lia|exact E2]. cbn [obind].
      eapply (run_mono f); [lia|exact H].
    + intros _ j. unfold getVar. rewrite A2. cbn [apply1]. destruct (Nat.eqb_spec j i); auto.
  - destruct (unsetVar_ok s i C) as (f1 & s1 & E1 & (C1 & G1 & _) & L1 & Q1).
    exists s1. split; [|split; [congruence|split; [auto|split; [auto|]]]].
    + intros f l r H. exists (S (f1 + f)). cbn [run].
      rewrite (unsetVar_mono (run react f1) _ i s s1); [|apply run_mono; lia|exact E1]. cbn [obind].
      eapply (run_mono f); [lia|exact H].
    + intros R j. unfold getVar. rewrite Q1 by auto. cbn [apply1]. destruct (Nat.eqb_spec j i); auto.
  - destruct (clear_ok s C) as (s' & LT & (C1 & G1 & _) & Z).
    exists s'. split; auto. split; [congruence|]. split; auto. split; auto.
    intros _ j. unfold getVar. rewrite Z. reflexivity.
Qed.

Lemma program_ok l : forall s, cap s = c -> Forall fits l -> (Forall notRaw l \/ forall v, react v = []) ->
  exists s', (exists f0, forall f, f0 <= f -> run react f l s = Ok s') /\ cap s' = c /\ (good s -> good s') /\
    ((forall v, react v = []) -> forall j, getVar s' j = applyAll (getVar s) l j).
Proof.
  assert (X : forall l s, cap s = c -> Forall fits l -> (Forall notRaw l \/ forall v, react v = []) ->
    exists s', (exists f, run react f l s = Ok s') /\ cap s' = c /\ (good s -> good s') /\
    ((forall v, react v = []) -> forall j, getVar s' j = applyAll (getVar s) l j)).
  { clear l. induction l as [|o l IH]; intros s C F N.
    - exists s. split; [exists 1; auto|]. auto.
    - inversion F as [|? ? F1 F2]; subst.
      destruct (op_ok o s C F1) as (s1 & LT & C1 & G1 & _ & R1).
      { destruct N as [N|N]; auto. inversion N; auto. }
      destruct (IH s1) as (s2 & (f & E) & C2 & G2 & R2); auto.
      { destruct N as [N|N]; auto. inversion N; auto. }
      exists s2. split; [exact (LT _ _ _ E)|]. split; [congruence|]. split; auto.
      intros R j. rewrite R2 by auto. unfold applyAll. cbn [fold_left].
      assert (Y : forall l m m', (forall j, m j = m' j) -> forall j, fold_left apply1 l m j = fold_left apply1 l m' j).
      { clear. induction l as [|o l IH]; intros m m' H j; cbn [fold_left]; auto. apply IH. intros i.
        destruct o; cbn [apply1]; auto; destruct (i =? _); auto. }
      apply Y. auto. }
  intros s C F N. destruct (X l s C F N) as (s' & (f & E) & R). exists s'. split; auto.
  exists f. intros g H. eapply run_mono; eauto.
Qed.

Lemma run_app l : forall l' s s1 f1, run react f1 l s = Ok s1 -> forall f2 r, run react f2 l' s1 = Ok r ->
  exists f, run react f (l ++ l') s = Ok r.
Proof.
  intros l' s s1 f1. revert l s. induction f1 as [|f1 IH]; intros l s E f2 r E2; [discriminate E|].
  cbn [run] in E. destruct l as [|[i v d|i v d|i|] l].
  - injection E as ->. eauto.
  - destruct (unsetVar react (run react f1) i s) eqn:U; cbn [obind] in E; try discriminate E.
    destruct (setVar react (run react f1) i v d a) eqn:V; cbn [obind] in E; try discriminate E.
    destruct (IH _ _ E _ _ E2) as [f E3]. exists (S (f1 + f)). cbn [run app].
    rewrite (unsetVar_mono (run react f1) _ i s a); [|apply run_mono; lia|exact U]. cbn [obind].
    rewrite (setVar_mono (run react f1) _ i v d a a0); [|apply run_mono; lia|exact V]. cbn [obind].
    eapply (run_mono f); [lia|exact E3].
  - destruct (setVar react (run react f1) i v d s) eqn:V; cbn [obind] in E; try discriminate E.
    destruct (IH _ _ E _ _ E2) as [f E3]. exists (S (f1 + f)). cbn [run app].
    rewrite (setVar_mono (run react f1) _ i v d s a); [|apply run_mono; lia|exact V]. cbn [obind].
    eapply (run_mono f); [lia|exact E3].
  - destruct (unsetVar react (run react f1) i s) eqn:U; cbn [obind] in E; try discriminate E.
    destruct (IH _ _ E _ _ E2) as [f E3]. exists (S (f1 + f)). cbn [run app].
    rewrite (unsetVar_mono (run react f1) _ i s a); [|apply run_mono; lia|exact U]. cbn [obind].
    eapply (run_mono f); [lia|exact E3].
  - destruct (pass react (run react f1) (seq 0 (length (tab s))) false s) eqn:P; cbn [obind] in E; try discriminate E.
    destruct (IH _ _ E _ _ E2) as [f E3]. exists (S (f1 + f)). cbn [run app].
    rewrite (pass_mono (run react f1) (run react (f1 + f)) _ ltac:(apply run_mono; lia) _ _ _ P). cbn [obind].
    destruct (fst a); (eapply (run_mono f); [lia|exact E3]).
Qed.

End Run.
