From Coq Require Import Permutation.
From Verif Require Import Common RefCnt_Spec SharedPtr_Model SharedRing_Proof.
From Verif Require RefCnt_Proof RefCntStep_Proof RefCntRun_Proof.

(** the table of the variables of a state *)
Definition vw (s : node) : pvar := PV (nLive s) (nOwner s) (nPtr s).
Definition view (h : world) : list pvar := map vw (nodes h).
Definition nx (h : world) (k : nat) : nat := match nth_error (nodes h) k with Some s => nNext s | None => 0 end.

Lemma nth_len {A} (l : list A) i x : nth_error l i = Some x -> i < length l.
Proof. intros H. apply nth_error_Some. congruence. Qed.
Lemma map_upd {A B} (f : A -> B) : forall l i x, map f (upd l i x) = upd (map f l) i (f x).
Proof. induction l as [|a l IH]; intros [|i] x; cbn; auto. rewrite IH. auto. Qed.

Lemma view_len h : length (view h) = length (nodes h).
Proof. apply map_length. Qed.
Lemma view_nth h i s : nth_error (nodes h) i = Some s -> nth_error (view h) i = Some (vw s).
Proof. intros H. unfold view. rewrite nth_error_map, H. auto. Qed.
Lemma nth_view h i v : nth_error (view h) i = Some v -> exists s, nth_error (nodes h) i = Some s /\ v = vw s.
Proof.
  unfold view. rewrite nth_error_map. destruct (nth_error (nodes h) i) as [s|]; [|discriminate].
  intros E. injection E as <-. eauto.
Qed.
Lemma view_put h i s : view (putN h i s) = upd (view h) i (vw s).
Proof. unfold view, putN. cbn [nodes]. apply map_upd. Qed.
Lemma nx_put_eq h i s : i < length (nodes h) -> nx (putN h i s) i = nNext s.
Proof. intros L. unfold nx, putN. cbn [nodes]. rewrite nth_error_upd_eq; auto. Qed.
Lemma nx_put_ne h i s k : k <> i -> nx (putN h i s) k = nx h k.
Proof. intros L. unfold nx, putN. cbn [nodes]. rewrite nth_error_upd_ne; auto. Qed.

Lemma there_node h i : pthere (view h) i <-> exists s, nth_error (nodes h) i = Some s /\ nLive s = true.
Proof.
  split.
  - intros (v & Hv & E). apply nth_view in Hv as (s & Hs & ->). eauto.
  - intros (s & Hs & E). exists (vw s). split; auto. apply view_nth; auto.
Qed.
Lemma pvalue_view h i s : nth_error (nodes h) i = Some s -> pvalue (view h) i = nPtr s.
Proof. intros H. unfold pvalue. rewrite (view_nth _ _ _ H). auto. Qed.
Lemma nx_node h i s : nth_error (nodes h) i = Some s -> nx h i = nNext s.
Proof. intros H. unfold nx. rewrite H. auto. Qed.
Lemma getN_ok h i s : nth_error (nodes h) i = Some s -> nLive s = true -> getN h i = Ok s.
Proof. intros H L. unfold getN. rewrite H, L. auto. Qed.
Lemma there_get h i : pthere (view h) i ->
  exists s, nth_error (nodes h) i = Some s /\ nLive s = true /\ getN h i = Ok s /\ nx h i = nNext s /\ pvalue (view h) i = nPtr s.
Proof.
  intros H. apply there_node in H as (s & Hs & L). exists s. repeat split; auto.
  - apply getN_ok; auto. - apply nx_node; auto. - apply pvalue_view; auto.
Qed.

Definition same (h h' : world) : Prop := view h' = view h /\ alive h' = alive h /\ gone h' = gone h.
Lemma same_trans h1 h2 h3 : same h1 h2 -> same h2 h3 -> same h1 h3.
Proof. unfold same. intuition congruence. Qed.

Lemma setNext_ok h i n : pthere (view h) i ->
  exists h', setNext h i n = Ok h' /\ same h h' /\ nx h' i = n /\ forall k, k <> i -> nx h' k = nx h k.
Proof.
  intros H. apply there_get in H as (s & Hs & L & G & _). unfold setNext. rewrite G. cbn [obind].
  eexists. split; [reflexivity|]. split.
  - split; [|split; reflexivity]. rewrite view_put. apply RefCntRun_Proof.upd_id.
    rewrite (view_nth _ _ _ Hs). unfold vw. cbn. rewrite L. auto.
  - split; [rewrite nx_put_eq; auto; eapply nth_len; eauto|]. intros k Nk. apply nx_put_ne; auto.
Qed.

(** the ring invariant of a state *)
Definition Rings (h : world) : Prop := RI (pthere (view h)) (nx h) (pvalue (view h)).

Lemma there_len h i : pthere (view h) i -> i < length (nodes h).
Proof. intros (v & Hv & _). rewrite <- view_len. eapply nth_len; eauto. Qed.

Lemma ring_short h l : NoDup l -> (forall k, In k l -> pthere (view h) k) -> length l <= length (nodes h).
Proof.
  intros N A. rewrite <- (seq_length (length (nodes h)) 0). apply NoDup_incl_length; auto.
  intros k Hk. apply in_seq. apply A in Hk. apply there_len in Hk. lia.
Qed.

Lemma last_cons {A} (l : list A) : forall x d, last (x :: l) d = last l x.
Proof. induction l as [|y l IH]; intros x d; auto. change (last (y :: l) d = last (y :: l) x). rewrite !IH. auto. Qed.

Lemma findPrev_ok h i : forall l cur fuel, path (nx h) cur l i -> ~ In i l ->
  (forall k, In k (cur :: l) -> pthere (view h) k) -> length l <= fuel -> findPrev fuel h i cur = Ok (last l cur).
Proof.
  induction l as [|x l IH]; intros cur fuel P N A F; cbn [path] in P;
    destruct (there_get h cur (A cur (or_introl eq_refl))) as (s & _ & _ & G & E & _).
  - destruct fuel; cbn [findPrev]; rewrite G; cbn [obind]; rewrite <- E, P, Nat.eqb_refl; auto.
  - destruct P as [X P]. destruct fuel as [|f]; [cbn in F; lia|]. cbn [findPrev]. rewrite G. cbn [obind].
    rewrite <- E, X. destruct (Nat.eqb_spec x i) as [->|Nx]; [cbn in N; tauto|].
    rewrite (IH x f).
    + rewrite last_cons. reflexivity.
    + auto. + cbn in N. tauto. + intros k Hk. apply A. cbn in *. tauto. + cbn in F. lia.
Qed.

Lemma ringFrom_ok h i : forall l cur fuel, path (nx h) cur l i -> ~ In i l ->
  (forall k, In k (cur :: l) -> pthere (view h) k) -> length l <= fuel -> ringFrom fuel h i cur = Ok (cur :: l).
Proof.
  induction l as [|x l IH]; intros cur fuel P N A F; cbn [path] in P;
    destruct (there_get h cur (A cur (or_introl eq_refl))) as (s & _ & _ & G & E & _).
  - destruct fuel; cbn [ringFrom]; rewrite G; cbn [obind]; rewrite <- E, P, Nat.eqb_refl; auto.
  - destruct P as [X P]. destruct fuel as [|f]; [cbn in F; lia|]. cbn [ringFrom]. rewrite G. cbn [obind].
    rewrite <- E, X. destruct (Nat.eqb_spec x i) as [->|Nx]; [cbn in N; tauto|].
    rewrite (IH x f); auto.
    + cbn in N. tauto. + intros k Hk. apply A. cbn in *. tauto. + cbn in F. lia.
Qed.

Lemma ringOf_ok h i : Rings h -> pthere (view h) i -> exists l, ringOf h i = Ok (i :: l) /\
  NoDup (i :: l) /\ (forall k, In k l -> pthere (view h) k /\ pvalue (view h) k = pvalue (view h) i) /\
  (forall k x, pthere (view h) k -> pvalue (view h) i = Some x -> pvalue (view h) k = Some x -> In k (i :: l)).
Proof.
  intros R Hi. destruct (R i Hi) as (l & P & N & A & B). exists l. split; auto.
  apply NoDup_cons_iff in N as [N1 N2]. unfold ringOf. apply ringFrom_ok; auto.
  - intros k [<-|Hk]; auto. apply A; auto.
  - apply ring_short; auto. intros k Hk. apply A; auto.
Qed.

(** leaving the ring *)
Lemma removeItself_ok h i : Rings h -> pthere (view h) i ->
  exists h', removeItself h i = Ok h' /\ same h h' /\ nx h' i = i /\
    RI (fun k => pthere (view h) k /\ k <> i) (nx h') (pvalue (view h)).
Proof.
  intros R Hi. destruct (R i Hi) as (l & P & N & A & B).
  assert (N1 : ~ In i l) by (apply NoDup_cons_iff in N; tauto).
  assert (N2 : NoDup l) by (apply NoDup_cons_iff in N; tauto).
  unfold removeItself. rewrite (findPrev_ok h i l i); auto;
    [|intros k [<-|Hk]; auto; apply A; auto|apply ring_short; auto; intros k Hk; apply A; auto].
  cbn [obind]. destruct (there_get h i Hi) as (s & _ & _ & G & E & _). rewrite G. cbn [obind].
  set (prev := last l i).
  assert (Hp : pthere (view h) prev).
  { unfold prev. destruct l as [|y l _] using rev_ind; [exact Hi|]. rewrite last_last. apply A. apply in_or_app. cbn. auto. }
  destruct (setNext_ok h prev (nNext s) Hp) as (h1 & Q1 & S1 & E1 & F1). rewrite Q1. cbn [obind].
  assert (Hi1 : pthere (view h1) i) by (destruct S1 as [-> _]; exact Hi).
  destruct (setNext_ok h1 i i Hi1) as (h2 & Q2 & S2 & E2 & F2). rewrite Q2.
  exists h2. split; auto. split; [eapply same_trans; eauto|]. split; auto.
  destruct l as [|y l _] using rev_ind.
  - cbn [path] in P. apply RI_ext with (fun k => pthere (view h) k /\ k <> i) (nx h) (pvalue (view h)); try tauto.
    + intros k [_ Nk]. rewrite F2 by auto. apply F1. exact Nk.
    + apply RI_drop_alone; auto.
  - unfold prev in *. rewrite last_last in *.
    assert (Ny : y <> i) by (intros ->; apply N1; apply in_or_app; cbn; auto).
    apply RI_leave with (nx h) l y; auto.
    + rewrite F2 by auto. congruence.
    + intros k K1 K2. rewrite F2, F1; auto.
Qed.

(** ** objects and table *)
Record OI (al : list bool) (go : list nat) (t : list pvar) (todo : list nat) : Prop := {
  oA : forall i v x, nth_error t i = Some v -> pExists v = true -> pRefers v = Some x -> nth_error al x = Some true;
  oB : forall x, nth_error al x = Some true -> referred t x;
  oO : forall i v x, nth_error t i = Some v -> pExists v = true -> pInside v = Some x ->
         nth_error al x = Some true \/ In i todo;
  oT : NoDup todo /\ forall i, In i todo -> exists v, nth_error t i = Some v /\ pExists v = true /\
         forall x, pInside v = Some x -> nth_error al x <> Some true;
  oD : NoDup go /\ forall x, In x go <-> nth_error al x = Some false }.

Definition Inv (h : world) (todo : list nat) : Prop := Rings h /\ OI (alive h) (gone h) (view h) todo.

Lemma bury_view h i s : view (bury h i s) = upd (view h) i (PV false (nOwner s) None).
Proof. unfold bury. rewrite view_put. reflexivity. Qed.

Lemma pthere_upd_dead t i o k : pthere (upd t i (PV false o None)) k <-> pthere t k /\ k <> i.
Proof.
  unfold pthere. destruct (Nat.eq_dec k i) as [->|Nk].
  - split; [|tauto]. intros (v & Hv & E). pose proof (nth_len _ _ _ Hv) as L. rewrite upd_length in L.
    rewrite nth_error_upd_eq in Hv by auto. injection Hv as <-. discriminate.
  - rewrite nth_error_upd_ne by auto. tauto.
Qed.
Lemma pvalue_upd_ne t i v k : k <> i -> pvalue (upd t i v) k = pvalue t k.
Proof. intros N. unfold pvalue. rewrite nth_error_upd_ne; auto. Qed.

(** the part of a destructor that ends the life of the variable itself *)
Lemma bury_ok h i s : Rings h -> nth_error (nodes h) i = Some s -> nLive s = true ->
  exists h1, (if isSharedN i s then removeItself h i else Ok h) = Ok h1 /\
    view (bury h1 i s) = upd (view h) i (PV false (nOwner s) None) /\
    alive (bury h1 i s) = alive h /\ gone (bury h1 i s) = gone h /\ Rings (bury h1 i s).
Proof.
  intros R Hs L. assert (Hi : pthere (view h) i) by (apply there_node; eauto).
  assert (X : exists h1, (if isSharedN i s then removeItself h i else Ok h) = Ok h1 /\ same h h1 /\
              RI (fun k => pthere (view h) k /\ k <> i) (nx h1) (pvalue (view h))).
  { unfold isSharedN. destruct (Nat.eqb_spec (nNext s) i) as [E|E]; cbn [negb].
    - exists h. split; auto. split; [repeat split; auto|]. apply RI_drop_alone; auto. rewrite (nx_node _ _ _ Hs). auto.
    - destruct (removeItself_ok h i R Hi) as (h1 & Q & S1 & _ & R1). eauto. }
  destruct X as (h1 & Q & (V & Al & Go) & R1). exists h1. split; auto.
  rewrite bury_view, V. split; auto. split; [exact Al|]. split; [exact Go|].
  unfold Rings. rewrite bury_view, V.
  apply RI_ext with (fun k => pthere (view h) k /\ k <> i) (nx h1) (pvalue (view h)); auto.
  - intros k. apply pthere_upd_dead.
  - intros k [_ Nk]. unfold bury. apply nx_put_ne; auto.
  - intros k [_ Nk]. apply pvalue_upd_ne; auto.
Qed.

(** the ring tells whether another variable refers to the object *)
Lemma ring_shared h i s : Rings h -> nth_error (nodes h) i = Some s -> nLive s = true ->
  if isSharedN i s then exists k, k <> i /\ pthere (view h) k /\ pvalue (view h) k = pvalue (view h) i
  else forall k x, k <> i -> pthere (view h) k -> nPtr s = Some x -> pvalue (view h) k <> Some x.
Proof.
  intros R Hs L. assert (Hi : pthere (view h) i) by (apply there_node; eauto).
  destruct (R i Hi) as (l & P & N & A & B). unfold isSharedN. rewrite <- (nx_node _ _ _ Hs).
  destruct (Nat.eqb_spec (nx h i) i) as [E|E]; cbn [negb].
  - destruct l as [|y l]; cbn [path] in P.
    + intros k x Nk Hk Ps Pk. rewrite <- (pvalue_view _ _ _ Hs) in Ps. specialize (B k x Hk Ps Pk).
      destruct B as [B|[]]. congruence.
    + destruct P as [X _]. rewrite E in X. subst y. apply NoDup_cons_iff in N as [N _]. cbn in N. tauto.
  - destruct l as [|y l]; cbn [path] in P; [congruence|]. destruct P as [X _].
    exists y. split; [congruence|]. apply A. cbn. auto.
Qed.

Lemma NoDup_app_intro {A} (l l' : list A) : NoDup l -> NoDup l' -> (forall x, In x l -> ~ In x l') -> NoDup (l ++ l').
Proof.
  induction l as [|a l IH]; cbn; auto. intros N N' D. apply NoDup_cons_iff in N as [N1 N2]. constructor.
  - rewrite in_app_iff. intros [X|X]; [contradiction|]. apply (D a); auto.
  - apply IH; auto.
Qed.

Lemma nth_upd_dead t i o k v : nth_error (upd t i (PV false o None)) k = Some v -> pExists v = true ->
  k <> i /\ nth_error t k = Some v.
Proof.
  intros Hv E. destruct (Nat.eq_dec k i) as [->|Nk].
  - pose proof (nth_len _ _ _ Hv) as L. rewrite upd_length in L.
    rewrite nth_error_upd_eq in Hv by auto. injection Hv as <-. discriminate.
  - rewrite nth_error_upd_ne in Hv by auto. auto.
Qed.

Lemma OI_keep al go t todo rest i v o : OI al go t todo -> NoDup rest ->
  (forall k, In k rest <-> In k todo /\ k <> i) -> nth_error t i = Some v ->
  (forall x, pRefers v = Some x -> exists k, k <> i /\ pthere t k /\ pvalue t k = Some x) ->
  OI al go (upd t i (PV false o None)) rest.
Proof.
  intros I Nd Er Hv Sh. split.
  - intros k w x Hw E Rf. apply nth_upd_dead in Hw as [_ Hw]; auto. eapply (oA _ _ _ _ I); eauto.
  - intros x Hx. destruct (oB _ _ _ _ I x Hx) as (k & w & Hw & E & Rf).
    assert (X : exists k, k <> i /\ pthere t k /\ pvalue t k = Some x).
    { destruct (Nat.eq_dec k i) as [->|Nk]; [apply Sh; congruence|]. exists k. split; auto.
      split; [exists w; auto|]. unfold pvalue. rewrite Hw. auto. }
    destruct X as (q & Nq & (z & Hz & Ez) & Pq). unfold pvalue in Pq. rewrite Hz in Pq.
    exists q, z. rewrite nth_error_upd_ne by auto. auto.
  - intros k w x Hw E Rf. apply nth_upd_dead in Hw as [Nk Hw]; auto.
    destruct (oO _ _ _ _ I k w x Hw E Rf) as [|T]; auto. right. apply Er. auto.
  - split; auto. intros k Hk. apply Er in Hk as [Hk Nk]. apply (oT _ _ _ _ I) in Hk.
    rewrite nth_error_upd_ne by auto. exact Hk.
  - exact (oD _ _ _ _ I).
Qed.

Lemma OI_last al go t i rest mem v o x : OI al go t (i :: rest) -> nth_error t i = Some v -> pExists v = true ->
  pRefers v = Some x -> (forall k, k <> i -> pthere t k -> pvalue t k <> Some x) ->
  NoDup mem -> (forall k, In k mem <-> exists w, nth_error (upd t i (PV false o None)) k = Some w /\ pExists w = true /\ pInside w = Some x) ->
  OI (upd al x false) (go ++ [x]) (upd t i (PV false o None)) (mem ++ rest).
Proof.
  intros I Hv Ev Rv U Nm Em. pose proof (oA _ _ _ _ I _ _ _ Hv Ev Rv) as Ax. pose proof (nth_len _ _ _ Ax) as Lx.
  destruct (oT _ _ _ _ I) as [Nt Tt]. apply NoDup_cons_iff in Nt as [Ni Nr].
  assert (Al : forall y, nth_error (upd al x false) y = Some true <-> nth_error al y = Some true /\ y <> x).
  { intros y. destruct (Nat.eq_dec y x) as [->|N].
    - rewrite nth_error_upd_eq by auto. split; [discriminate|tauto].
    - rewrite nth_error_upd_ne by auto. tauto. }
  split.
  - intros k w y Hw E Rf. apply nth_upd_dead in Hw as [Nk Hw]; auto. apply Al. split.
    + eapply (oA _ _ _ _ I); eauto.
    + intros ->. apply (U k Nk); [exists w; auto|]. unfold pvalue. rewrite Hw. auto.
  - intros y Hy. apply Al in Hy as [Hy Ny]. destruct (oB _ _ _ _ I y Hy) as (k & w & Hw & E & Rf).
    exists k, w. rewrite nth_error_upd_ne; auto. intros ->. congruence.
  - intros k w y Hw E Rf. assert (Hw' := Hw). apply nth_upd_dead in Hw' as [Nk Hw']; auto.
    destruct (Nat.eq_dec y x) as [->|Ny].
    + right. apply in_or_app. left. apply Em. eauto.
    + destruct (oO _ _ _ _ I k w y Hw' E Rf) as [X|X]; [left; apply Al; auto|].
      right. apply in_or_app. right. destruct X; [congruence|auto].
  - split.
    + apply NoDup_app_intro; auto.
      intros k K1 K2. apply Em in K1 as (w & Hw & E & Iw). apply nth_upd_dead in Hw as [Nk Hw]; auto.
      destruct (Tt k (or_intror K2)) as (w' & Hw' & _ & D). rewrite Hw in Hw'. injection Hw' as <-.
      apply (D x Iw Ax).
    + intros k Hk. apply in_app_iff in Hk as [Hk|Hk].
      * apply Em in Hk as (w & Hw & E & Iw). exists w. split; auto. split; auto. intros y Iy Hy.
        apply Al in Hy as [_ Hy]. congruence.
      * destruct (Tt k (or_intror Hk)) as (w & Hw & E & D). exists w.
        rewrite nth_error_upd_ne by (intros ->; contradiction). split; auto. split; auto.
        intros y Iy Hy. apply Al in Hy as [Hy _]. apply (D y Iy Hy).
  - destruct (oD _ _ _ _ I) as [Dn Dd]. split.
    + apply NoDup_app_intro; auto.
      * constructor; [auto|constructor].
      * intros k K1 [<-|[]]. apply Dd in K1. congruence.
    + intros y. rewrite in_app_iff. cbn. destruct (Nat.eq_dec y x) as [->|Ny].
      * rewrite nth_error_upd_eq by auto. tauto.
      * rewrite nth_error_upd_ne by auto. rewrite Dd. intuition congruence.
Qed.

Lemma members_in o : forall l k q, In q (membersFrom k o l) <->
  k <= q /\ exists s, nth_error l (q - k) = Some s /\ memberOf o s = true.
Proof.
  induction l as [|a l IH]; intros k q; cbn [membersFrom].
  - split; [intros []|]. intros (_ & s & Hs & _). destruct (q - k); discriminate.
  - rewrite in_app_iff, IH. split.
    + intros [H|(H & s & Hs & M)].
      * destruct (memberOf o a) eqn:M; [|destruct H]. destruct H as [<-|[]]. split; auto.
        rewrite Nat.sub_diag. exists a. auto.
      * split; [lia|]. exists s. replace (q - k) with (S (q - S k)) by lia. auto.
    + intros (H & s & Hs & M). destruct (Nat.eq_dec q k) as [->|N].
      * left. rewrite Nat.sub_diag in Hs. injection Hs as ->. rewrite M. cbn. auto.
      * right. split; [lia|]. exists s. replace (q - k) with (S (q - S k)) in Hs by lia. auto.
Qed.
Lemma members_nodup o : forall l k, NoDup (membersFrom k o l).
Proof.
  induction l as [|a l IH]; intros k; cbn [membersFrom]; [constructor|].
  destruct (memberOf o a); cbn [app]; auto. constructor; auto. rewrite members_in. lia.
Qed.
Lemma members_view h o q : In q (membersFrom 0 o (nodes h)) <->
  exists w, nth_error (view h) q = Some w /\ pExists w = true /\ pInside w = Some o.
Proof.
  rewrite members_in, Nat.sub_0_r. split.
  - intros (_ & s & Hs & M). exists (vw s). split; [apply view_nth; auto|].
    unfold memberOf in M. apply andb_true_iff in M as [M1 M2]. cbn. split; auto.
    destruct (nOwner s) as [y|]; [|discriminate]. apply Nat.eqb_eq in M2. congruence.
  - intros (w & Hw & E & I). apply nth_view in Hw as (s & Hs & ->). split; [lia|]. exists s. split; auto.
    unfold memberOf. cbn in E, I. rewrite E, I, Nat.eqb_refl. auto.
Qed.

(** how a state shrinks *)
Definition died (o : option nat) : pvar := PV false o None.
Record Shr (todo : list nat) (h h' : world) : Prop := {
  sL : length (view h') = length (view h);
  sA : length (alive h') = length (alive h);
  sG : forall x, In x (gone h) -> In x (gone h');
  sV : forall k v, nth_error (view h) k = Some v ->
         (nth_error (view h') k = Some v /\ ~ In k todo) \/
         (nth_error (view h') k = Some (died (pInside v)) /\
          (In k todo \/ exists x, pInside v = Some x /\ In x (gone h'))) }.

Definition liveCount (t : list pvar) : nat := length (filter pExists t).
Lemma liveCount_upd o : forall t i v, nth_error t i = Some v -> pExists v = true ->
  S (liveCount (upd t i (PV false o None))) = liveCount t.
Proof.
  unfold liveCount. induction t as [|a t IH]; intros [|i] v H E; cbn in *; try discriminate.
  - injection H as ->. rewrite E. auto.
  - destruct (pExists a); cbn; rewrite <- (IH _ _ H E); auto.
Qed.

Lemma destroyAll_ok : forall fuel todo h, Inv h todo -> liveCount (view h) <= fuel ->
  exists h', destroyAll fuel todo h = Ok h' /\ Inv h' [] /\ Shr todo h h'.
Proof.
  induction fuel as [|f IH]; intros [|i rest] h [R I] F.
  - exists h. cbn. split; auto. split; [split; auto|]. split; auto.
  - exfalso. destruct (oT _ _ _ _ I) as [_ T]. destruct (T i (or_introl eq_refl)) as (v & Hv & E & _).
    pose proof (liveCount_upd None _ _ _ Hv E). lia.
  - exists h. cbn. split; auto. split; [split; auto|]. split; auto.
  - destruct (oT _ _ _ _ I) as [Nt T]. destruct (T i (or_introl eq_refl)) as (v & Hv & E & Dv).
    assert (Hv' := Hv). apply nth_view in Hv' as (s & Hs & ->). cbn in E.
    destruct (bury_ok h i s R Hs E) as (h1 & Q & V2 & A2 & G2 & R2).
    pose proof (ring_shared h i s R Hs E) as Sh.
    pose proof (liveCount_upd (nOwner s) _ _ _ Hv E) as Lc.
    assert (Nt' := Nt). apply NoDup_cons_iff in Nt' as [Ni Nr].
    assert (Er : forall k, In k rest <-> In k (i :: rest) /\ k <> i).
    { intros k. cbn. intuition (try congruence). }
    assert (Keep : forall h2, view h2 = upd (view h) i (PV false (nOwner s) None) -> alive h2 = alive h -> gone h2 = gone h ->
       Rings h2 -> (forall x, nPtr s = Some x -> exists k, k <> i /\ pthere (view h) k /\ pvalue (view h) k = Some x) ->
       exists h', destroyAll f rest h2 = Ok h' /\ Inv h' [] /\ Shr (i :: rest) h h').
    { intros h2 V A G R' Sx. destruct (IH rest h2) as (h' & D & I' & S').
      - split; auto. rewrite V, A, G. eapply OI_keep; eauto.
      - rewrite V. lia.
      - exists h'. split; auto. split; auto. destruct S' as [L1 L2 L3 L4]. split.
        + rewrite L1, V. apply upd_length. + congruence. + intros x Hx. apply L3. congruence.
        + intros k w Hw. rewrite V in L4. destruct (Nat.eq_dec k i) as [->|Nk].
          * right. rewrite Hv in Hw. injection Hw as <-. destruct (L4 i (PV false (nOwner s) None)) as [[X _]|[X _]].
            { apply nth_error_upd_eq. eapply nth_len; eauto. }
            -- split; [exact X|]. left. cbn. auto.
            -- split; [exact X|]. left. cbn. auto.
          * destruct (L4 k w) as [[X Y]|[X Y]].
            { rewrite nth_error_upd_ne; auto. }
            -- left. split; auto. cbn. intuition congruence.
            -- right. split; auto. cbn. tauto. }
    cbn [destroyAll]. rewrite (getN_ok _ _ _ Hs E). cbn [obind].
    destruct (isSharedN i s).
    + rewrite Q. cbn [obind]. apply Keep; auto. intros x Hx. destruct Sh as (k & Nk & Tk & Pk). exists k.
      rewrite Pk, (pvalue_view _ _ _ Hs). auto.
    + injection Q as <-. destruct (nPtr s) as [o|] eqn:Ep.
      * pose proof (oA _ _ _ _ I i (vw s) o Hv E Ep) as Ao. rewrite Ao.
        set (h2 := mkWorld (upd (alive (bury h i s)) o false) (nodes (bury h i s)) (gone (bury h i s) ++ [o])).
        assert (V : view h2 = upd (view h) i (PV false (nOwner s) None)) by exact V2.
        destruct (IH (membersFrom 0 o (nodes h2) ++ rest) h2) as (h' & D & I' & S').
        { split; [exact R2|]. cbn [alive gone]. rewrite V. change (alive h2) with (upd (alive h) o false).
          change (gone h2) with (gone h ++ [o]).
          eapply OI_last; eauto.
          - apply members_nodup.
          - intros k. rewrite members_view, V. tauto. }
        { rewrite V. lia. }
        exists h'. split; auto. split; auto. destruct S' as [L1 L2 L3 L4]. split.
        -- rewrite L1, V. apply upd_length.
        -- rewrite L2. cbn. rewrite upd_length. auto.
        -- intros x Hx. apply L3. cbn. apply in_or_app. auto.
        -- intros k w Hw. rewrite V in L4. destruct (Nat.eq_dec k i) as [->|Nk].
           ++ right. rewrite Hv in Hw. injection Hw as <-. destruct (L4 i (PV false (nOwner s) None)) as [[X _]|[X _]].
              { apply nth_error_upd_eq. eapply nth_len; eauto. }
              ** split; [exact X|]. left. cbn. auto.
              ** split; [exact X|]. left. cbn. auto.
           ++ destruct (L4 k w) as [[X Y]|[X Y]].
              { rewrite nth_error_upd_ne; auto. }
              ** left. split; auto. rewrite in_app_iff in Y. cbn. intuition congruence.
              ** right. split; auto. rewrite in_app_iff in Y. cbn [In]. destruct Y as [[Y|Y]|Y]; auto.
                 right. apply members_view in Y as (w' & Hw' & _ & Io). rewrite V, nth_error_upd_ne in Hw' by auto.
                 assert (w' = w) by congruence. subst w'. exists o. split; auto. apply L3. cbn. apply in_or_app. cbn. auto.
      * apply Keep; auto. discriminate.
Qed.
