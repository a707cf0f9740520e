(** The map refines a finite map. *)
From Verif Require Import Common Avl_Model Map_Spec Map_Model Avl_Proof AvlIter_Proof Map_Proof.
From Coq Require Import Sorting.Sorted Sorting.Permutation.

Section Lists.
Context {K V : Type}.
Variable lt : K -> K -> bool.
Hypothesis SW : strict_weak lt.
Notation E := (K * V)%type.
Implicit Types m l : list E.

Lemma eqk_sym a b : eqk lt a b = eqk lt b a.
Proof. unfold eqk. apply andb_comm. Qed.

Lemma eqk_refl a : eqk lt a a = true.
Proof. unfold eqk. rewrite (sw_irrefl _ SW). auto. Qed.

Lemma eqk_not a b : eqk lt a b = true <-> lt a b = false /\ lt b a = false.
Proof. unfold eqk. destruct (lt a b), (lt b a); simpl; intuition congruence. Qed.

Lemma eqk_lt_l a b c : eqk lt a b = true -> lt a c = lt b c.
Proof.
  rewrite eqk_not. intros [H1 H2].
  destruct (lt a c) eqn:E1, (lt b c) eqn:E2; auto.
  - destruct (sw_cotrans _ SW _ _ b E1); congruence.
  - destruct (sw_cotrans _ SW _ _ a E2); congruence.
Qed.

Lemma eqk_lt_r a b c : eqk lt a b = true -> lt c a = lt c b.
Proof.
  rewrite eqk_not. intros [H1 H2].
  destruct (lt c a) eqn:E1, (lt c b) eqn:E2; auto.
  - destruct (sw_cotrans _ SW _ _ b E1); congruence.
  - destruct (sw_cotrans _ SW _ _ a E2); congruence.
Qed.

Lemma eqk_trans a b c : eqk lt a b = true -> eqk lt a c = eqk lt b c.
Proof. intros H. unfold eqk. rewrite (eqk_lt_l a b c H), (eqk_lt_r a b c H). auto. Qed.

Lemma before_eqk d a b : before lt d a b = true -> eqk lt a b = false.
Proof.
  unfold before, eqk. destruct d; intros ->; auto. rewrite andb_false_r. auto.
Qed.

Lemma before_asym d a b : before lt d a b = true -> before lt d b a = false.
Proof. unfold before. destruct d; apply lt_asym; auto. Qed.

Lemma before_trans d a b c :
  before lt d a b = true -> before lt d b c = true -> before lt d a c = true.
Proof. unfold before. destruct d; intros; eapply (sw_trans _ SW); eauto. Qed.

Lemma before_total d a b : before lt d a b = false -> eqk lt a b = false -> before lt d b a = true.
Proof. unfold before, eqk. destruct d; destruct (lt a b), (lt b a); simpl; congruence. Qed.

(** ** permutations *)
Lemma perm_filter (f : E -> bool) m m' : Permutation m m' -> Permutation (filter f m) (filter f m').
Proof.
  induction 1 as [|x l l' H IH|x y l|l l' l'' H1 IH1 H2 IH2]; simpl; auto.
  - destruct (f x); auto.
  - destruct (f x), (f y); auto. constructor.
  - etransitivity; eauto.
Qed.

Lemma perm_existsb (f : E -> bool) m m' : Permutation m m' -> existsb f m = existsb f m'.
Proof.
  induction 1 as [|x l l' H IH|x y l|l l' l'' H1 IH1 H2 IH2]; simpl; auto; try congruence.
  destruct (f x), (f y); auto.
Qed.

Definition srt (d : bool) := StronglySorted (fun a b : E => before lt d (fst a) (fst b) = true).

Definition distinct m := ForallOrdPairs (fun a b => eqk lt (fst a) (fst b) = false) m.

Lemma srt_distinct d l : srt d l -> distinct l.
Proof.
  unfold srt, distinct. induction 1 as [|a l H IH F]; constructor; auto.
  eapply Forall_impl; [|exact F]. simpl. intros b. apply before_eqk.
Qed.

Lemma distinct_perm m m' : Permutation m m' -> distinct m -> distinct m'.
Proof.
  unfold distinct.
  induction 1 as [|x l l' H IH|x y l|l l' l'' H1 IH1 H2 IH2]; intros D; auto.
  - inversion D as [|? ? F D']; subst. constructor; auto.
    rewrite Forall_forall in *. intros b Hb. apply F. eapply Permutation_in; [symmetry|]; eauto.
  - inversion D as [|? ? F D']; subst. inversion D' as [|? ? F' D'']; subst.
    inversion F; subst. constructor; [constructor; auto|constructor; auto].
    rewrite eqk_sym. auto.
Qed.

Lemma place_perm d (e : E) l : Permutation (e :: l) (place lt d e l).
Proof.
  induction l as [|f l IH]; simpl; auto. destruct (before lt d (fst e) (fst f)); auto.
  etransitivity; [apply perm_swap|]. constructor. auto.
Qed.

Lemma ordered_perm0 d m : Permutation m (ordered lt d m).
Proof.
  induction m as [|e m IH]; simpl; auto. etransitivity; [|apply place_perm]. auto.
Qed.

Lemma place_srt d e l : srt d l -> Forall (fun f => eqk lt (fst e) (fst f) = false) l ->
  srt d (place lt d e l).
Proof.
  unfold srt. induction l as [|f l IH]; simpl; intros S F; [constructor; constructor|].
  inversion S as [|? ? S' F']; subst. inversion F as [|? ? Ff F2]; subst.
  destruct (before lt d (fst e) (fst f)) eqn:Eb.
  - constructor; auto. constructor; auto. eapply Forall_impl; [|exact F'].
    simpl. intros a Ha. eapply before_trans; eauto.
  - constructor; auto. rewrite Forall_forall. intros a Ha.
    apply (Permutation_in _ (Permutation_sym (place_perm d e l))) in Ha.
    destruct Ha as [<-|Ha]; [apply before_total; auto|].
    rewrite Forall_forall in F'. auto.
Qed.

Lemma ordered_srt d m : distinct m -> srt d (ordered lt d m).
Proof.
  induction m as [|e m IH]; intros D; simpl; [constructor|].
  inversion D as [|? ? F D']; subst. apply place_srt; auto.
  rewrite Forall_forall in *. intros a Ha. apply F.
  eapply Permutation_in; [symmetry; apply ordered_perm0|]; eauto.
Qed.

Lemma srt_unique d l l' : srt d l -> srt d l' -> Permutation l l' -> l = l'.
Proof.
  unfold srt. revert l'. induction l as [|a l IH]; intros l' S S' P.
  - apply Permutation_nil in P. auto.
  - destruct l' as [|b l']; [symmetry in P; apply Permutation_nil in P; discriminate|].
    inversion S as [|? ? S1 F1]; subst. inversion S' as [|? ? S2 F2]; subst.
    assert (a = b).
    { assert (Ha : In a (b :: l')) by (eapply Permutation_in; [exact P|simpl; auto]).
      assert (Hb : In b (a :: l)) by (eapply Permutation_in; [symmetry; exact P|simpl; auto]).
      destruct Ha as [->|Ha]; auto. destruct Hb as [->|Hb]; auto.
      rewrite Forall_forall in F1, F2. pose proof (F1 _ Hb) as H1. pose proof (F2 _ Ha) as H2.
      apply before_asym in H1. congruence. }
    subst b. f_equal. apply IH; auto. eapply Permutation_cons_inv; eauto.
Qed.

Lemma ordered_ok d l m : srt d l -> Permutation l m -> ordered lt d m = l.
Proof.
  intros S P. apply (srt_unique d); auto.
  - apply ordered_srt. eapply distinct_perm; eauto. eapply srt_distinct; eauto.
  - symmetry. etransitivity; [exact P|]. apply ordered_perm0.
Qed.

Lemma find_distinct k m e :
  distinct m -> In e m -> eqk lt (fst e) k = true ->
  List.find (fun e => eqk lt (fst e) k) m = Some e.
Proof.
  induction m as [|a m IH]; intros D I H; [destruct I|]. simpl.
  inversion D as [|? ? F D']; subst. destruct I as [->|I]; [rewrite H; auto|].
  destruct (eqk lt (fst a) k) eqn:Ea; auto. exfalso.
  rewrite Forall_forall in F. specialize (F _ I).
  rewrite (eqk_trans _ _ _ Ea) in F. rewrite eqk_sym in F. congruence.
Qed.

Lemma find_none k m : existsb (fun e => eqk lt (fst e) k) m = false ->
  List.find (fun e => eqk lt (fst e) k) m = None.
Proof.
  induction m as [|a m IH]; simpl; auto. destruct (eqk lt (fst a) k); simpl; auto. discriminate.
Qed.

Lemma lookup_in k m e : distinct m -> In e m -> eqk lt (fst e) k = true ->
  lookup lt k m = Some (snd e) /\ known lt k m = true.
Proof.
  intros D I H. unfold lookup, known. rewrite (find_distinct k m e) by auto. split; auto.
  apply existsb_exists. eauto.
Qed.

Lemma lookup_notin k m : known lt k m = false -> lookup lt k m = None.
Proof. unfold lookup, known. intros H. rewrite find_none; auto. Qed.

Lemma filter_all (f : E -> bool) l : Forall (fun e => f e = true) l -> filter f l = l.
Proof. induction 1 as [|a l H F IH]; simpl; auto. rewrite H. f_equal. auto. Qed.

Lemma filter_none (f : E -> bool) l : Forall (fun e => f e = false) l -> filter f l = [].
Proof. induction 1 as [|a l H F IH]; simpl; auto. rewrite H. auto. Qed.

Lemma existsb_none (f : E -> bool) l : Forall (fun e => f e = false) l -> existsb f l = false.
Proof. induction 1 as [|a l H F IH]; simpl; auto. rewrite H. auto. Qed.

Lemma srt_app_inv d l l' : srt d (l ++ l') -> srt d l /\ srt d l' /\
  forall a b, In a l -> In b l' -> before lt d (fst a) (fst b) = true.
Proof.
  unfold srt. induction l as [|a l IH]; simpl; intros H.
  - split; [constructor|split; auto]; intros; tauto.
  - inversion H as [|? ? Hs Hf]; subst. destruct (IH Hs) as (H1 & H2 & H3).
    rewrite Forall_app in Hf. destruct Hf as [F1 F2]. split; [constructor; auto|].
    split; auto. intros u v [->|Hu] Hv; auto. rewrite Forall_forall in F2; auto.
Qed.

(** in a sorted list at most one entry has a given key *)
Lemma srt_mid d l e l' k : srt d (l ++ e :: l') -> eqk lt (fst e) k = true ->
  Forall (fun f => eqk lt (fst f) k = false) l /\ Forall (fun f => eqk lt (fst f) k = false) l'.
Proof.
  intros S H. destruct (srt_app_inv _ _ _ S) as (_ & S2 & H3).
  inversion S2 as [|? ? S' F]; subst. rewrite !Forall_forall in *.
  assert (G : forall f : E, eqk lt (fst e) (fst f) = false -> eqk lt (fst f) k = false).
  { intros f Hf. rewrite (eqk_trans _ _ (fst f) H) in Hf. rewrite eqk_sym. auto. }
  split; intros f Hf; apply G.
  - rewrite eqk_sym. eapply before_eqk. apply H3; simpl; auto.
  - eapply before_eqk. apply F; auto.
Qed.

Lemma del_mid d l e l' k : srt d (l ++ e :: l') -> eqk lt (fst e) k = true ->
  del lt k (l ++ e :: l') = l ++ l'.
Proof.
  intros S H. destruct (srt_mid _ _ _ _ _ S H) as [F1 F2]. unfold del.
  rewrite filter_app. simpl. rewrite H. simpl. f_equal; apply filter_all.
  - eapply Forall_impl; [|exact F1]. simpl. intros a ->. auto.
  - eapply Forall_impl; [|exact F2]. simpl. intros a ->. auto.
Qed.

Lemma del_none l k : Forall (fun e => eqk lt (fst e) k = false) l -> del lt k l = l.
Proof. intros F. apply filter_all. eapply Forall_impl; [|exact F]. simpl. intros a ->. auto. Qed.

Lemma put_mid d l e l' k v : srt d (l ++ e :: l') -> eqk lt (fst e) k = true ->
  put lt k v (l ++ e :: l') = l ++ (fst e, v) :: l'.
Proof.
  intros S H. destruct (srt_mid _ _ _ _ _ S H) as [F1 F2]. unfold put.
  rewrite map_app. simpl. rewrite H.
  assert (G : forall q : list E, Forall (fun f => eqk lt (fst f) k = false) q ->
            map (fun e => if eqk lt (fst e) k then (fst e, v) else e) q = q).
  { induction 1 as [|a q Ha F IH]; simpl; auto. rewrite Ha. f_equal; auto. }
  rewrite !G; auto.
Qed.
End Lists.

(** ** The map *)
Section Map.
Context {K V : Type}.
Variable lt : K -> K -> bool.
Hypothesis SW : strict_weak lt.
Variable dummy : V.
Notation E := (K * V)%type.
Notation ltE := (ltKV (V:=V) lt).

Lemma SWE : strict_weak ltE.
Proof.
  constructor; unfold ltKV; intros.
  - apply (sw_irrefl _ SW).
  - eapply (sw_trans _ SW); eauto.
  - apply (sw_cotrans _ SW); auto.
Qed.

Record inv (s : map_t) (m : list E) : Prop := {
  i_bal : balanced (root s);
  i_sort : sorted ltE (elems (root s));
  i_uniq : uniq (root s);
  i_fresh : Forall (fun e => fst e < fresh s) (elems (root s));
  i_count : count s = length (elems (root s));
  i_perm : Permutation (map snd (elems (root s))) m
}.

Definition small (m : list E) : Prop := (N.of_nat (length m) < 2 ^ 44)%N.

Lemma inv_height s m : inv s m -> small m -> height (root s) <= 63.
Proof.
  intros I S. apply height_63; [apply I|]. unfold small in S.
  rewrite <- (Permutation_length (i_perm _ _ I)), map_length in S. auto.
Qed.

Lemma inv_empty : inv emptyAvl [].
Proof.
  constructor; simpl; auto; constructor.
Qed.

Lemma srt_map d (l : list (nat * E)) :
  StronglySorted (fun a b => before ltE d (snd a) (snd b) = true) l -> srt lt d (map snd l).
Proof.
  unfold srt. induction 1 as [|a l H IH F]; simpl; constructor; auto.
  rewrite Forall_map. eapply Forall_impl; [|exact F]. intros b. unfold before, ltKV. auto.
Qed.

Lemma elems_srt s m : inv s m -> srt lt false (map snd (elems (root s))).
Proof. intros I. apply srt_map. exact (ditems_sorted _ false (root s) (i_sort _ _ I)). Qed.

Lemma inv_distinct s m : inv s m -> distinct lt m.
Proof.
  intros I. eapply distinct_perm; [apply (i_perm _ _ I)|].
  eapply srt_distinct, elems_srt; eauto.
Qed.

Lemma node_in (t : tree E) i x : uniq t -> In (i, x) (elems t) ->
  exists b l r, node t i = Some (Node i x b l r).
Proof.
  induction t as [|j y b l IHl r IHr]; simpl; [tauto|]. intros U H.
  destruct (uniq_node _ _ _ _ _ U) as (Ul & Ur & N1 & N2 & D).
  rewrite in_app_iff in H. simpl in H. destruct H as [H|[H|H]].
  - pose proof (in_map fst _ _ H) as H2. simpl in H2.
    destruct (Nat.eqb_spec j i) as [->|N]; [tauto|].
    destruct (IHl Ul H) as (b' & l' & r' & ->). eauto.
  - injection H as -> ->. rewrite Nat.eqb_refl. eauto.
  - pose proof (in_map fst _ _ H) as H2. simpl in H2.
    destruct (Nat.eqb_spec j i) as [->|N]; [tauto|].
    rewrite node_none by eauto. eauto.
Qed.

Lemma peek_in (t : tree E) i x p d : uniq t -> In (i, x) (elems t) ->
  peek t (mkIter (i :: p) d) = Ok x.
Proof.
  intros U H. destruct (node_in _ _ _ U H) as (b & l & r & En).
  unfold peek, deref. cbn [path]. rewrite En. auto.
Qed.

Lemma rev_last (a : nat) p : exists q, rev (a :: p) = last (a :: p) 0 :: q.
Proof.
  exists (rev (removelast (a :: p))).
  assert (H : a :: p = removelast (a :: p) ++ [last (a :: p) 0])
    by (apply app_removelast_last; discriminate).
  rewrite H at 1. rewrite rev_app_distr. auto.
Qed.

Lemma known_perm k m m' : Permutation m m' -> known lt k m = known (V:=V) lt k m'.
Proof. apply perm_existsb. Qed.

(** the iterator given by an insertion refers to the entry *)
Definition refers (s : map_t) (it : iter) (x : E) : Prop :=
  exists i p, path it = i :: p /\ In (i, x) (elems (root s)) /\
    Forall (fun j => In j (map fst (elems (root s)))) (i :: p).

Lemma mapInsert_ok s m k v :
  inv s m -> small m ->
  exists s' it x, mapInsert lt s k v = Ok (s', it, known lt k m) /\
    inv s' (if known lt k m then m else (k, v) :: m) /\
    eqk lt (fst x) k = true /\ (known lt k m = false -> x = (k, v)) /\
    idir it = false /\ refers s' it x.
Proof.
  intros I Sm. pose proof (inv_height _ _ I Sm) as Hh.
  destruct (ins_ok ltE SWE (fresh s) (k, v) (root s) (i_bal _ _ I) (i_sort _ _ I))
    as (res & dn & p & E & Lp & Fp & H).
  unfold mapInsert, insert, insertNode. rewrite E. cbn [obind].
  destruct res as [t'|].
  - destruct H as (G & N & (l1 & l2 & E1 & E2 & F1 & F2) & (a & Ha & La)).
    rewrite Ha.
    replace (maxPathLen <? length (a :: p)) with false
      by (symmetry; apply Nat.ltb_ge; unfold maxPathLen; simpl; lia).
    cbn [obind].
    assert (Kn : known lt k m = false).
    { rewrite <- (known_perm _ _ _ (i_perm _ _ I)). apply existsb_none.
      rewrite E1, map_app, Forall_app, !Forall_map. split.
      - eapply Forall_impl; [|exact F1]. unfold ltKV. simpl. intros e He.
        apply (before_eqk lt false). auto.
      - eapply Forall_impl; [|exact F2]. unfold ltKV. simpl. intros e He.
        rewrite eqk_sym. apply (before_eqk lt false). auto. }
    rewrite Kn. destruct (rev_last a p) as [q Eq].
    eexists; eexists; exists (k, v). split; [reflexivity|]. split; [|split; [apply eqk_refl; auto|]].
    + pose proof (i_sort _ _ I) as Hs. pose proof (i_uniq _ _ I) as Hu.
      pose proof (i_fresh _ _ I) as Hf. pose proof (i_count _ _ I) as Hc.
      pose proof (i_perm _ _ I) as Hp. rewrite E1 in Hs, Hf, Hc, Hp. unfold uniq in Hu. rewrite E1 in Hu.
      constructor; cbn [root count fresh]; unfold uniq; rewrite ?E2.
      * apply G.
      * destruct (sorted_app_inv ltE _ _ Hs) as (H1 & H2 & H3).
        apply (sorted_app ltE); auto.
        -- constructor; auto.
        -- intros u w Hu1 [<-|Hw]; auto. rewrite Forall_forall in F1. apply F1; auto.
      * rewrite map_app in *. simpl.
        apply NoDup_Add with (a := fresh s) (l := map fst l1 ++ map fst l2); [apply Add_app|].
        split; auto. rewrite <- map_app. intros Hin. apply in_map_iff in Hin.
        destruct Hin as ([u w] & Eu & Hin). simpl in Eu. subst u.
        rewrite Forall_forall in Hf. specialize (Hf _ Hin). simpl in Hf. lia.
      * rewrite Forall_app in Hf. rewrite Forall_app. destruct Hf as [Hf1 Hf2].
        split; [|constructor; [simpl; lia|]]; eapply Forall_impl; try eassumption; simpl; lia.
      * rewrite app_length in *. simpl. lia.
      * rewrite map_app in *. simpl. rewrite <- Hp. symmetry. apply Permutation_middle.
    + split; auto. split; auto.
      exists (fresh s), q. cbn [path root]. split.
      * rewrite Eq, La. auto.
      * split.
        -- rewrite E2. apply in_or_app. right. simpl. auto.
        -- rewrite <- La, <- Eq. apply Forall_rev. constructor; auto.
           destruct t'; [discriminate|]. simpl in *. injection Ha as ->. rewrite map_app.
           apply in_or_app. simpl. auto.
  - destruct H as (j & y & Hin & Heq & (a & Ha & La)). rewrite Ha.
    replace (maxPathLen <? length (a :: p)) with false
      by (symmetry; apply Nat.ltb_ge; unfold maxPathLen; simpl; lia).
    cbn [obind].
    assert (Kn : known lt k m = true).
    { rewrite <- (known_perm _ _ _ (i_perm _ _ I)). apply existsb_exists.
      exists y. split; auto. apply in_map_iff. exists (j, y). auto. }
    rewrite Kn. destruct (rev_last a p) as [q Eq].
    eexists; eexists; exists y. split; [reflexivity|]. split; [|split; auto].
    + destruct I. constructor; cbn [root count fresh]; auto.
      eapply Forall_impl; [|eassumption]. simpl. lia.
    + split; [discriminate|]. split; auto.
      exists j, q. cbn [path root]. split.
      * rewrite Eq, La. auto.
      * split; auto. rewrite <- La, <- Eq. apply Forall_rev. constructor; auto.
        destruct (root s); [discriminate|]. simpl in *. injection Ha as ->. rewrite map_app.
        apply in_or_app. simpl. auto.
Qed.

Lemma setValue_ok s m it x k v :
  inv s m -> refers s it x -> eqk lt (fst x) k = true ->
  exists s', setValue s it v = Ok s' /\ inv s' (put lt k v m) /\ refers s' it (fst x, v).
Proof.
  intros I (i & p & Ep & Hin & F) Hk. unfold setValue. rewrite Ep.
  destruct (node_in _ _ _ (i_uniq _ _ I) Hin) as (b & l & r & En).
  unfold deref. rewrite En. cbn [obind]. eexists; split; [reflexivity|].
  destruct (in_split _ _ Hin) as (l1 & l2 & El).
  assert (El' : elems (modify (fun e : E => (fst e, v)) i (root s)) = l1 ++ (i, (fst x, v)) :: l2).
  { rewrite modify_elems, El. pose proof (i_uniq _ _ I) as U. unfold uniq in U. rewrite El in U.
    rewrite map_app in U. simpl in U. pose proof (NoDup_remove_2 _ _ _ U) as Ni.
    rewrite map_app. simpl. rewrite Nat.eqb_refl. rewrite in_app_iff in Ni.
    assert (G : forall q : list (nat * E), ~ In i (map fst q) ->
      map (fun e => if fst e =? i then (fst e, (fst (snd e), v)) else e) q = q).
    { induction q as [|[c d] q IH]; simpl; auto. intros Hq.
      destruct (Nat.eqb_spec c i); [tauto|]. f_equal. auto. }
    rewrite !G by tauto. auto. }
  assert (Ids : map fst (elems (modify (fun e : E => (fst e, v)) i (root s))) = map fst (elems (root s))).
  { rewrite El', El, !map_app. auto. }
  pose proof (i_sort _ _ I) as Hs. pose proof (i_fresh _ _ I) as Hf.
  pose proof (i_count _ _ I) as Hc. pose proof (i_perm _ _ I) as Hp.
  pose proof (elems_srt _ _ I) as Hsr. rewrite El in Hs, Hf, Hc, Hp, Hsr.
  split.
  - constructor; cbn [root count fresh].
    + apply modify_balanced, I.
    + rewrite El'. destruct (sorted_app_inv ltE _ _ Hs) as (H1 & H2 & H3).
      inversion H2 as [|? ? H4 H5]; subst. apply (sorted_app ltE); auto.
      * constructor; auto.
      * intros u w Hu [<-|Hw]; [apply (H3 u (i, x)); simpl; auto|apply H3; simpl; auto].
    + unfold uniq. rewrite Ids. apply I.
    + rewrite El'. rewrite Forall_app in *. destruct Hf as [Hf1 Hf2]. split; auto.
      inversion Hf2; subst. constructor; auto.
    + rewrite El', app_length in *. simpl in *. lia.
    + rewrite El', map_app in *. simpl in *.
      rewrite <- (put_mid lt SW false _ _ _ _ v Hsr Hk). unfold put. apply Permutation_map. auto.
  - exists i, p. cbn [root path]. split; auto. rewrite Ids. split; auto.
    rewrite El'. apply in_or_app. simpl. auto.
Qed.

Lemma mapErase_ok s m k :
  inv s m -> exists s', mapErase lt dummy s k = Ok (s', known lt k m) /\ inv s' (del lt k m).
Proof.
  intros I. unfold mapErase, erase.
  destruct (removeVal_ok ltE SWE (key dummy k) (root s) (i_bal _ _ I) (i_sort _ _ I))
    as (t' & rm & dn & E & H).
  rewrite E. cbn [obind]. destruct rm as [j|].
  - destruct H as (Sh & l1 & y & l2 & E1 & E2 & Eq).
    pose proof (i_sort _ _ I) as Hs. pose proof (i_uniq _ _ I) as Hu.
    pose proof (i_fresh _ _ I) as Hf. pose proof (i_count _ _ I) as Hc.
    pose proof (i_perm _ _ I) as Hp. pose proof (elems_srt _ _ I) as Hsr.
    rewrite E1 in Hs, Hf, Hc, Hp, Hsr. unfold uniq in Hu. rewrite E1 in Hu.
    assert (Hk : eqk lt (fst y) k = true) by exact Eq.
    assert (Kn : known lt k m = true).
    { rewrite <- (known_perm _ _ _ Hp). apply existsb_exists. exists y. split; auto.
      rewrite map_app. apply in_or_app. simpl. auto. }
    rewrite Kn. eexists; split; [reflexivity|]. constructor; cbn [root count fresh]; rewrite ?E2.
    + apply Sh.
    + destruct (sorted_app_inv ltE _ _ Hs) as (H1 & H2 & H3).
      inversion H2; subst. apply (sorted_app ltE); auto. intros. apply H3; simpl; auto.
    + unfold uniq. rewrite E2. rewrite map_app in *. simpl in Hu. eapply NoDup_remove_1; eauto.
    + rewrite Forall_app in *. destruct Hf as [Hf1 Hf2]. inversion Hf2; auto.
    + rewrite app_length in *. simpl in Hc. lia.
    + rewrite map_app in *. simpl in *. rewrite <- (del_mid lt SW false _ _ _ _ Hsr Hk).
      apply perm_filter. auto.
  - destruct H as (-> & -> & F).
    assert (F' : Forall (fun e => eqk lt (fst e) k = false) (map snd (elems (root s)))).
    { rewrite Forall_map. exact F. }
    assert (Kn : known lt k m = false).
    { rewrite <- (known_perm _ _ _ (i_perm _ _ I)). apply existsb_none. auto. }
    rewrite Kn. eexists; split; [reflexivity|]. destruct I. constructor; cbn [root count fresh]; auto.
    assert (Em : del lt k m = m).
    { apply del_none. eapply Permutation_Forall; eauto. }
    rewrite Em. auto.
Qed.

(** a sorted walk over the tree is the list of the entries in order *)
Lemma ditems_ordered s m d : inv s m -> map snd (ditems d (root s)) = ordered lt d m.
Proof.
  intros I. symmetry. apply ordered_ok; auto.
  - apply srt_map. apply (ditems_sorted ltE). apply I.
  - rewrite <- (i_perm _ _ I). apply Permutation_map. destruct d; simpl; auto.
    symmetry. apply Permutation_rev.
Qed.

Lemma ditems_length d (t : tree E) : length (ditems d t) = length (elems t).
Proof. destruct d; simpl; auto. apply rev_length. Qed.

Lemma rest_ok s m d p Q :
  inv s m -> small m -> itpos (root s) d p Q -> length Q <= length (elems (root s)) ->
  rest s (mkIter p d) = Ok (map snd Q).
Proof.
  intros I Sm H L. unfold rest. apply walk_ok; auto.
  - apply I.
  - pose proof (inv_height _ _ I Sm). unfold maxPathLen. lia.
  - rewrite nodeCount_elems. lia.
Qed.

Lemma srt_suffix d (P Q : list (nat * E)) :
  srt lt d (map snd (P ++ Q)) -> srt lt d (map snd Q).
Proof. rewrite map_app. intros H. apply srt_app_inv in H. tauto. Qed.

Lemma seekKey_ok s m k w d :
  inv s m -> small m ->
  exists p Q, seekIter ltE (root s) (k, w) d = Ok (mkIter p d, known lt k m) /\
    itpos (root s) d p Q /\ map snd Q = fromKey lt d k m /\
    length Q <= length (elems (root s)) /\
    (if known lt k m then exists i y Q', Q = (i, y) :: Q' /\ lookup lt k m = Some (snd y)
     else lookup lt k m = None).
Proof.
  intros I Sm. pose proof (inv_height _ _ I Sm) as Hh.
  destruct (seekIter_ok (root s) (i_uniq _ _ I) ltac:(unfold maxPathLen; lia) ltE SWE (i_sort _ _ I) (k, w) d)
    as (p & found & P & Q & E & Hp & Ed & FP & H).
  assert (Hd : Permutation (map snd (ditems d (root s))) m).
  { rewrite <- (i_perm _ _ I). apply Permutation_map. destruct d; simpl; auto.
    symmetry. apply Permutation_rev. }
  assert (Sd : srt lt d (map snd (ditems d (root s)))).
  { apply srt_map. apply (ditems_sorted ltE). apply I. }
  rewrite Ed in Hd, Sd.
  assert (FP' : Forall (fun e => before lt d (fst e) k = true) (map snd P)).
  { rewrite Forall_map. eapply Forall_impl; [|exact FP]. unfold bef, before, ltKV. simpl. auto. }
  assert (FQ : Forall (fun e => before lt d (fst e) k = false) (map snd Q)).
  { rewrite Forall_map. destruct found.
    - destruct H as (i & y & Q' & -> & Eq & F). constructor.
      + simpl. assert (Hy : eqk lt (fst y) k = true) by exact Eq.
        apply eqk_not in Hy. unfold before. destruct d; tauto.
      + eapply Forall_impl; [|exact F]. unfold bef, before, ltKV. simpl. intros e He.
        apply (before_asym lt SW d). unfold before. auto.
    - eapply Forall_impl; [|exact H]. unfold bef, before, ltKV. simpl. intros e He.
      apply (before_asym lt SW d). unfold before. auto. }
  assert (Kn : known lt k m = found).
  { rewrite <- (known_perm _ _ _ Hd). unfold known. rewrite map_app, existsb_app.
    rewrite existsb_none; [|eapply Forall_impl; [|exact FP']; simpl; intros e; apply before_eqk].
    simpl. destruct found.
    - destruct H as (i & y & Q' & -> & Eq & F). simpl. 
      assert (Hy : eqk lt (fst y) k = true) by exact Eq. rewrite Hy. auto.
    - apply existsb_none. rewrite Forall_map. eapply Forall_impl; [|exact H].
      intros e He. rewrite eqk_sym. apply (before_eqk lt d). 
      unfold bef, before, ltKV in *. simpl in He. auto. }
  exists p, Q. rewrite Kn. split; auto. split; auto. split; [|split].
  - unfold fromKey. symmetry. apply ordered_ok; auto; [eapply srt_suffix; eauto|].
    rewrite <- (perm_filter _ _ _ Hd). rewrite map_app, filter_app.
    rewrite (filter_none _ (map snd P)); [|eapply Forall_impl; [|exact FP']; simpl; intros e ->; auto].
    simpl. rewrite filter_all; auto. eapply Forall_impl; [|exact FQ]; simpl; intros e ->; auto.
  - rewrite <- (ditems_length d), Ed, app_length. lia.
  - destruct found.
    + destruct H as (i & y & Q' & -> & Eq & F). exists i, y, Q'. split; auto.
      apply lookup_in; auto.
      * eapply inv_distinct; eauto.
      * eapply Permutation_in; [exact Hd|]. rewrite map_app. apply in_or_app. right. simpl. auto.
    + apply lookup_notin. auto.
Qed.

Lemma mapSeek_ok s m k d :
  inv s m -> small m ->
  exists p Q, mapSeek lt dummy s k d = Ok (mkIter p d, known lt k m) /\
    itpos (root s) d p Q /\ map snd Q = fromKey lt d k m /\
    length Q <= length (elems (root s)) /\
    (if known lt k m then exists i y Q', Q = (i, y) :: Q' /\ lookup lt k m = Some (snd y)
     else lookup lt k m = None).
Proof. apply seekKey_ok. Qed.

Lemma mapFind_ok s m k :
  inv s m -> small m -> mapFind lt dummy s k = Ok (lookup lt k m).
Proof.
  intros I Sm. unfold mapFind, find.
  destruct (mapSeek_ok s m k false I Sm) as (p & Q & E & Hp & _ & _ & H).
  unfold mapSeek in E. rewrite E. cbn [obind]. destruct (known lt k m).
  - destruct H as (i & y & Q' & -> & ->). pose proof (inv_height _ _ I Sm) as Hh.
    destruct (getNext_ok (root s) (i_uniq _ _ I) ltac:(unfold maxPathLen; lia) _ _ _ _ _ Hp) as (p' & -> & _).
    reflexivity.
  - rewrite H. reflexivity.
Qed.

Lemma mapRef_ok s m k v :
  inv s m -> small m ->
  exists s' it x, mapRef lt s k v = Ok (s', it) /\
    inv s' (if known lt k m then m else (k, v) :: m) /\
    eqk lt (fst x) k = true /\ (known lt k m = false -> x = (k, v)) /\ refers s' it x.
Proof.
  intros I Sm. unfold mapRef.
  destruct (mapInsert_ok s m k v I Sm) as (s' & it & x & E & I' & Hk & Hx & Hd & R).
  rewrite E. cbn [obind]. exists s', it, x.
  destruct R as (i & p & Ep & Hin & F). destruct it as [pt dd]. cbn [path idir] in *. subst pt dd.
  unfold getNext. rewrite (peek_in _ _ _ _ _ (i_uniq _ _ I') Hin). cbn [obind path idir].
  destruct (goNext_total _ false _ F) as [p' ->]. cbn [obind].
  split; auto. split; auto. split; auto. split; auto. exists i, p. auto.
Qed.

(** the entry an iterator refers to is the looked up one *)
Lemma refers_lookup s m it x k : inv s m -> refers s it x -> eqk lt (fst x) k = true ->
  lookup lt k m = Some (snd x) /\ peek (root s) it = Ok x.
Proof.
  intros I (i & p & Ep & Hin & F) Hk. split.
  - apply lookup_in; auto; [eapply inv_distinct; eauto|].
    eapply Permutation_in; [apply (i_perm _ _ I)|]. apply in_map_iff. exists (i, x). auto.
  - destruct it as [pt dd]. cbn [path] in Ep. subst pt. apply peek_in; auto. apply I.
Qed.

Lemma known_put k v m : known (V:=V) lt k (put lt k v m) = known lt k m.
Proof.
  unfold known, put. induction m as [|e m IH]; simpl; auto. rewrite IH.
  destruct (eqk lt (fst e) k) eqn:Ee; simpl; rewrite Ee; auto.
Qed.

Lemma put_length k v m : length (put (V:=V) lt k v m) = length m.
Proof. apply map_length. Qed.

Lemma filter_length_le (f : E -> bool) (l : list E) : length (filter f l) <= length l.
Proof. induction l as [|a l IH]; simpl; auto. destruct (f a); simpl; lia. Qed.


Lemma filter_weaken (f g : E -> bool) l :
  (forall x, f x = true -> g x = true) -> filter f (filter g l) = filter f l.
Proof.
  intros H. induction l as [|a l IH]; simpl; auto. destruct (g a) eqn:Eg; simpl.
  - destruct (f a); rewrite IH; auto.
  - destruct (f a) eqn:Ef; auto. apply H in Ef. congruence.
Qed.

Lemma filter_and (f g : E -> bool) l :
  filter f (filter g l) = filter (fun x => f x && g x) l.
Proof.
  induction l as [|a l IH]; simpl; auto. destruct (g a) eqn:Eg; simpl.
  - destruct (f a); simpl; rewrite IH; auto.
  - rewrite andb_false_r. auto.
Qed.

Lemma fromKey_srt d k (m : list E) : distinct lt m -> srt lt d (fromKey lt d k m).
Proof.
  intros D. apply ordered_srt; auto. unfold distinct in *.
  induction D as [|a l F D IH]; simpl; [constructor|].
  destruct (negb _); auto. constructor; auto. clear - F.
  induction F as [|b l H F IH]; simpl; auto. destruct (negb _); auto.
Qed.

Lemma fromKey_next d k (m : list E) e q :
  distinct lt m -> fromKey lt d k m = e :: q ->
  fromKey lt d (fst e) (del lt (fst e) m) = q.
Proof.
  intros D H. pose proof (fromKey_srt d k m D) as S.
  assert (P : Permutation (e :: q) (filter (fun e => negb (before lt d (fst e) k)) m)).
  { rewrite <- H. unfold fromKey. symmetry. apply ordered_perm0. }
  rewrite H in S. inversion S as [|? ? Sq Fq]; subst.
  assert (He : before lt d (fst e) k = false).
  { assert (I : In e (e :: q)) by (simpl; auto). apply (Permutation_in _ P) in I.
    apply filter_In in I. destruct I as [_ I]. apply negb_true_iff in I. auto. }
  apply ordered_ok; auto. unfold del. rewrite filter_and.
  rewrite <- (filter_weaken _ (fun f => negb (before lt d (fst f) k))).
  - rewrite <- (perm_filter _ _ _ P). cbn [filter]. rewrite eqk_refl by auto.
    rewrite andb_false_r. rewrite filter_all; auto.
    eapply Forall_impl; [|exact Fq]. intros f Hf. cbv beta in Hf.
    rewrite (before_asym lt SW d _ _ Hf). rewrite eqk_sym, (before_eqk lt d _ _ Hf). auto.
  - intros f Hf. apply andb_true_iff in Hf. destruct Hf as [Hf _].
    apply negb_true_iff in Hf. apply negb_true_iff.
    destruct (before lt d (fst f) k) eqn:Ef; auto. exfalso.
    unfold before in *. destruct d.
    + destruct (sw_cotrans _ SW _ _ (fst e) Ef); congruence.
    + destruct (sw_cotrans _ SW _ _ (fst e) Ef); congruence.
Qed.

Lemma small_del k (m : list E) : small m -> small (del lt k m).
Proof.
  unfold small, del. intros H. pose proof (filter_length_le (fun e => negb (eqk lt (fst e) k)) m).
  eapply N.le_lt_trans; [|exact H]. clear H. lia.
Qed.

(** erasing by an iterator *)
Lemma eraseIter_ok s m d p i x Q :
  inv s m -> small m -> itpos (root s) d p ((i, x) :: Q) ->
  exists s' p' Q', eraseIter ltE s (mkIter p d) = Ok (s', mkIter p' d) /\
    inv s' (del lt (fst x) m) /\ itpos (root s') d p' Q' /\
    map snd Q' = fromKey lt d (fst x) (del lt (fst x) m) /\
    length Q' <= length (elems (root s')).
Proof.
  intros I Sm H. unfold eraseIter.
  destruct (peek_ok (root s) (i_uniq _ _ I) _ _ _ _ _ H) as (p0 & Ep & Pk). rewrite Pk.
  cbn [obind path idir].
  destruct H as [(_ & C)|(t & R & Vp & Hh)]; [discriminate|].
  destruct t as [|i' x' b l r].
  { destruct (vpath_addr _ _ _ _ _ Vp) as (? & ? & _ & ?). discriminate. }
  cbn [here] in Hh. injection Hh as -> -> Hh.
  destruct (removePath_ok (root s) (rev p) i x b l r (vpath_tpath _ _ _ _ _ Vp) (i_uniq _ _ I) (i_bal _ _ I))
    as (t' & dn & l1 & l2 & E & Sh & E1 & E2).
  rewrite E. cbn [obind].
  set (s' := mkAvl t' (pred (count s)) (fresh s)).
  assert (I' : inv s' (del lt (fst x) m)).
  { pose proof (i_sort _ _ I) as Hs. pose proof (i_uniq _ _ I) as Hu.
    pose proof (i_fresh _ _ I) as Hf. pose proof (i_count _ _ I) as Hc.
    pose proof (i_perm _ _ I) as Hp. pose proof (elems_srt _ _ I) as Hsr.
    rewrite E1 in Hs, Hf, Hc, Hp, Hsr. unfold uniq in Hu. rewrite E1 in Hu.
    unfold s'. constructor; cbn [root count fresh]; rewrite ?E2.
    - apply Sh.
    - destruct (sorted_app_inv ltE _ _ Hs) as (H1 & H2 & H3).
      inversion H2; subst. apply (sorted_app ltE); auto. intros. apply H3; simpl; auto.
    - unfold uniq. rewrite E2. rewrite map_app in *. simpl in Hu. eapply NoDup_remove_1; eauto.
    - rewrite Forall_app in *. destruct Hf as [Hf1 Hf2]. inversion Hf2; auto.
    - rewrite app_length in *. simpl in Hc. lia.
    - rewrite map_app in *. simpl in *.
      rewrite <- (del_mid lt SW false _ _ _ (fst x) Hsr (eqk_refl lt SW _)).
      apply perm_filter. auto. }
  destruct (seekKey_ok s' _ (fst x) (snd x) d I' (small_del _ _ Sm)) as (p' & Q' & Es & Hp' & Hq & Hl & _).
  rewrite <- surjective_pairing in Es. change t' with (root s'). rewrite Es. cbn [obind].
  exists s', p', Q'. auto.
Qed.

Lemma mstep_ok o s m :
  inv s m -> small m ->
  exists s', mstep lt dummy o s = Ok (s', snd (mspec lt o m)) /\ inv s' (fst (mspec lt o m)).
Proof.
  intros I Sm.
  destruct o as [k v|k v|k|k|k|k v|k v0 v| | | |d|k d|k d]; cbn [mstep mspec].
  - destruct (mapInsert_ok s m k v I Sm) as (s' & it & x & E & I' & _). rewrite E. cbn [obind].
    exists s'. destruct (known lt k m); auto.
  - unfold mapReplace.
    destruct (mapInsert_ok s m k v I Sm) as (s' & it & x & E & I' & Hk & Hx & Hd & R). rewrite E. cbn [obind].
    destruct (known lt k m) eqn:Kn.
    + destruct (setValue_ok s' m it x k v I' R Hk) as (s2 & E2 & I2 & R2). rewrite E2. cbn [obind].
      destruct (refers_lookup s2 _ it _ k I2 R2 Hk) as [_ ->]. exists s2. auto.
    + cbn [obind]. rewrite (Hx eq_refl) in *. clear Hx.
      destruct (refers_lookup s' _ it _ k I' R Hk) as [_ ->]. exists s'. auto.
  - destruct (mapErase_ok s m k I) as (s' & E & I'). rewrite E. exists s'. auto.
  - rewrite (mapFind_ok s m k I Sm). exists s. auto.
  - unfold mapAt. rewrite (mapFind_ok s m k I Sm). cbn [obind].
    destruct (lookup lt k m); exists s; auto.
  - destruct (mapRef_ok s m k v I Sm) as (s' & it & x & E & I' & Hk & Hx & R). rewrite E. cbn [obind].
    destruct (refers_lookup s' _ it _ k I' R Hk) as [L ->]. exists s'.
    destruct (known lt k m) eqn:Kn.
    + cbn [obind fst snd]. rewrite L. auto.
    + rewrite (Hx eq_refl). auto.
  - destruct (mapRef_ok s m k v0 I Sm) as (s' & it & x & E & I' & Hk & Hx & R). rewrite E. cbn [obind].
    destruct (setValue_ok s' _ it x k v I' R Hk) as (s2 & E2 & I2 & R2). rewrite E2. cbn [obind].
    exists s2. split; auto. cbn [fst]. destruct (known lt k m) eqn:Kn; auto.
    unfold put in I2. cbn [map fst] in I2. rewrite eqk_refl in I2 by auto.
    assert (Ep : map (fun e : K * V => if eqk lt (fst e) k then (fst e, v) else e) m = m).
    { clear - Kn. induction m as [|a m IH]; simpl in *; auto.
      destruct (eqk lt (fst a) k); [discriminate|]. rewrite IH; auto. }
    rewrite Ep in I2. auto.
  - exists s. unfold size. rewrite (i_count _ _ I).
    rewrite <- (Permutation_length (i_perm _ _ I)), map_length. auto.
  - exists s. split; auto. do 2 f_equal. unfold isEmpty. 
    pose proof (i_perm _ _ I) as Hp. destruct (root s) as [|i x b l r]; simpl in Hp.
    + apply Permutation_nil in Hp. subst. auto.
    + destruct m; auto. apply Permutation_sym, Permutation_nil in Hp.
      rewrite map_app in Hp. apply app_eq_nil in Hp. destruct Hp. discriminate.
  - exists (clear s). split; auto. destruct I. unfold clear. 
    constructor; cbn [root count fresh]; simpl; auto; constructor.
  - pose proof (inv_height _ _ I Sm) as Hh.
    pose proof (firstIter_ok (root s) ltac:(unfold maxPathLen; lia) d) as Hp.
    unfold firstIter in *. cbn [path] in Hp.
    rewrite (rest_ok s m d _ _ I Sm Hp); [|rewrite ditems_length; lia].
    cbn [obind]. rewrite (ditems_ordered s m d I). exists s. auto.
  - destruct (mapSeek_ok s m k d I Sm) as (p & Q & E & Hp & Eq & L & _). rewrite E. cbn [obind].
    rewrite (rest_ok s m d p _ I Sm Hp L). cbn [obind]. rewrite Eq. exists s. auto.
  - destruct (mapSeek_ok s m k d I Sm) as (p & Q & E & Hp & Eq & L & _). rewrite E. cbn [obind].
    destruct Q as [|[i x] Q].
    + apply itpos_nil in Hp. subst p. simpl in Eq. rewrite <- Eq. exists s. auto.
    + destruct (peek_ok (root s) (i_uniq _ _ I) _ _ _ _ _ Hp) as (p0 & Ep & _).
      unfold hasItems. cbn [path]. rewrite Ep in *.
      destruct (eraseIter_ok s m d _ i x Q I Sm Hp) as (s' & p' & Q' & Es & I' & Hp' & Eq' & L').
      rewrite Es. cbn [obind]. rewrite (rest_ok s' _ d p' Q' I' (small_del _ _ Sm) Hp' L').
      cbn [obind]. simpl in Eq. rewrite Eq'. 
      rewrite (fromKey_next d k m x (map snd Q)); [|eapply inv_distinct; eauto|auto].
      rewrite <- Eq. exists s'. auto.
Qed.

Lemma del_length k (m : list E) : length (del lt k m) <= length m.
Proof. apply filter_length_le. Qed.

Lemma inv_permut s m m' : inv s m -> Permutation m m' -> inv s m'.
Proof. intros [] P. constructor; auto. etransitivity; eauto. Qed.

Lemma mostEntries_hd os (m : list E) : length m <= mostEntries lt os m.
Proof. destruct os; simpl; lia. Qed.

Lemma msteps_ok os : forall s m,
  inv s m -> (N.of_nat (mostEntries lt os m) < 2 ^ 44)%N ->
  exists s', msteps lt dummy os s = Ok (s', snd (mspecs lt os m)) /\
             inv s' (fst (mspecs lt os m)) /\ small (fst (mspecs lt os m)).
Proof.
  induction os as [|o os IH]; intros s m I H.
  - exists s. simpl. auto.
  - cbn [msteps mspecs mostEntries] in *.
    assert (Sm : small m) by (unfold small; lia).
    destruct (mstep_ok o s m I Sm) as (s1 & E & I1). rewrite E. cbn [obind].
    destruct (mspec lt o m) as [m1 a]. cbn [fst snd] in *.
    destruct (IH s1 m1 I1 ltac:(lia)) as (s2 & E2 & I2 & L2). rewrite E2. cbn [obind].
    destruct (mspecs lt os m1) as [m2 l]. cbn [fst snd] in *. exists s2. auto.
Qed.

(** ** The whole map *)
Lemma walk_all s m d :
  inv s m -> small m -> rest s (firstIter (root s) d) = Ok (ordered lt d m).
Proof.
  intros I Sm. pose proof (inv_height _ _ I Sm) as Hh.
  pose proof (firstIter_ok (root s) ltac:(unfold maxPathLen; lia) d) as Hp.
  unfold firstIter in *. cbn [path] in Hp.
  rewrite (rest_ok s m d _ _ I Sm Hp); [|rewrite ditems_length; lia].
  rewrite (ditems_ordered s m d I). auto.
Qed.

Lemma perm_nil_union m2 : union (V:=V) lt [] m2 = m2.
Proof. unfold union. simpl. apply filter_all. induction m2; constructor; auto. Qed.

Lemma insertAll_ok l : forall s m,
  inv s m -> distinct lt l -> (N.of_nat (length m + length l) <= 2 ^ 44)%N ->
  exists s', insertAll ltE s l = Ok s' /\ inv s' (union lt m l).
Proof.
  induction l as [|[k v] l IH]; intros s m I D H.
  - exists s. split; auto. unfold union. simpl. rewrite app_nil_r. auto.
  - cbn [insertAll length] in *. inversion D as [|? ? F D']; subst.
    destruct (mapInsert_ok s m k v I ltac:(unfold small; lia)) as (s' & it & x & E & I' & _).
    unfold mapInsert in E. rewrite E. cbn [obind]. unfold union. cbn [filter fst].
    destruct (known lt k m) eqn:Kn; cbn [negb].
    + apply IH; auto. lia.
    + destruct (IH s' _ I' D' ltac:(simpl; lia)) as (s2 & E2 & I2). exists s2. split; auto.
      eapply inv_permut; [exact I2|]. unfold union. cbn [app].
      etransitivity; [|apply Permutation_middle]. constructor. apply Permutation_app_head.
      erewrite filter_ext_in; [reflexivity|]. intros [k' v'] Hin. unfold known. cbn [existsb fst].
      rewrite Forall_forall in F. specialize (F _ Hin). cbn [fst] in F. rewrite F. auto.
Qed.

Lemma eraseAll_ok l : forall s m,
  inv s m -> exists s', eraseAll lt dummy s l = Ok s' /\ inv s' (minus lt m l).
Proof.
  induction l as [|[k v] l IH]; intros s m I.
  - exists s. split; auto. unfold minus. rewrite filter_all; auto. clear. induction m; constructor; auto.
  - cbn [eraseAll fst]. destruct (mapErase_ok s m k I) as (s1 & E & I1). rewrite E. cbn [obind].
    destruct (IH s1 _ I1) as (s2 & E2 & I2). exists s2. split; auto.
    replace (minus lt m ((k, v) :: l)) with (minus lt (del lt k m) l); auto.
    unfold minus, del. rewrite filter_and. apply filter_ext. intros [k' v']. unfold known.
    cbn [existsb fst]. rewrite (eqk_sym lt k k'). rewrite negb_orb. apply andb_comm.
Qed.

Lemma ordered_length d (m : list E) : length (ordered lt d m) = length m.
Proof. symmetry. apply Permutation_length, ordered_perm0. Qed.

Lemma union_perm m m2 m2' : Permutation m2 m2' -> Permutation (union (V:=V) lt m m2) (union lt m m2').
Proof. intros P. unfold union. apply Permutation_app_head, perm_filter, P. Qed.

Lemma minus_perm m m2 m2' : Permutation m2 m2' -> minus (V:=V) lt m m2 = minus lt m m2'.
Proof.
  intros P. unfold minus. apply filter_ext. intros e. f_equal. apply known_perm; auto.
Qed.

Lemma plusAssign_ok s m s2 m2 :
  inv s m -> inv s2 m2 -> small m2 -> (N.of_nat (length m + length m2) <= 2 ^ 44)%N ->
  exists s', mapPlusAssign lt s s2 = Ok s' /\ inv s' (union lt m m2).
Proof.
  intros I I2 S2 H. unfold mapPlusAssign. rewrite (walk_all s2 m2 false I2 S2). cbn [obind].
  destruct (insertAll_ok (ordered lt false m2) s m I) as (s' & E & I').
  - eapply srt_distinct, ordered_srt; auto. eapply inv_distinct; eauto.
  - rewrite ordered_length. auto.
  - exists s'. split; auto. eapply inv_permut; eauto. apply union_perm. symmetry. apply ordered_perm0.
Qed.

Lemma minusAssign_ok s m s2 m2 :
  inv s m -> inv s2 m2 -> small m2 ->
  exists s', mapMinusAssign lt dummy s s2 = Ok s' /\ inv s' (minus lt m m2).
Proof.
  intros I I2 S2. unfold mapMinusAssign. rewrite (walk_all s2 m2 false I2 S2). cbn [obind].
  destruct (eraseAll_ok (ordered lt false m2) s m I) as (s' & E & I').
  exists s'. split; auto. rewrite (minus_perm m m2 (ordered lt false m2)); auto. apply ordered_perm0.
Qed.

Lemma copy_ok s m s0 :
  inv s m -> small m -> inv s0 [] -> exists s', insertTree ltE s0 s = Ok s' /\ inv s' m.
Proof.
  intros I Sm I0. unfold insertTree.
  destruct (plusAssign_ok s0 [] s m I0 I Sm) as (s' & E & I'); [unfold small in Sm; simpl; lia|].
  rewrite perm_nil_union in I'. exists s'. split; auto.
Qed.

Lemma inv_clear s m : inv s m -> inv (clear s) [].
Proof. intros []. constructor; simpl; auto; constructor. Qed.

(** ** Comparing *)
Lemma known_in k (l : list E) : known lt k l = true <-> exists e, In e l /\ eqk lt (fst e) k = true.
Proof. unfold known. apply existsb_exists. Qed.

Lemma srt_head_keys x (a b : list E) y :
  srt lt false (x :: a) -> srt lt false (y :: b) -> lt (fst x) (fst y) = true ->
  known lt (fst x) (y :: b) = false.
Proof.
  intros S1 S2 H. apply existsb_none. inversion S2 as [|? ? _ F]; subst. constructor.
  - rewrite eqk_sym. apply (before_eqk lt false). auto.
  - eapply Forall_impl; [|exact F]. intros e He. rewrite eqk_sym. apply (before_eqk lt false).
    unfold before in *. eapply (sw_trans _ SW); eauto.
Qed.

Lemma known_head x (a : list E) : known lt (fst x) (x :: a) = true.
Proof. unfold known. simpl. rewrite eqk_refl; auto. Qed.

Lemma compareKeys_eq (a : list E) : forall b, srt lt false a -> srt lt false b ->
  (compareKeys lt a b = Eq <-> sameKeys lt a b).
Proof.
  induction a as [|x a IH]; intros [|y b] Sa Sb; cbn [compareKeys].
  - split; auto. intros _ k. auto.
  - split; [discriminate|]. intros H. specialize (H (fst y)). rewrite known_head in H. discriminate.
  - split; [discriminate|]. intros H. specialize (H (fst x)). rewrite known_head in H. discriminate.
  - destruct (lt (fst x) (fst y)) eqn:E1; [|destruct (lt (fst y) (fst x)) eqn:E2].
    + split; [discriminate|]. intros H. specialize (H (fst x)). rewrite known_head in H.
      rewrite (srt_head_keys x a b y) in H; auto. discriminate.
    + split; [discriminate|]. intros H. specialize (H (fst y)). rewrite known_head in H.
      rewrite (srt_head_keys y b a x) in H; auto. discriminate.
    + assert (Exy : eqk lt (fst x) (fst y) = true) by (apply eqk_not; auto).
      inversion Sa as [|? ? Sa' Fa]; inversion Sb as [|? ? Sb' Fb]; subst.
      rewrite (IH b Sa' Sb'). unfold sameKeys, known. cbn [existsb]. split.
      * intros H k. rewrite (eqk_trans lt SW _ _ k Exy). f_equal. apply H.
      * intros H k. specialize (H k). rewrite (eqk_trans lt SW _ _ k Exy) in H.
        destruct (eqk lt (fst y) k) eqn:Ek; [|auto].
        assert (N : forall l, Forall (fun f : E => before lt false (fst y) (fst f) = true) l ->
                 existsb (fun e => eqk lt (fst e) k) l = false).
        { intros l F. apply existsb_none. eapply Forall_impl; [|exact F]. intros f Hf.
          apply before_eqk in Hf. rewrite (eqk_trans lt SW _ _ (fst f) Ek) in Hf.
          rewrite eqk_sym. auto. }
        rewrite (N b Fb). apply N. eapply Forall_impl; [|exact Fa]. unfold before. intros f Hf.
        rewrite <- (eqk_lt_l lt SW _ _ (fst f) Exy). auto.
Qed.

Lemma compareKeys_opp (a : list E) : forall b, compareKeys lt b a = CompOpp (compareKeys lt a b).
Proof.
  induction a as [|x a IH]; intros [|y b]; cbn [compareKeys]; auto.
  destruct (lt (fst x) (fst y)) eqn:E1, (lt (fst y) (fst x)) eqn:E2; auto.
  pose proof (sw_trans _ SW _ _ _ E1 E2) as C. rewrite (sw_irrefl _ SW) in C. discriminate.
Qed.

Lemma compareKeys_trans (a : list E) : forall b c,
  compareKeys lt a b <> Gt -> compareKeys lt b c <> Gt -> compareKeys lt a c <> Gt.
Proof.
  induction a as [|x a IH]; intros [|y b] [|z c]; cbn [compareKeys]; try congruence.
  intros H1 H2.
  destruct (lt (fst x) (fst y)) eqn:E1.
  - destruct (lt (fst y) (fst z)) eqn:E3.
    + rewrite (sw_trans _ SW _ _ _ E1 E3). discriminate.
    + destruct (lt (fst z) (fst y)) eqn:E4; [congruence|].
      assert (Eq : eqk lt (fst y) (fst z) = true) by (apply eqk_not; auto).
      rewrite <- (eqk_lt_r lt SW _ _ (fst x) Eq), E1. discriminate.
  - destruct (lt (fst y) (fst x)) eqn:E2; [congruence|].
    assert (Eq : eqk lt (fst x) (fst y) = true) by (apply eqk_not; auto).
    rewrite (eqk_lt_l lt SW _ _ (fst z) Eq), (eqk_lt_r lt SW _ _ (fst z) Eq).
    destruct (lt (fst y) (fst z)); [discriminate|].
    destruct (lt (fst z) (fst y)); [congruence|]. eapply IH; eauto.
Qed.

Lemma sameKeys_perm m m' n n' : Permutation m m' -> Permutation n n' ->
  (sameKeys (V:=V) lt m n <-> sameKeys lt m' n').
Proof.
  intros P Q. unfold sameKeys. split; intros H k.
  - rewrite <- (known_perm k _ _ P), <- (known_perm k _ _ Q). auto.
  - rewrite (known_perm k _ _ P), (known_perm k _ _ Q). auto.
Qed.

(** ** Visiting *)
Lemma visit_app {A S} (fn : A -> S -> S * bool) l1 l2 s :
  visit fn (l1 ++ l2) s = orElse (visit fn l1) (visit fn l2) s.
Proof.
  unfold orElse. revert s. induction l1 as [|x l1 IH]; intros s; simpl; auto.
  destruct (fn x s) as [s' st]. destruct st; auto.
Qed.

Lemma visit_one {A S} (fn : A -> S -> S * bool) x s : visit fn [x] s = fn x s.
Proof. simpl. destruct (fn x s) as [s' []]; auto. Qed.

Fixpoint itemsBy {A} (o : order) (t : tree A) : list A :=
  match t with
  | Leaf => []
  | Node _ x _ l r =>
      match o with
      | Forward => itemsBy o l ++ [x] ++ itemsBy o r
      | Backward => itemsBy o r ++ [x] ++ itemsBy o l
      | Up => itemsBy o l ++ itemsBy o r ++ [x]
      | Down => [x] ++ itemsBy o l ++ itemsBy o r
      end
  end.

Lemma orElse_ext {S} (f f' g g' : S -> S * bool) s :
  (forall s, f s = f' s) -> (forall s, g s = g' s) -> orElse f g s = orElse f' g' s.
Proof. intros H1 H2. unfold orElse. rewrite H1. destruct (f' s) as [? []]; auto. Qed.

Lemma forEach_visit {A S} (fn : A -> S -> S * bool) o (t : tree A) : forall s,
  forEach fn o t s = visit fn (itemsBy o t) s.
Proof.
  induction t as [|i x b l IHl r IHr]; intros s; cbn [forEach itemsBy]; auto.
  destruct o; rewrite !visit_app; apply orElse_ext; auto; intros s1;
    rewrite ?visit_app, ?visit_one; auto; apply orElse_ext; auto; intros s2; rewrite ?visit_one; auto.
Qed.

Lemma itemsBy_forward {A} (t : tree A) : itemsBy Forward t = map snd (elems t).
Proof.
  induction t as [|i x b l IHl r IHr]; simpl; auto. rewrite IHl, IHr, map_app. auto.
Qed.

Lemma itemsBy_backward {A} (t : tree A) : itemsBy Backward t = rev (map snd (elems t)).
Proof.
  induction t as [|i x b l IHl r IHr]; simpl; auto. rewrite IHl, IHr, map_app. simpl.
  rewrite rev_app_distr. simpl. rewrite <- app_assoc. auto.
Qed.

Lemma itemsBy_perm {A} o (t : tree A) : Permutation (itemsBy o t) (map snd (elems t)).
Proof.
  induction t as [|i x b l IHl r IHr]; simpl; auto. rewrite map_app. simpl.
  destruct o; rewrite IHl, IHr; auto.
  - rewrite Permutation_app_comm. simpl. etransitivity; [|apply Permutation_middle].
    constructor. apply Permutation_refl.
  - apply Permutation_app_head. rewrite Permutation_app_comm. auto.
  - apply Permutation_middle.
Qed.
End Map.
