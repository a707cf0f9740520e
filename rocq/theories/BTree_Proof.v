(** Proofs about the B-tree of BTree_Model: the keys in order, the shape of the
    nodes, and what each operation does with them. *)
From Verif Require Import Common Map_Spec BTree_Spec BTree_Model.
From Coq Require Import Sorted.
Local Open Scope nat_scope.

Section Weave.
Context {A B : Type}.
Variable f : A -> list B.
Fixpoint weave (ss : list A) (is : list B) : list B :=
  match ss with
  | [] => is
  | s :: ss' => f s ++ match is with [] => [] | x :: is' => x :: weave ss' is' end
  end.

Fixpoint pre (ss : list A) (is : list B) : list B :=
  match ss, is with
  | s :: ss', x :: is' => f s ++ x :: pre ss' is'
  | _, _ => []
  end.

Definition post (ss : list A) (is : list B) : list B :=
  match is with [] => [] | x :: is' => x :: weave ss is' end.

Lemma weave_split ss1 s ss2 is1 is2 : length ss1 = length is1 ->
  weave (ss1 ++ s :: ss2) (is1 ++ is2) = pre ss1 is1 ++ f s ++ post ss2 is2.
Proof.
  revert is1; induction ss1 as [|a ss1 IH]; intros [|x is1] H; simpl in *; try discriminate; auto.
  rewrite IH by lia. rewrite <- app_assoc. reflexivity.
Qed.

Lemma pre_last ss is : length ss = length is ->
  forall x, In x (pre ss is) ->
  exists is0 y p q, is = is0 ++ [y] /\ pre ss is = p ++ [y] /\ q = p /\ (In x p \/ x = y).
Proof.
  revert is; induction ss as [|s ss IH]; intros [|y is] H x Hx; simpl in *; try discriminate; try contradiction.
  destruct ss as [|s' ss], is as [|y' is]; try discriminate.
  - simpl in *. exists [], y, (f s), (f s). repeat split; auto.
    apply in_app_or in Hx as [Hx|[Hx|[]]]; auto.
  - assert (Hi : exists z, In z (pre (s' :: ss) (y' :: is))).
    { exists y'. simpl. apply in_or_app. right. left. reflexivity. }
    apply in_app_or in Hx as [Hx|[Hx|Hx]].
    + destruct Hi as [z Hz]. destruct (IH (y' :: is) ltac:(simpl in *; lia) z Hz) as (is0&w&p&q&E1&E2&_&_).
      exists (y :: is0), w, (f s ++ y :: p), (f s ++ y :: p). rewrite E2, E1. repeat split; auto.
      * rewrite <- app_assoc. reflexivity.
      * left. apply in_or_app. auto.
    + destruct Hi as [z Hz]. destruct (IH (y' :: is) ltac:(simpl in *; lia) z Hz) as (is0&w&p&q&E1&E2&_&_).
      exists (y :: is0), w, (f s ++ y :: p), (f s ++ y :: p). rewrite E2, E1. repeat split; auto.
      * rewrite <- app_assoc. reflexivity.
      * left. apply in_or_app. right; left; auto.
    + destruct (IH (y' :: is) ltac:(simpl in *; lia) x Hx) as (is0&w&p&q&E1&E2&_&D).
      exists (y :: is0), w, (f s ++ y :: p), (f s ++ y :: p). rewrite E2, E1. repeat split; auto.
      * rewrite <- app_assoc. reflexivity.
      * destruct D as [D| ->]; auto. left. apply in_or_app. right; right; auto.
Qed.

Definition total (ss : list A) : nat := fold_right (fun s a => length (f s) + a) 0 ss.

Lemma weave_length ss is : length ss = S (length is) \/ ss = [] ->
  length (weave ss is) = total ss + length is.
Proof.
  revert is; induction ss as [|s ss IH]; intros is H; [reflexivity|].
  destruct H as [H|]; [|discriminate].
  simpl. rewrite app_length. destruct is as [|x is]; simpl in *.
  - destruct ss; [simpl; lia|discriminate].
  - rewrite IH by (left; lia). lia.
Qed.

Lemma pre_length ss is : length ss = length is -> length (pre ss is) = total ss + length is.
Proof.
  revert is; induction ss as [|s ss IH]; intros [|x is] H; simpl in *; try discriminate; auto.
  rewrite app_length. simpl. rewrite IH by lia. lia.
Qed.
Lemma total_app a b : total (a ++ b) = total a + total b.
Proof. induction a; simpl; lia. Qed.
End Weave.

Section Proof.
Context {T : Type}.
Variable less : T -> T -> bool.
Hypothesis SW : strict_weak less.
Variable o : nat.
Hypothesis Ho : 2 <= o.
Local Notation node := (bnode T).

Fixpoint inorder (n : node) : list T :=
  let 'BN _ _ is ss := n in weave inorder ss is.

Definition Lt a b := less a b = true.
Definition sorted := StronglySorted Lt.

Fixpoint wf (h lo : nat) (n : node) : Prop :=
  let 'BN l sz is ss := n in
  lo <= length is <= 2 * o - 1 /\ sz = Z.of_nat (length (inorder n)) /\
  match h with
  | O => l = true /\ ss = []
  | S h' => l = false /\ length ss = S (length is) /\ Forall (wf h' (o - 1)) ss
  end.

Lemma Lt_trans a b c : Lt a b -> Lt b c -> Lt a c.
Proof. apply (sw_trans _ SW). Qed.
Lemma Lt_asym a b : Lt a b -> less b a = false.
Proof.
  intros H. destruct (less b a) eqn:E; auto.
  pose proof (sw_trans _ SW _ _ _ H E) as X. rewrite (sw_irrefl _ SW) in X. discriminate.
Qed.

Lemma sorted_app a b : sorted (a ++ b) <-> sorted a /\ sorted b /\ (forall x y, In x a -> In y b -> Lt x y).
Proof.
  unfold sorted. induction a as [|z a IH]; simpl.
  - split; [intros H; repeat split; auto; [constructor|intros x y []]|tauto].
  - split.
    + intros H. apply StronglySorted_inv in H as [H F]. apply IH in H as (Ha&Hb&Hab).
      rewrite Forall_app in F. destruct F as [F1 F2]. repeat split; auto.
      * constructor; auto.
      * rewrite Forall_forall in F2. intros x y [->|Hx] Hy; auto.
    + intros (Ha&Hb&Hab). apply StronglySorted_inv in Ha as [Ha F]. constructor.
      * apply IH. repeat split; auto.
      * apply Forall_app; split; auto. apply Forall_forall. auto.
Qed.

(** the key has its place between two parts of the sequence *)
Definition below (k : T) (l : list T) := forall x, In x l -> Lt x k.
Definition above (k : T) (l : list T) := forall x, In x l -> Lt k x.

Lemma enter_pre k a b : below k a -> enter less k (a ++ b) = a ++ enter less k b.
Proof.
  induction a as [|x a IH]; simpl; intros H; auto.
  rewrite (Lt_asym _ _ (H x (or_introl eq_refl))). rewrite IH; auto.
  intros y Hy. apply H; right; auto.
Qed.
Lemma enter_post k a b : above k b -> enter less k (a ++ b) = enter less k a ++ b.
Proof.
  induction a as [|x a IH]; simpl; intros H.
  - destruct b as [|y b]; auto. simpl. rewrite (H y (or_introl eq_refl)). reflexivity.
  - destruct (less k x); auto. rewrite IH; auto.
Qed.
Lemma enter_place k a b : below k a -> above k b -> enter less k (a ++ b) = a ++ k :: b.
Proof. intros Ha Hb. rewrite enter_pre, <- (app_nil_l b), enter_post by auto. reflexivity. Qed.
Lemma enter_length k l : length (enter less k l) = S (length l).
Proof. induction l as [|x l IH]; simpl; auto. destruct (less k x); simpl; auto. Qed.

Lemma member_false k l : member less k l = false <-> forall x, In x l -> less x k = true \/ less k x = true.
Proof.
  unfold member. induction l as [|y l IH]; simpl.
  - split; [intros _ x []|auto].
  - rewrite orb_false_iff, IH. unfold sameKey at 1.
    split.
    + intros [H1 H2] x [->|Hx]; auto. destruct (less x k), (less k x); simpl in H1; auto; discriminate.
    + intros H. split; auto. destruct (H y (or_introl eq_refl)) as [-> | ->]; simpl; auto. apply andb_false_r.
Qed.

(** a fresh key cuts a sorted sequence *)
Lemma fresh_cut k l : sorted l -> member less k l = false ->
  exists a b, l = a ++ b /\ below k a /\ above k b.
Proof.
  intros S M. rewrite member_false in M.
  induction l as [|x l IH].
  - exists [], []. repeat split; intros ? [].
  - apply StronglySorted_inv in S as [S F]. rewrite Forall_forall in F.
    destruct (less k x) eqn:E.
    + exists [], (x :: l). split; [reflexivity|]. split; [intros ? []|].
      intros y [<-|Hy]; auto. apply (Lt_trans _ x); auto; apply F; auto.
    + destruct IH as (a&b&->&Ha&Hb); auto. { intros y Hy; apply M; right; auto. }
      exists (x :: a), b. split; [reflexivity|]. split; [|exact Hb].
      intros y [<-|Hy]; auto. destruct (M x (or_introl eq_refl)); auto. congruence.
Qed.

Lemma enter_sorted k l : sorted l -> member less k l = false -> sorted (enter less k l).
Proof.
  intros S M. destruct (fresh_cut k l S M) as (a&b&->&Ha&Hb).
  rewrite enter_place by auto. apply sorted_app in S as (Sa&Sb&Sab).
  apply sorted_app. repeat split; auto.
  - constructor; auto. apply Forall_forall. auto.
  - intros x y Hx [<-|Hy]; auto.
Qed.

(** ** search in a node *)
Definition found_at k (l : list T) i := exists x, nth_error l i = Some x /\ less k x = false /\ less x k = false.
Definition cut_at k (l : list T) i := i <= length l /\ below k (firstn i l) /\ above k (skipn i l).

Lemma nth_split_at {A} (l : list A) i x : nth_error l i = Some x -> l = firstn i l ++ x :: skipn (S i) l.
Proof.
  revert i; induction l as [|a l IH]; intros [|i] H; simpl in *; try discriminate.
  - congruence.
  - rewrite <- (IH i H). reflexivity.
Qed.

Lemma skipn_S {A} (l : list A) i x : nth_error l i = Some x -> skipn i l = x :: skipn (S i) l.
Proof.
  revert i; induction l as [|a l IH]; intros [|i] H; simpl in *; try discriminate.
  - congruence.
  - apply IH; auto.
Qed.
Lemma firstn_S {A} (l : list A) i x : nth_error l i = Some x -> firstn (S i) l = firstn i l ++ [x].
Proof.
  revert i; induction l as [|a l IH]; intros [|i] H; try discriminate.
  - simpl in *. congruence.
  - change (firstn (S (S i)) (a :: l)) with (a :: firstn (S i) l). simpl in H. rewrite (IH i H). reflexivity.
Qed.

Lemma below_grow k l i x : sorted l -> nth_error l i = Some x -> Lt x k -> below k (firstn (S i) l).
Proof.
  intros S E L y Hy. rewrite (firstn_S _ _ _ E) in Hy.
  apply in_app_or in Hy as [Hy|[<-|[]]]; auto.
  rewrite (nth_split_at _ _ _ E) in S. apply sorted_app in S as (_&_&S).
  apply (Lt_trans _ x); auto; apply S; auto. left; auto.
Qed.
Lemma above_grow k l i x : sorted l -> nth_error l i = Some x -> Lt k x -> above k (skipn i l).
Proof.
  intros S E L y Hy. rewrite (skipn_S _ _ _ E) in Hy.
  destruct Hy as [<-|Hy]; auto.
  rewrite (nth_split_at _ _ _ E) in S. apply sorted_app in S as (_&S&_).
  apply StronglySorted_inv in S as [_ F]. rewrite Forall_forall in F.
  apply (Lt_trans _ x); auto; apply F; auto.
Qed.

Lemma linear_spec l k : linear less l k <= length l /\ below k (firstn (linear less l k) l) /\
  (forall x, nth_error l (linear less l k) = Some x -> less x k = false).
Proof.
  induction l as [|x l (I1&I2&I3)]; simpl.
  - repeat split; auto; [intros ? []|intros; discriminate].
  - destruct (less x k) eqn:E; simpl.
    + repeat split; auto; [lia|]. intros y [<-|Hy]; auto.
    + repeat split; [lia|intros ? []|]. intros y [= <-]. auto.
Qed.

Lemma binary_spec l k : sorted l -> forall fuel lo hi index,
  lo <= hi <= length l -> hi - lo <= fuel -> below k (firstn lo l) -> above k (skipn hi l) ->
  (index = Z.of_nat lo - 1 \/ index = Z.of_nat hi - 1)%Z ->
  (exists i, binary less fuel l k lo hi index = Ok (true, Z.of_nat i) /\ found_at k l i) \/
  (exists i, binary less fuel l k lo hi index = Ok (false, (Z.of_nat i - 1)%Z) /\ cut_at k l i).
Proof.
  intros So. induction fuel as [|fuel IH]; intros lo hi index B F Hb Ha Hi.
  - assert (lo = hi) by lia. subst hi. simpl. rewrite Nat.ltb_irrefl.
    right. exists lo. split; [destruct Hi; subst; reflexivity|]. repeat split; auto; lia.
  - cbn [binary]. destruct (Nat.ltb_spec lo hi) as [Hlt|Hge].
    + set (mid := (lo + hi) / 2).
      assert (Hm : lo <= mid < hi).
      { subst mid. split; [apply Nat.div_le_lower_bound; lia|apply Nat.div_lt_upper_bound; lia]. }
      clearbody mid. unfold at_.
      destruct (nth_error l mid) as [x|] eqn:E; [|apply nth_error_None in E; lia].
      cbn [obind]. destruct (less k x) eqn:L1.
      * apply IH; auto; try lia. apply (above_grow k l mid x); auto.
      * destruct (less x k) eqn:L2.
        -- replace (mid + 1) with (S mid) by lia. apply IH; auto; try lia.
           apply (below_grow k l mid x); auto.
        -- left. exists mid. split; auto. exists x. auto.
    + assert (lo = hi) by lia. subst hi.
      right. exists lo. split; [destruct Hi; subst; reflexivity|]. repeat split; auto; lia.
Qed.

Lemma search_spec l k : sorted l ->
  (exists i, search less l k = Ok (true, Z.of_nat i) /\ found_at k l i) \/
  (exists i, search less l k = Ok (false, (Z.of_nat i - 1)%Z) /\ cut_at k l i).
Proof.
  intros S. unfold search.
  destruct (length l <=? 7) eqn:E7.
  - destruct (length l =? 0) eqn:E0.
    + right. exists 0. split; auto. destruct l; [|discriminate]. repeat split; auto; intros ? [].
    + destruct (linear_spec l k) as (I1&I2&I3).
      destruct (nth_error l (linear less l k)) as [x|] eqn:E.
      * destruct (less k x) eqn:L; simpl.
        -- right. exists (linear less l k). split; auto. repeat split; auto.
           apply (above_grow k l _ x); auto.
        -- left. exists (linear less l k). split; auto. exists x. auto.
      * right. exists (linear less l k). split; auto. repeat split; auto.
        apply nth_error_None in E. rewrite skipn_all2 by lia. intros ? [].
  - apply binary_spec; auto; try lia.
    + intros ? [].
    + rewrite skipn_all. intros ? [].
Qed.

(** ** the parts of a node *)
Lemma upd_mid {A} (a : list A) x b y : upd (a ++ x :: b) (length a) y = a ++ y :: b.
Proof. induction a; simpl; auto. f_equal; auto. Qed.

Lemma items_in ss is x : length ss = S (length is) \/ ss = [] -> In x is -> In x (weave inorder ss is).
Proof.
  revert is; induction ss as [|s ss IH]; intros is H Hx; simpl; auto.
  destruct H as [H|]; [|discriminate]. destruct is as [|y is]; [destruct Hx|].
  apply in_or_app. right. destruct Hx as [->|Hx]; [left; auto|right].
  apply IH; [left; simpl in H; lia|auto].
Qed.

Lemma items_sorted ss is : length ss = S (length is) \/ ss = [] -> sorted (weave inorder ss is) -> sorted is.
Proof.
  revert is; induction ss as [|s ss IH]; intros is H Hs; simpl in *; auto.
  destruct H as [H|]; [|discriminate]. destruct is as [|y is]; [constructor|].
  apply sorted_app in Hs as (_&Hs&_). apply StronglySorted_inv in Hs as [Hs F].
  assert (H' : length ss = S (length is) \/ ss = []) by (left; simpl in H; lia).
  constructor; [apply IH; auto|].
  rewrite Forall_forall in *. intros x Hx. apply F. apply items_in; auto.
Qed.

Lemma wf_shape h lo n : wf h lo n -> length (bsubs n) = S (length (bitems n)) \/ bsubs n = [].
Proof. destruct n as [l sz is ss], h; simpl; tauto. Qed.

Lemma wf_inorder n : inorder n = weave inorder (bsubs n) (bitems n).
Proof. destruct n; reflexivity. Qed.

Lemma wf_sorted h lo n : wf h lo n -> sorted (inorder n) -> sorted (bitems n).
Proof.
  intros W S. apply wf_shape in W. rewrite wf_inorder in S. eapply items_sorted; eauto.
Qed.

Lemma wf_size h lo n : wf h lo n -> subtreeSize n = Z.of_nat (length (inorder n)).
Proof. destruct n, h; simpl; tauto. Qed.

Lemma wf_leaf h lo n : wf h lo n -> isLeaf n = (h =? 0).
Proof. destruct n, h; simpl; intros (_&_&->&_); auto. Qed.

Lemma wf_weaken h lo lo' n : wf h lo n -> lo' <= lo -> wf h lo' n.
Proof. destruct n, h; simpl; intuition lia. Qed.

Lemma sizes_total h lo ss : Forall (wf h lo) ss -> sizes ss = Z.of_nat (total inorder ss).
Proof.
  induction 1 as [|s ss W _ IH]; simpl; auto.
  rewrite (wf_size _ _ _ W), IH. lia.
Qed.

Lemma split_list {A} (l : list A) i s : nth_error l i = Some s ->
  exists a b, l = a ++ s :: b /\ length a = i.
Proof. intros H. apply nth_error_split in H. exact H. Qed.

(** the child at a place: the keys left of it, its own and those right of it *)
Lemma node_at h lo n i : wf (S h) lo n -> i <= length (bitems n) ->
  exists ss1 s ss2, bsubs n = ss1 ++ s :: ss2 /\ length ss1 = i /\ nth_error (bsubs n) i = Some s /\
    wf h (o - 1) s /\ Forall (wf h (o - 1)) ss1 /\ Forall (wf h (o - 1)) ss2 /\
    firstn i (bsubs n) = ss1 /\ skipn (S i) (bsubs n) = ss2 /\
    inorder n = pre inorder ss1 (firstn i (bitems n)) ++ inorder s ++ post inorder ss2 (skipn i (bitems n)).
Proof.
  destruct n as [l sz is ss]. intros (_&_&_&L&F) Hi. cbn [bitems bsubs] in *.
  destruct (nth_error ss i) as [s|] eqn:E; [|apply nth_error_None in E; lia].
  destruct (split_list _ _ _ E) as (a&b&->&La). subst i.
  exists a, s, b. rewrite Forall_app, Forall_cons_iff in F. destruct F as (Fa&Fs&Fb).
  repeat split; auto.
  - rewrite firstn_app, Nat.sub_diag, firstn_all. apply app_nil_r.
  - rewrite skipn_app, skipn_all2 by lia. replace (S (length a) - length a) with 1 by lia. reflexivity.
  - cbn [inorder]. rewrite <- (firstn_skipn (length a) is) at 1. apply weave_split.
    rewrite firstn_length. lia.
Qed.

Lemma pre_below k ss is : length ss = length is -> sorted (pre inorder ss is) -> below k is -> below k (pre inorder ss is).
Proof.
  intros L S B x Hx. destruct (pre_last inorder ss is L x Hx) as (is0&y&p&q&E1&E2&_&D).
  assert (Hy : Lt y k) by (apply B; rewrite E1; apply in_or_app; right; left; auto).
  destruct D as [D| ->]; auto. rewrite E2 in S. apply sorted_app in S as (_&_&S).
  apply (Lt_trans _ y); auto; apply S; auto; left; auto.
Qed.

Lemma post_above k ss is : sorted (post inorder ss is) -> above k is -> above k (post inorder ss is).
Proof.
  intros S B x Hx. destruct is as [|y is]; simpl in *; [destruct Hx|].
  assert (Hy : Lt k y) by (apply B; left; auto).
  destruct Hx as [<-|Hx]; auto.
  apply StronglySorted_inv in S as [_ F]. rewrite Forall_forall in F. apply (Lt_trans _ y); auto; apply F; auto.
Qed.

Lemma node_cut h lo n k i : wf (S h) lo n -> sorted (inorder n) -> cut_at k (bitems n) i ->
  exists ss1 s ss2, bsubs n = ss1 ++ s :: ss2 /\ length ss1 = i /\ nth_error (bsubs n) i = Some s /\
    wf h (o - 1) s /\ Forall (wf h (o - 1)) ss1 /\ Forall (wf h (o - 1)) ss2 /\
    inorder n = pre inorder ss1 (firstn i (bitems n)) ++ inorder s ++ post inorder ss2 (skipn i (bitems n)) /\
    below k (pre inorder ss1 (firstn i (bitems n))) /\ above k (post inorder ss2 (skipn i (bitems n))) /\
    sorted (inorder s).
Proof.
  intros W S (L&B&A). destruct (node_at h lo n i W L) as (ss1&s&ss2&E1&E2&E3&Ws&F1&F2&_&_&E).
  exists ss1, s, ss2. repeat (split; [assumption|]).
  rewrite E in S. apply sorted_app in S as (S1&S&_). apply sorted_app in S as (Ss&S2&_).
  repeat split; auto.
  - apply pre_below; auto. rewrite firstn_length. lia.
  - apply post_above; auto.
Qed.

Lemma below_not k l : below k l -> forall x, In x l -> sameKey less x k = false /\ less x k = true.
Proof. intros B x Hx. unfold sameKey. rewrite (B x Hx). auto. Qed.
Lemma above_not k l : above k l -> forall x, In x l -> sameKey less x k = false /\ less x k = false.
Proof.
  intros B x Hx. unfold sameKey. rewrite (B x Hx), (Lt_asym _ _ (B x Hx)). auto.
Qed.

Lemma find_pre k a b : below k a -> List.find (fun x => sameKey less x k) (a ++ b) = List.find (fun x => sameKey less x k) b.
Proof.
  induction a as [|x a IH]; intros B; auto. simpl.
  rewrite (proj1 (below_not _ _ B x (or_introl eq_refl))). apply IH. intros y Hy; apply B; right; auto.
Qed.
Lemma find_post k a b : above k b -> List.find (fun x => sameKey less x k) (a ++ b) = List.find (fun x => sameKey less x k) a.
Proof.
  intros B. induction a as [|x a IH]; simpl.
  - induction b as [|y b IH]; auto. simpl. rewrite (proj1 (above_not _ _ B y (or_introl eq_refl))).
    apply IH. intros z Hz; apply B; right; auto.
  - rewrite IH. reflexivity.
Qed.
Lemma filter_pre k a b : below k a -> filter (fun x => less x k) (a ++ b) = a ++ filter (fun x => less x k) b.
Proof.
  induction a as [|x a IH]; intros B; auto. simpl.
  rewrite (proj2 (below_not _ _ B x (or_introl eq_refl))). f_equal. apply IH. intros y Hy; apply B; right; auto.
Qed.
Lemma filter_post k a b : above k b -> filter (fun x => less x k) (a ++ b) = filter (fun x => less x k) a.
Proof.
  intros B. rewrite filter_app. replace (filter (fun x => less x k) b) with (@nil T); [apply app_nil_r|].
  symmetry. induction b as [|y b IH]; auto. simpl. rewrite (proj2 (above_not _ _ B y (or_introl eq_refl))).
  apply IH. intros z Hz; apply B; right; auto.
Qed.
Lemma filterN_pre k a b : below k a -> filter (fun x => negb (less x k)) (a ++ b) = filter (fun x => negb (less x k)) b.
Proof.
  induction a as [|x a IH]; intros B; auto. simpl.
  rewrite (proj2 (below_not _ _ B x (or_introl eq_refl))). apply IH. intros y Hy; apply B; right; auto.
Qed.
Lemma filterN_above k b : above k b -> filter (fun x => negb (less x k)) b = b.
Proof.
  induction b as [|y b IH]; intros B; auto. simpl. rewrite (proj2 (above_not _ _ B y (or_introl eq_refl))).
  simpl. f_equal. apply IH. intros z Hz; apply B; right; auto.
Qed.

(** the equal key of a sorted sequence *)
Lemma equal_key k a x b : sorted (a ++ x :: b) -> less k x = false -> less x k = false -> below k a /\ above k b.
Proof.
  intros S E1 E2. apply sorted_app in S as (_&S&Sab). apply StronglySorted_inv in S as [_ F].
  rewrite Forall_forall in F. split; intros y Hy.
  - destruct (sw_cotrans _ SW y x k); auto; [|congruence]. apply Sab; auto. left; auto.
  - destruct (sw_cotrans _ SW x y k); auto; [|congruence]. apply F; auto.
Qed.

Lemma find_equal k a x b : sorted (a ++ x :: b) -> less k x = false -> less x k = false ->
  List.find (fun x => sameKey less x k) (a ++ x :: b) = Some x.
Proof.
  intros S E1 E2. destruct (equal_key k a x b S E1 E2) as [B A].
  rewrite find_pre by auto. simpl. unfold sameKey. rewrite E1, E2. reflexivity.
Qed.
Lemma filter_equal k a x b : sorted (a ++ x :: b) -> less k x = false -> less x k = false ->
  filter (fun x => less x k) (a ++ x :: b) = a.
Proof.
  intros S E1 E2. destruct (equal_key k a x b S E1 E2) as [B A].
  rewrite filter_pre by auto. simpl. rewrite E2.
  rewrite <- (app_nil_l b), filter_post by auto. apply app_nil_r.
Qed.

Lemma wf_height h : forall lo n, wf h lo n -> height n = S h.
Proof.
  induction h as [|h IH]; intros lo [l sz is ss]; simpl.
  - intros (_&_&_&->). reflexivity.
  - intros (_&_&_&L&F). destruct ss as [|s ss]; [discriminate|].
    apply Forall_cons_iff in F as [Ws _]. f_equal. eapply IH; eauto.
Qed.

Lemma pos_index i : Z.to_nat (Z.of_nat i - 1 + 1) = i.
Proof. lia. Qed.

Lemma cut_leaf n lo : wf 0 lo n -> inorder n = bitems n.
Proof. destruct n as [l sz is ss]. simpl. intros (_&_&_&->). reflexivity. Qed.

Lemma findIn_ok k : forall h lo n fuel, wf h lo n -> sorted (inorder n) -> h < fuel ->
  findIn less fuel n k = Ok (List.find (fun x => sameKey less x k) (inorder n)).
Proof.
  induction h as [|h IH]; intros lo n fuel W S Hf; destruct fuel as [|fuel]; try lia; cbn [findIn];
  destruct (search_spec (bitems n) k (wf_sorted _ _ _ W S)) as [(i&->&x&E&E1&E2)|(i&->&C)]; cbn [obind].
  - rewrite Nat2Z.id. unfold at_. rewrite E. cbn [obind]. rewrite (cut_leaf n lo W) in *.
    assert (Sp := nth_split_at _ _ _ E). rewrite Sp in S. rewrite Sp. rewrite find_equal; auto.
  - rewrite (wf_leaf _ _ _ W). simpl. rewrite (cut_leaf n lo W) in *.
    destruct C as (_&B&A). rewrite <- (firstn_skipn i (bitems n)), find_pre by auto.
    rewrite <- (app_nil_l (skipn i _)), find_post by auto. reflexivity.
  - rewrite Nat2Z.id. unfold at_. rewrite E. cbn [obind].
    assert (Hx : In x (inorder n)).
    { rewrite wf_inorder. apply items_in; [eapply wf_shape; eauto|]. eapply nth_error_In; eauto. }
    apply in_split in Hx as (a&b&Ex). rewrite Ex in *. rewrite find_equal; auto.
  - rewrite (wf_leaf _ _ _ W). cbn [Nat.eqb]. rewrite pos_index.
    destruct (node_cut h lo n k i W S C) as (ss1&s&ss2&E1&E2&E3&Ws&_&_&E&B&A&Ss).
    unfold at_. rewrite E3. cbn [obind]. rewrite (IH (o - 1) s fuel) by (auto; lia).
    rewrite E, find_pre, find_post by auto. reflexivity.
Qed.

Lemma total_pre ss1 is : length ss1 = length is -> total inorder ss1 + length is = length (pre inorder ss1 is).
Proof. intros H. rewrite pre_length; auto. Qed.

Lemma rankOfIn_ok k : forall h lo n fuel c, wf h lo n -> sorted (inorder n) -> h < fuel ->
  rankOfIn less fuel n k c = Ok (c + Z.of_nat (length (filter (fun x => less x k) (inorder n))))%Z.
Proof.
  induction h as [|h IH]; intros lo n fuel c W S Hf; destruct fuel as [|fuel]; try lia; cbn [rankOfIn];
  destruct (search_spec (bitems n) k (wf_sorted _ _ _ W S)) as [(i&->&x&E&E1&E2)|(i&->&C)]; cbn [obind];
  rewrite (wf_leaf _ _ _ W); cbn [Nat.eqb].
  - rewrite (cut_leaf n lo W) in *.
    assert (Sp := nth_split_at _ _ _ E). rewrite Sp in S. rewrite Sp. rewrite filter_equal; auto.
    rewrite firstn_length. assert (i < length (bitems n)) by (apply nth_error_Some; congruence).
    f_equal. lia.
  - rewrite (cut_leaf n lo W) in *.
    destruct C as (L&B&A). rewrite <- (firstn_skipn i (bitems n)), filter_pre by auto.
    rewrite <- (app_nil_l (skipn i _)), filter_post by auto. simpl. rewrite app_nil_r, firstn_length. f_equal. lia.
  - assert (Hi : i < length (bitems n)) by (apply nth_error_Some; congruence).
    destruct (node_at h lo n i W ltac:(lia)) as (ss1&s&ss2&F1&F2&F3&Ws&G1&G2&_&_&F).
    rewrite (skipn_S _ _ _ E) in F. cbn [post] in F. rewrite app_assoc in F.
    rewrite F in S |- *. rewrite filter_equal by auto.
    replace (Z.to_nat (Z.of_nat i + 1)) with (Datatypes.S i) by lia.
    rewrite (firstn_S _ _ _ F3), F1, <- F2, firstn_app, Nat.sub_diag, firstn_all. cbn [firstn]. rewrite app_nil_r.
    rewrite (sizes_total h (o - 1)) by (apply Forall_app; auto).
    rewrite total_app, app_length, pre_length by (rewrite firstn_length; lia).
    cbn [total fold_right]. rewrite firstn_length. f_equal. lia.
  - destruct (node_cut h lo n k i W S C) as (ss1&s&ss2&E1&E2&E3&Ws&G1&G2&E&B&A&Ss).
    rewrite pos_index. unfold at_. rewrite E3. cbn [obind]. rewrite (IH (o - 1) s fuel) by (auto; lia).
    rewrite E, filter_pre, filter_post by auto.
    rewrite E1, <- E2, firstn_app, Nat.sub_diag, firstn_all. cbn [firstn]. rewrite app_nil_r.
    rewrite (sizes_total h (o - 1)) by auto.
    destruct C as (L&_).
    rewrite app_length, pre_length by (rewrite firstn_length; lia).
    rewrite firstn_length. f_equal. lia.
Qed.

(** ** keys by rank *)
Lemma rankScan_ok h : forall ss is i r, Forall (wf h (o - 1)) ss -> length ss = S (length is) ->
  r < length (weave inorder ss is) ->
  (exists j, rankScan ss (length is) i (Z.of_nat r) = Ok (inl (i + j)) /\
     nth_error (weave inorder ss is) r = nth_error is j /\ j < length is) \/
  (exists j s r', rankScan ss (length is) i (Z.of_nat r) = Ok (inr (i + j, Z.of_nat r')) /\
     nth_error ss j = Some s /\ nth_error (weave inorder ss is) r = nth_error (inorder s) r' /\
     r' < length (inorder s)).
Proof.
  induction ss as [|s ss IH]; intros is i r F L Hr; [discriminate|].
  apply Forall_cons_iff in F as [Ws F].
  destruct is as [|x is]; cbn [length rankScan weave] in *.
  - right. exists 0, s, r. rewrite app_nil_r in *. rewrite Nat.add_0_r. auto.
  - rewrite (wf_size _ _ _ Ws). rewrite app_length in Hr. cbn [length] in Hr.
    destruct (Z.of_nat (length (inorder s)) >? Z.of_nat r)%Z eqn:E1.
    + right. exists 0, s, r. rewrite Nat.add_0_r. rewrite nth_error_app1 by lia. repeat split; auto; lia.
    + destruct (Z.of_nat r - Z.of_nat (length (inorder s)) =? 0)%Z eqn:E2.
      * left. exists 0. rewrite Nat.add_0_r. rewrite nth_error_app2 by lia.
        replace (r - length (inorder s)) with 0 by lia. repeat split; auto; lia.
      * replace (Z.of_nat r - Z.of_nat (length (inorder s)) - 1)%Z with (Z.of_nat (r - length (inorder s) - 1)) by lia.
        destruct (IH is (Datatypes.S i) (r - length (inorder s) - 1) F ltac:(lia) ltac:(lia))
          as [(j&E3&E4&Hj)|(j&s'&r'&E3&E4&E5&Hj)].
        -- left. exists (Datatypes.S j). rewrite E3. repeat split; [f_equal; f_equal; lia| |lia].
           rewrite nth_error_app2 by lia. replace (r - length (inorder s)) with (Datatypes.S (r - length (inorder s) - 1)) by lia.
           simpl. exact E4.
        -- right. exists (Datatypes.S j), s', r'. rewrite E3. repeat split; auto; [f_equal; f_equal; f_equal; lia|].
           rewrite nth_error_app2 by lia. replace (r - length (inorder s)) with (Datatypes.S (r - length (inorder s) - 1)) by lia.
           simpl. exact E5.
Qed.

Lemma rankIn_ok : forall h lo n fuel r, wf h lo n -> h < fuel -> r < length (inorder n) ->
  exists x, rankIn fuel n (Z.of_nat r) = Ok x /\ nth_error (inorder n) r = Some x.
Proof.
  induction h as [|h IH]; intros lo n fuel r W Hf Hr; destruct fuel as [|fuel]; try lia; cbn [rankIn];
    rewrite (wf_leaf _ _ _ W); cbn [Nat.eqb].
  - rewrite (cut_leaf n lo W) in *.
    destruct (nth_error (bitems n) r) as [x|] eqn:E; [|apply nth_error_None in E; lia].
    exists x. replace (Z.of_nat r <? 0)%Z with false by lia. rewrite Nat2Z.id. unfold at_. rewrite E. auto.
  - destruct n as [l sz is ss]. destruct W as (_&_&_&L&F). cbn [bsubs bitems keyCount inorder isLeaf] in *.
    unfold keyCount. cbn [bitems].
    destruct (rankScan_ok h ss is 0 r F L Hr) as [(j&->&E&Hj)|(j&s&r'&->&E1&E&Hj)]; cbn [obind Nat.add].
    + destruct (nth_error is j) as [x|] eqn:Ej; [|apply nth_error_None in Ej; lia].
      exists x. unfold at_. rewrite Ej. auto.
    + unfold at_. rewrite E1. cbn [obind]. rewrite E. eapply IH; eauto; [|lia].
      rewrite Forall_forall in F. apply F. eapply nth_error_In; eauto.
Qed.

(** ** adding a key *)
Lemma weave_join A C m B D : length A = S (length C) ->
  weave inorder (A ++ B) (C ++ m :: D) = weave inorder A C ++ m :: weave inorder B D.
Proof.
  revert A; induction C as [|c C IH]; intros [|a A] L; try discriminate; simpl in L.
  - destruct A; [|discriminate]. simpl. rewrite app_nil_r. reflexivity.
  - simpl. rewrite IH by lia. rewrite <- app_assoc. reflexivity.
Qed.

Lemma at_ok {A} (l : list A) i x : nth_error l i = Some x -> at_ l i = Ok x.
Proof. unfold at_. intros ->. reflexivity. Qed.

Lemma insertAt_ok {A} (l : list A) i x : length l < 2 * o -> i <= length l ->
  insertAt o l i x = Ok (firstn i l ++ x :: skipn i l).
Proof.
  intros H1 H2. unfold insertAt. replace (length l <? 2 * o) with true by (symmetry; apply Nat.ltb_lt; auto).
  replace (i <=? length l) with true by (symmetry; apply Nat.leb_le; auto). reflexivity.
Qed.

Lemma full_split h y : wf h (o - 1) y -> length (bitems y) = 2 * o - 1 ->
  exists med, nth_error (bitems y) (o - 1) = Some med /\
  let zi := firstn (o - 1) (skipn o (bitems y)) in
  let zsub := firstn o (skipn o (bsubs y)) in
  let zsize := (sizes zsub + Z.of_nat (length zi))%Z in
  let z := BN (isLeaf y) zsize zi zsub in
  let y' := BN (isLeaf y) (subtreeSize y - (zsize + 1)) (firstn (o - 1) (bitems y)) (firstn o (bsubs y)) in
  wf h (o - 1) z /\ wf h (o - 1) y' /\ length (bitems z) = o - 1 /\ length (bitems y') = o - 1 /\
  inorder y = inorder y' ++ med :: inorder z.
Proof.
  destruct y as [l sz is ss]. intros W L. cbn [bitems bsubs isLeaf subtreeSize] in *.
  destruct (nth_error is (o - 1)) as [med|] eqn:E; [|apply nth_error_None in E; lia].
  exists med. split; auto.
  assert (Es := nth_split_at _ _ _ E). replace (S (o - 1)) with o in Es by lia.
  assert (Lz : length (skipn o is) = o - 1) by (rewrite skipn_length; lia).
  rewrite (firstn_all2 (skipn o is)) by lia.
  assert (Sz := wf_size _ _ _ W). cbn [subtreeSize] in Sz.
  assert (Ly : length (firstn (o - 1) is) = o - 1) by (rewrite firstn_length; lia).
  assert (Hin : forall A B : list node, ss = A ++ B -> (length A = o \/ ss = []) ->
                weave inorder ss is = weave inorder A (firstn (o - 1) is) ++ med :: weave inorder B (skipn o is)).
  { intros A B -> HA. rewrite Es at 1. destruct HA as [HA|HA].
    - apply weave_join. lia.
    - apply app_eq_nil in HA as [-> ->]. reflexivity. }
  destruct h as [|h].
  - destruct W as (_&_&->&->). rewrite skipn_nil, firstn_nil.
    specialize (Hin [] [] eq_refl (or_intror eq_refl)).
    cbn [inorder] in Sz. rewrite Hin in Sz. simpl in Hin, Sz |- *. rewrite app_length in Sz. simpl in Sz.
    rewrite Lz, Ly in *. repeat split; try lia; auto.
  - destruct W as (_&_&->&Ls&F).
    assert (LB : length (skipn o ss) = o) by (rewrite skipn_length; lia).
    assert (LA : length (firstn o ss) = o) by (rewrite firstn_length; lia).
    rewrite (firstn_all2 (skipn o ss)) by lia.
    specialize (Hin (firstn o ss) (skipn o ss) (eq_sym (firstn_skipn o ss)) (or_introl LA)).
    rewrite <- (firstn_skipn o ss) in F. apply Forall_app in F as [FA FB].
    cbn [inorder] in Sz. rewrite Hin in Sz. rewrite app_length in Sz. cbn [length] in Sz.
    assert (HZ : length (weave inorder (skipn o ss) (skipn o is)) = total inorder (skipn o ss) + (o - 1)).
    { rewrite weave_length by (left; lia). lia. }
    cbn [wf inorder bitems length]. rewrite (sizes_total h (o - 1)) by auto.
    rewrite Lz, Ly, LA, LB in *. repeat split; auto; try lia.
Qed.

Lemma splitChild_ok h lo n i y : wf (S h) lo n -> length (bitems n) <= 2 * o - 2 ->
  nth_error (bsubs n) i = Some y -> length (bitems y) = 2 * o - 1 ->
  exists n1 med y' z, splitChild o n i y = Ok n1 /\ wf (S h) lo n1 /\ inorder n1 = inorder n /\
    bitems n1 = firstn i (bitems n) ++ med :: skipn i (bitems n) /\
    nth_error (bsubs n1) i = Some y' /\ nth_error (bsubs n1) (i + 1) = Some z /\
    length (bitems z) = o - 1 /\ length (bitems y') = o - 1.
Proof.
  intros W L E Ly.
  assert (Hi : i <= length (bitems n)).
  { assert (i < length (bsubs n)) by (apply nth_error_Some; congruence).
    destruct n. simpl in *. lia. }
  destruct (node_at h lo n i W Hi) as (ss1&s&ss2&E1&E2&E3&Ws&F1&F2&G1&G2&EI).
  rewrite E in E3. injection E3 as <-.
  destruct (full_split h y Ws Ly) as (med&Em&Hs). cbv zeta in Hs.
  set (zi := firstn (o - 1) (skipn o (bitems y))) in *.
  set (zsub := firstn o (skipn o (bsubs y))) in *.
  set (zsize := (sizes zsub + Z.of_nat (length zi))%Z) in *.
  set (z := BN (isLeaf y) zsize zi zsub) in *.
  set (y' := BN (isLeaf y) (subtreeSize y - (zsize + 1)) (firstn (o - 1) (bitems y)) (firstn o (bsubs y))) in *.
  destruct Hs as (Wz&Wy&Lz&Ly'&Ey).
  destruct n as [l sz is ss], y as [yl ys yi ysub]. cbn [bitems bsubs isLeaf subtreeSize splitChild] in *.
  rewrite (at_ok _ _ _ Em). cbn [obind].
  fold zi zsub. fold zsize. fold z y'.
  destruct W as (B&Sz&->&Lss&F).
  rewrite insertAt_ok by lia. cbn [obind].
  assert (Hu : upd ss i y' = ss1 ++ y' :: ss2) by (rewrite E1, <- E2; apply upd_mid).
  assert (Hn : firstn (i + 1) (upd ss i y') = ss1 ++ [y'] /\ skipn (i + 1) (upd ss i y') = ss2).
  { rewrite Hu. replace (i + 1) with (length (ss1 ++ [y'])) by (rewrite app_length; simpl; lia).
    replace (ss1 ++ y' :: ss2) with ((ss1 ++ [y']) ++ ss2) by (rewrite <- app_assoc; reflexivity).
    rewrite firstn_app, skipn_app, Nat.sub_diag, firstn_all, skipn_all. simpl. rewrite app_nil_r. auto. }
  rewrite insertAt_ok by (rewrite upd_length; lia). cbn [obind].
  destruct Hn as [-> ->]. rewrite <- app_assoc. cbn [app].
  assert (Hin : weave inorder (ss1 ++ y' :: z :: ss2) (firstn i is ++ med :: skipn i is) = weave inorder ss is).
  { rewrite weave_split by (rewrite firstn_length; lia). cbn [post weave].
    change (weave inorder ss is) with (inorder (BN false sz is ss)). rewrite EI, Ey.
    rewrite <- !app_assoc. reflexivity. }
  eexists _, med, y', z. split; [reflexivity|].
  split; [|split; [exact Hin|]].
  - cbn [wf inorder]. rewrite Hin. cbn [inorder] in Sz. split.
    { rewrite app_length. cbn [length]. rewrite firstn_length, skipn_length. lia. }
    split; [exact Sz|]. split; [reflexivity|]. split.
    { rewrite !app_length. cbn [length]. rewrite firstn_length, skipn_length.
      assert (length ss = length ss1 + S (length ss2)) by (rewrite E1, app_length; reflexivity). lia. }
    apply Forall_app; split; auto.
  - cbn [bitems bsubs]. split; [reflexivity|]. rewrite <- E2.
    repeat split; auto.
    + rewrite nth_error_app2, Nat.sub_diag by lia. reflexivity.
    + rewrite nth_error_app2 by lia. replace (length ss1 + 1 - length ss1) with 1 by lia. reflexivity.
Qed.

Lemma rebuild h lo n i s s' : wf (S h) lo n -> nth_error (bsubs n) i = Some s -> wf h (o - 1) s' ->
  length (inorder s') = S (length (inorder s)) ->
  wf (S h) lo (BN (isLeaf n) (subtreeSize n + 1) (bitems n) (upd (bsubs n) i s')).
Proof.
  intros W E W' L.
  assert (Hi : i <= length (bitems n)).
  { assert (i < length (bsubs n)) by (apply nth_error_Some; congruence).
    destruct n. simpl in *. lia. }
  destruct (node_at h lo n i W Hi) as (ss1&s0&ss2&E1&E2&E3&Ws&F1&F2&G1&G2&EI).
  rewrite E in E3. injection E3 as <-.
  assert (Sz := wf_size _ _ _ W).
  assert (Hl : length (inorder (BN (isLeaf n) (subtreeSize n + 1) (bitems n) (upd (bsubs n) i s'))) = S (length (inorder n))).
  { rewrite EI. cbn [inorder]. rewrite E1, <- E2, upd_mid.
    rewrite <- (firstn_skipn (length ss1) (bitems n)) at 1.
    rewrite weave_split by (rewrite firstn_length; lia). rewrite !app_length. lia. }
  destruct n as [l sz is ss]. cbn [isLeaf subtreeSize bitems bsubs] in *.
  destruct W as (B&_&->&Lss&F). cbn [wf]. rewrite Hl. split; auto. split; [lia|].
  split; auto. rewrite upd_length. split; auto.
  rewrite E1, <- E2, upd_mid. apply Forall_app; auto.
Qed.

Lemma rebuild_order h lo n k i s : wf (S h) lo n -> sorted (inorder n) -> cut_at k (bitems n) i ->
  nth_error (bsubs n) i = Some s ->
  sorted (inorder s) /\ (forall x, In x (inorder s) -> In x (inorder n)) /\
  forall s' l sz, inorder s' = enter less k (inorder s) ->
    inorder (BN l sz (bitems n) (upd (bsubs n) i s')) = enter less k (inorder n).
Proof.
  intros W S C E. destruct (node_cut h lo n k i W S C) as (ss1&s0&ss2&E1&E2&E3&Ws&F1&F2&EI&B&A&Ss).
  rewrite E in E3. injection E3 as <-. split; auto. split.
  { intros x Hx. rewrite EI. apply in_or_app. right. apply in_or_app. auto. }
  intros s' l sz E'. rewrite EI, enter_pre, enter_post by auto. rewrite <- E'.
  cbn [inorder]. rewrite E1, <- E2, upd_mid.
  rewrite <- (firstn_skipn (length ss1) (bitems n)) at 1.
  destruct C as (L&_). rewrite weave_split by (rewrite firstn_length; lia). rewrite E2. reflexivity.
Qed.

Lemma fresh_found k l i : found_at k l i -> member less k l = false -> False.
Proof.
  intros (x&E&E1&E2) M. rewrite member_false in M. apply nth_error_In in E.
  destruct (M x E); congruence.
Qed.

Lemma insert_ok k : forall h lo n room, wf h lo n -> length (bitems n) <= 2 * o - 2 ->
  sorted (inorder n) -> member less k (inorder n) = false -> h < room ->
  exists n', insertNonFull less o room n k = Ok (n', true) /\ wf h lo n' /\ inorder n' = enter less k (inorder n).
Proof.
  induction h as [|h IH]; intros lo n room W Ln S M Hr; destruct room as [|room]; try lia; cbn [insertNonFull];
  (destruct (search_spec (bitems n) k (wf_sorted _ _ _ W S)) as [(i&->&C)|(i&->&C)];
   [exfalso; destruct C as (x&E&E1&E2); rewrite member_false in M;
    destruct (M x) as [|]; try congruence; rewrite wf_inorder; apply items_in;
    [eapply wf_shape; eauto|eapply nth_error_In; eauto]|]); cbn [obind];
  rewrite (wf_leaf _ _ _ W); cbn [Nat.eqb]; rewrite pos_index.
  - rewrite insertAt_ok by (destruct C; lia). cbn [obind].
    eexists. split; [reflexivity|].
    assert (EI := cut_leaf n lo W).
    assert (E : firstn i (bitems n) ++ k :: skipn i (bitems n) = enter less k (bitems n)).
    { destruct C as (_&B&A). rewrite <- (firstn_skipn i (bitems n)) at 3. rewrite enter_place; auto. }
    rewrite E. rewrite EI in *. destruct n as [l sz is ss]. destruct W as (B&Sz&->&->).
    cbn [bitems bsubs subtreeSize wf inorder weave] in *. rewrite enter_length. repeat split; auto; lia.
  - destruct (node_cut h lo n k i W S C) as (_&y&_&_&_&Ey&Wy&_).
    rewrite (at_ok _ _ _ Ey). cbn [obind].
    destruct (keyCount y =? 2 * o - 1) eqn:Ek; unfold keyCount in Ek.
    + destruct (splitChild_ok h lo n i y W Ln Ey ltac:(apply Nat.eqb_eq; auto)) as (n1&med&y'&z&->&W1&I1&B1&Ny&Nz&Lz&Ly).
      cbn [obind].
      assert (Lf : length (firstn i (bitems n)) = i) by (rewrite firstn_length; destruct C; lia).
      assert (Em : nth_error (bitems n1) i = Some med).
      { rewrite B1, nth_error_app2 by lia. rewrite Lf, Nat.sub_diag. reflexivity. }
      rewrite (at_ok _ _ _ Em). cbn [obind].
      assert (Hm : In med (inorder n)).
      { rewrite <- I1, wf_inorder. apply items_in; [eapply wf_shape; eauto|eapply nth_error_In; eauto]. }
      assert (S1 : sorted (bitems n1)) by (apply (wf_sorted _ _ _ W1); rewrite I1; auto).
      assert (HH : exists j s, (if negb (less k med) then i + 1 else i) = j /\ nth_error (bsubs n1) j = Some s /\
                   length (bitems s) = o - 1 /\ cut_at k (bitems n1) j).
      { destruct (less k med) eqn:Lm; simpl.
        - exists i, y'. repeat split; auto.
          + rewrite B1, app_length. simpl. lia.
          + rewrite B1, firstn_app, Lf, Nat.sub_diag. simpl. rewrite app_nil_r.
            rewrite firstn_firstn, Nat.min_id. destruct C as (_&Cb&_); auto.
          + apply (above_grow k _ i med); auto.
        - exists (i + 1), z. repeat split; auto.
          + rewrite B1, app_length. simpl. lia.
          + replace (i + 1) with (Datatypes.S i) by lia. apply (below_grow k _ i med); auto.
            rewrite member_false in M. destruct (M med Hm); auto. congruence.
          + rewrite B1, skipn_app, Lf. replace (i + 1 - i) with 1 by lia. simpl.
            rewrite skipn_all2 by lia. destruct C as (_&_&Ca). exact Ca. }
      destruct HH as (j&s&->&Es&Ls&Cj).
      rewrite (at_ok _ _ _ Es). cbn [obind].
      destruct (rebuild_order h lo n1 k j s W1 ltac:(rewrite I1; auto) Cj Es) as (Ss&Sub&Reb).
      destruct (IH (o - 1) s room) as (s'&->&W'&I'); try lia; auto.
      { assert (j <= length (bitems n1)) by (destruct Cj; auto).
        destruct (node_at h lo n1 j W1 H) as (?&s0&?&_&_&E0&W0&_). congruence. }
      { rewrite member_false in M |- *. intros x Hx. apply M. rewrite <- I1. auto. }
      cbn [obind]. eexists. split; [reflexivity|]. split.
      * apply (rebuild h lo n1 j s s'); auto. rewrite I', enter_length. reflexivity.
      * rewrite <- I1. apply Reb. exact I'.
    + cbn [obind]. rewrite (at_ok _ _ _ Ey). cbn [obind].
      destruct (rebuild_order h lo n k i y W S C Ey) as (Ss&Sub&Reb).
      assert (length (bitems y) <= 2 * o - 1) by (destruct y, h; simpl in Wy |- *; lia).
      destruct (IH (o - 1) y room) as (s'&->&W'&I'); try lia; auto.
      { rewrite member_false in M |- *. intros x Hx. apply M. auto. }
      cbn [obind]. eexists. split; [reflexivity|]. split.
      * apply (rebuild h lo n i y s'); auto. rewrite I', enter_length. reflexivity.
      * apply Reb. exact I'.
Qed.

(** ** the height *)
Lemma wf_many h : forall n, wf h 1 n -> 2 ^ (S h) <= S (length (inorder n)).
Proof.
  induction h as [|h IH]; intros n W.
  - rewrite (cut_leaf n 1 W). destruct n as [l sz is ss]. simpl in *. lia.
  - destruct n as [l sz is ss]. destruct W as (B&_&_&L&F). cbn [inorder].
    rewrite weave_length by auto.
    destruct ss as [|a [|b ss]]; simpl in L; try lia.
    apply Forall_cons_iff in F as [Wa F]. apply Forall_cons_iff in F as [Wb _].
    assert (Ha := IH a (wf_weaken _ _ 1 _ Wa ltac:(lia))).
    assert (Hb := IH b (wf_weaken _ _ 1 _ Wb ltac:(lia))).
    cbn [total fold_right]. rewrite Nat.pow_succ_r'. lia.
Qed.

Definition limit : N := 2 ^ 50.

Lemma wf_low h n : wf h 1 n -> (N.of_nat (length (inorder n)) <= limit)%N -> h < 50.
Proof.
  intros W L. apply wf_many in W.
  destruct (Nat.lt_ge_cases h 50) as [|Hge]; auto. exfalso.
  assert (H : (N.of_nat (2 ^ S h) <= N.of_nat (S (length (inorder n))))%N) by lia.
  rewrite Nat2N.inj_pow in H.
  assert ((2 ^ 51 <= N.of_nat 2 ^ N.of_nat (S h))%N) by (change (N.of_nat 2) with 2%N; apply N.pow_le_mono_r; lia).
  assert (E2 : (2 ^ 51 = 2 * limit)%N) by reflexivity.
  assert (E3 : (2 < limit)%N) by reflexivity. generalize dependent limit. intros lim L E2 E3.
  rewrite E2 in *. lia.
Qed.
End Proof.
