(** Lemmas about the iterators of the AVL tree. *)
From Verif Require Import Common Avl_Model Map_Spec Avl_Proof.
From Coq Require Import Sorting.Sorted.

Local Arguments Nat.max : simpl never.

Section Iter.
Context {A : Type}.
Implicit Types t s : tree A.

Definition uniq t : Prop := NoDup (map fst (elems t)).

(** the items in the direction of a walk *)
Definition ditems (d : bool) t : list (nat * A) := if d then rev (elems t) else elems t.

Lemma ditems_node d i x b l r :
  ditems d (Node i x b l r) =
  ditems d (link d (Node i x b l r)) ++ (i, x) :: ditems d (link (negb d) (Node i x b l r)).
Proof.
  destruct d; simpl; auto. rewrite rev_app_distr. simpl. rewrite <- app_assoc. auto.
Qed.

Lemma addr_none t : addr t = None -> t = Leaf.
Proof. destruct t; simpl; congruence. Qed.

Lemma addr_in t i : addr t = Some i -> In i (map fst (elems t)).
Proof.
  destruct t; simpl; [discriminate|]. intros [= ->]. rewrite map_app, in_app_iff. simpl. auto.
Qed.

Lemma uniq_node i x b l r :
  uniq (Node i x b l r) ->
  uniq l /\ uniq r /\ ~ In i (map fst (elems l)) /\ ~ In i (map fst (elems r)) /\
  (forall j, In j (map fst (elems l)) -> In j (map fst (elems r)) -> False).
Proof.
  unfold uniq. simpl. rewrite map_app. simpl. intros H.
  pose proof (NoDup_remove_1 _ _ _ H) as H1. pose proof (NoDup_remove_2 _ _ _ H) as H2.
  rewrite in_app_iff in H2.
  assert (G : forall (l1 l2 : list nat), NoDup (l1 ++ l2) ->
            NoDup l1 /\ NoDup l2 /\ forall j, In j l1 -> In j l2 -> False).
  { clear. induction l1 as [|a l1 IH]; simpl; intros l2 H.
    - split; [constructor|]. auto.
    - inversion H as [|? ? Ha Hn]; subst. destruct (IH _ Hn) as (I1 & I2 & I3).
      rewrite in_app_iff in Ha. split; [constructor; auto|]. split; auto.
      intros j [->|Hj] Hj2; auto. eauto. }
  destruct (G _ _ H1) as (G1 & G2 & G3). repeat split; auto.
Qed.

(** ** Subtrees *)
Inductive subtree (t : tree A) : tree A -> Prop :=
| sub_refl : subtree t t
| sub_link s d : subtree t s -> subtree t (link d s).

Lemma subtree_trans t s u : subtree t s -> subtree s u -> subtree t u.
Proof. intros H. induction 1; auto. constructor; auto. Qed.

Lemma subtree_cases t u : subtree t u ->
  u = t \/ (exists d, t <> Leaf /\ subtree (link d t) u).
Proof.
  induction 1 as [|s d H [->|(e & N & IH)]]; auto.
  - destruct t; [auto|]. right. exists d. split; [discriminate|constructor].
  - right. exists e. split; auto. constructor; auto.
Qed.

Lemma subtree_elems t s : subtree t s -> exists P Q, elems t = P ++ elems s ++ Q.
Proof.
  induction 1 as [|s d H (P & Q & E)].
  - exists [], []. rewrite app_nil_r. auto.
  - destruct s as [|i x b l r]; [simpl; eauto|].
    simpl in E. destruct d; cbn [link].
    + exists (P ++ elems l ++ [(i, x)]), Q. rewrite E.
      repeat rewrite <- ?app_assoc, <- ?app_comm_cons; simpl. auto.
    + exists P, ((i, x) :: elems r ++ Q). rewrite E.
      repeat rewrite <- ?app_assoc, <- ?app_comm_cons; simpl. auto.
Qed.

Lemma subtree_ids t s i : subtree t s -> In i (map fst (elems s)) -> In i (map fst (elems t)).
Proof.
  intros H Hi. destruct (subtree_elems _ _ H) as (P & Q & E). rewrite E.
  rewrite !map_app, !in_app_iff. auto.
Qed.

Lemma uniq_subtree t s : uniq t -> subtree t s -> uniq s.
Proof.
  intros U. induction 1 as [|s d H IH]; auto.
  destruct s as [|i x b l r]; simpl; auto.
  destruct (uniq_node _ _ _ _ _ IH) as (U1 & U2 & _). destruct d; auto.
Qed.

Lemma node_none t i : ~ In i (map fst (elems t)) -> node t i = None.
Proof.
  induction t as [|j x b l IHl r IHr]; simpl; auto. rewrite map_app, in_app_iff. simpl. intros H.
  destruct (Nat.eqb_spec j i) as [->|N]; [tauto|]. rewrite IHl, IHr; auto.
Qed.

Lemma node_subtree t s i : uniq t -> subtree t s -> addr s = Some i -> node t i = Some s.
Proof.
  induction t as [|j x b l IHl r IHr]; intros U H E.
  - destruct (subtree_cases _ _ H) as [->|(d & N & _)]; [discriminate|congruence].
  - destruct (uniq_node _ _ _ _ _ U) as (Ul & Ur & N1 & N2 & D).
    destruct (subtree_cases _ _ H) as [->|(d & _ & H')].
    + simpl in *. injection E as ->. rewrite Nat.eqb_refl. auto.
    + pose proof (subtree_ids _ _ _ H' (addr_in _ _ E)) as I. simpl.
      destruct d; simpl in H', I.
      * destruct (Nat.eqb_spec j i) as [->|N]; [tauto|].
        rewrite node_none; auto. intros I2. eauto.
      * destruct (Nat.eqb_spec j i) as [->|N]; [tauto|]. rewrite IHl; auto.
Qed.

Inductive root_is : tree A -> nat -> A -> Prop :=
| ri_node i x b l r : root_is (Node i x b l r) i x.

Lemma node_some t i : In i (map fst (elems t)) -> exists s, node t i = Some s.
Proof.
  induction t as [|j x b l IHl r IHr]; simpl; [tauto|]. rewrite map_app, in_app_iff. simpl.
  destruct (Nat.eqb_spec j i) as [->|N]; eauto.
  intros [H|[H|H]]; [|tauto|].
  - destruct (IHl H) as [s ->]. eauto.
  - destruct (node l i); eauto.
Qed.

(** stepping on along any path whose nodes are in the tree is defined *)
Lemma goUp_total t d p : forall c,
  Forall (fun j => In j (map fst (elems t))) p -> exists p', goUp t d c p = Ok p'.
Proof.
  induction p as [|nx p IH]; intros c F; cbn [goUp]; eauto.
  inversion F as [|? ? H F']; subst. unfold deref. destruct (node_some _ _ H) as [s ->].
  cbn [obind]. destruct (eqAddr _ _); eauto.
Qed.

Lemma goNext_total t d p :
  Forall (fun j => In j (map fst (elems t))) p -> exists p', goNext t d p = Ok p'.
Proof.
  destruct p as [|c p]; intros F; cbn [goNext]; eauto.
  inversion F as [|? ? H F']; subst. unfold deref. destruct (node_some _ _ H) as [s ->].
  cbn [obind]. destruct (_ && _); eauto. apply goUp_total; auto.
Qed.

(** ** Positions: the path (the deepest first), the subtree it leads to and the
    items behind that subtree *)
Inductive vpath (t : tree A) (d : bool) : list nat -> tree A -> list (nat * A) -> Prop :=
| vp_root i : addr t = Some i -> vpath t d [i] t []
| vp_near p s R i x j :
    vpath t d (i :: p) s R -> root_is s i x -> addr (link d s) = Some j ->
    vpath t d (j :: i :: p) (link d s) ((i, x) :: ditems d (link (negb d) s) ++ R)
| vp_far p s R i j :
    vpath t d (i :: p) s R -> addr s = Some i -> addr (link (negb d) s) = Some j ->
    vpath t d (j :: i :: p) (link (negb d) s) R.

(** what a walk still visits when it stands at the root of the subtree *)
Definition here (d : bool) s (R : list (nat * A)) : list (nat * A) :=
  match s with
  | Leaf => R
  | Node i x _ _ _ => (i, x) :: ditems d (link (negb d) s) ++ R
  end.

Lemma vpath_addr t d p s R : vpath t d p s R -> exists i p', p = i :: p' /\ addr s = Some i.
Proof. induction 1; eauto. Qed.

Lemma vpath_sub t d p s R : vpath t d p s R -> subtree t s.
Proof. induction 1; [constructor|constructor; auto|constructor; auto]. Qed.

Lemma height_link d s : s <> Leaf -> S (height (link d s)) <= height s.
Proof. destruct s; [congruence|]. intros _. destruct d; simpl; lia. Qed.

Lemma vpath_height t d p s R : vpath t d p s R -> length p + height s <= S (height t).
Proof.
  induction 1 as [i H|p s R i x j H IH Hr Hj|p s R i j H IH Hi Hj].
  - simpl. lia.
  - assert (s <> Leaf) by (destruct s; [inversion Hr|discriminate]).
    pose proof (height_link d s H0). simpl in *. lia.
  - assert (s <> Leaf) by (destruct s; discriminate).
    pose proof (height_link (negb d) s H0). simpl in *. lia.
Qed.

Section Fixed.
Variable t : tree A.
Hypothesis U : uniq t.
Hypothesis Ht : height t <= maxPathLen.

Lemma vpath_deref d i p s R : vpath t d (i :: p) s R -> deref t i = Ok s.
Proof.
  intros H. destruct (vpath_addr _ _ _ _ _ H) as (j & p' & [= <- <-] & E).
  unfold deref. rewrite (node_subtree t s i); auto. eapply vpath_sub; eauto.
Qed.

Lemma initPath_ok d s : forall i p R,
  vpath t d (i :: p) s R -> length p + height s <= maxPathLen ->
  exists s' R', vpath t d (initPath d s p) s' R' /\ here d s' R' = ditems d s ++ R.
Proof.
  induction s as [|k x b l IHl r IHr]; intros i p R H L.
  - destruct (vpath_addr _ _ _ _ _ H) as (j & p' & _ & E). discriminate.
  - destruct (vpath_addr _ _ _ _ _ H) as (j & p' & [= <- <-] & E). simpl in E.
    injection E as <-.
    cbn [initPath].
    assert (Hl : (length p <? maxPathLen) = true) by (apply Nat.ltb_lt; simpl in L; lia).
    rewrite Hl. rewrite ditems_node.
    assert (D : (if d then r else l) = link d (Node k x b l r)) by (destruct d; auto).
    rewrite D.
    destruct (addr (link d (Node k x b l r))) as [j|] eqn:Ej.
    + pose proof (vp_near _ _ _ _ _ _ x _ H (ri_node _ _ _ _ _) Ej) as H2.
      assert (L2 : length (k :: p) + height (link d (Node k x b l r)) <= maxPathLen).
      { pose proof (height_link d (Node k x b l r) ltac:(discriminate)). simpl length. lia. }
      destruct d; cbn [link negb] in *.
      * destruct (IHr _ _ _ H2 L2) as (s' & R' & V & E). exists s', R'. split; auto.
        rewrite E. rewrite <- app_assoc. auto.
      * destruct (IHl _ _ _ H2 L2) as (s' & R' & V & E). exists s', R'. split; auto.
        rewrite E. rewrite <- app_assoc. auto.
    + apply addr_none in Ej. rewrite Ej. cbn [initPath].
      exists (Node k x b l r), R. split; auto. destruct d; reflexivity.
Qed.

Lemma goUp_ok d c p s R :
  vpath t d (c :: p) s R ->
  exists p', goUp t d c p = Ok p' /\
    ((p' = [] /\ R = []) \/ exists s' R', vpath t d p' s' R' /\ here d s' R' = R).
Proof.
  revert c s R. induction p as [|nx p IH]; intros c s R H.
  - inversion H; subst. exists []. simpl. auto.
  - inversion H as [|p0 s0 R0 i x j H0 Hr Hj|p0 s0 R0 i j H0 Hi Hj]; subst.
    + cbn [goUp]. rewrite (vpath_deref _ _ _ _ _ H0). cbn [obind].
      rewrite Hj. simpl. rewrite Nat.eqb_refl. eexists; split; [reflexivity|]. right.
      exists s0, R0. split; auto. inversion Hr; subst. simpl. auto.
    + cbn [goUp]. rewrite (vpath_deref _ _ _ _ _ H0). cbn [obind].
      assert (F : eqAddr (addr (link d s0)) c = false).
      { destruct (addr (link d s0)) as [k|] eqn:Ek; auto. simpl.
        destruct (Nat.eqb_spec k c) as [->|]; auto. exfalso.
        pose proof (uniq_subtree _ _ U (vpath_sub _ _ _ _ _ H0)) as U0.
        destruct s0 as [|i0 x0 b0 l0 r0]; [discriminate|].
        destruct (uniq_node _ _ _ _ _ U0) as (_ & _ & _ & _ & D).
        apply addr_in in Ek. apply addr_in in Hj. destruct d; simpl in *; eauto. }
      rewrite F. eapply IH; eauto.
Qed.

Definition itpos (d : bool) (p : list nat) (Q : list (nat * A)) : Prop :=
  (p = [] /\ Q = []) \/ exists s R, vpath t d p s R /\ here d s R = Q.

Lemma goNext_ok d p s R :
  vpath t d p s R ->
  exists p', goNext t d p = Ok p' /\ itpos d p' (ditems d (link (negb d) s) ++ R).
Proof.
  intros H. pose proof (vpath_height _ _ _ _ _ H) as HH.
  destruct (vpath_addr _ _ _ _ _ H) as (i & p' & -> & E).
  unfold goNext. rewrite (vpath_deref _ _ _ _ _ H). cbn [obind].
  destruct (isNull (link (negb d) s)) eqn:N.
  - cbn [negb andb]. destruct (goUp_ok _ _ _ _ _ H) as (p2 & E2 & C). exists p2. split; auto.
    destruct (link (negb d) s); [|discriminate]. 
    replace (ditems d Leaf ++ R) with R by (destruct d; auto). exact C.
  - assert (exists j, addr (link (negb d) s) = Some j) as [j Ej]
      by (destruct (link (negb d) s); [discriminate|simpl; eauto]).
    assert (Ns : s <> Leaf) by (destruct s; discriminate).
    pose proof (height_link (negb d) s Ns) as Hs.
    assert (H1 : 1 <= height (link (negb d) s)) by (destruct (link (negb d) s); [discriminate|simpl; lia]).
    replace (length (i :: p') <? maxPathLen) with true by (symmetry; apply Nat.ltb_lt; lia).
    cbn [negb andb]. eexists; split; [reflexivity|]. right.
    pose proof (vp_far _ _ _ _ _ _ _ H E Ej) as H2.
    apply (initPath_ok _ _ _ _ _ H2). lia.
Qed.

Lemma firstIter_ok d : itpos d (path (firstIter t d)) (ditems d t).
Proof.
  unfold firstIter. simpl. destruct (addr t) as [i|] eqn:E.
  - pose proof (vp_root t d i E) as H.
    destruct (initPath_ok _ _ _ _ _ H) as (s & R & V & Eh); [simpl; lia|].
    right. exists s, R. rewrite app_nil_r in Eh. auto.
  - apply addr_none in E. rewrite E. left. destruct d; auto.
Qed.

Lemma peek_ok d p i x Q :
  itpos d p ((i, x) :: Q) -> exists p', p = i :: p' /\ forall e, peek t (mkIter p e) = Ok x.
Proof.
  intros [(_ & C)|(s & R & V & E)]; [discriminate|].
  destruct (vpath_addr _ _ _ _ _ V) as (j & p' & -> & Ea).
  destruct s as [|k y b l r]; [discriminate|]. simpl in Ea, E. injection Ea as ->.
  injection E as -> -> _. exists p'. split; auto. intros e.
  unfold peek. cbn [path]. rewrite (vpath_deref _ _ _ _ _ V). auto.
Qed.

Lemma itpos_nil d p : itpos d p [] -> p = [].
Proof.
  intros [(-> & _)|(s & R & V & E)]; auto.
  destruct (vpath_addr _ _ _ _ _ V) as (j & p' & -> & Ea).
  destruct s; discriminate.
Qed.

Lemma getNext_ok d p i x Q :
  itpos d p ((i, x) :: Q) ->
  exists p', getNext t (mkIter p d) = Ok (x, mkIter p' d) /\ itpos d p' Q.
Proof.
  intros H. destruct (peek_ok _ _ _ _ _ H) as (p0 & _ & Ep). unfold getNext.
  rewrite Ep. cbn [obind path idir]. destruct H as [(_ & C)|(s & R & V & E)]; [discriminate|].
  destruct (goNext_ok _ _ _ _ V) as (p' & En & C). rewrite En. cbn [obind].
  exists p'. split; auto. destruct s as [|k y b l r].
  - destruct (vpath_addr _ _ _ _ _ V) as (? & ? & _ & ?). discriminate.
  - simpl in E. injection E as _ _ E. rewrite <- E. exact C.
Qed.

Lemma walk_ok d Q : forall p fuel,
  itpos d p Q -> length Q < fuel -> walk fuel t (mkIter p d) = Ok (map snd Q).
Proof.
  induction Q as [|[i x] Q IH]; intros p fuel H L.
  - apply itpos_nil in H. subst. destruct fuel; reflexivity.
  - destruct (getNext_ok _ _ _ _ _ H) as (p' & E & H').
    destruct (peek_ok _ _ _ _ _ H) as (p0 & -> & _).
    destruct fuel as [|f]; [simpl in L; lia|].
    cbn [walk hasItems path]. rewrite E. cbn [obind]. rewrite (IH p' f H' ltac:(simpl in L; lia)).
    reflexivity.
Qed.

(** ** Searching *)
Variable lt : A -> A -> bool.
Hypothesis SW : strict_weak lt.
Hypothesis So : sorted lt (elems t).

Definition bef (d : bool) (a b : A) : bool := before lt d a b.

Lemma ditems_sorted d s : sorted lt (elems s) ->
  StronglySorted (fun a b => bef d (snd a) (snd b) = true) (ditems d s).
Proof.
  destruct d; simpl; auto. unfold sorted. induction 1 as [|a l H IH F]; simpl; [constructor|].
  assert (G : forall (l1 l2 : list (nat * A)) R, StronglySorted R l1 -> StronglySorted R l2 ->
    (forall u v, In u l1 -> In v l2 -> R u v) -> StronglySorted R (l1 ++ l2)).
  { clear. induction l1 as [|a l1 IH]; simpl; intros l2 R H1 H2 H3; auto.
    inversion H1 as [|? ? Hs Hf]; subst. constructor; [apply IH; auto|].
    rewrite Forall_app. split; auto. rewrite Forall_forall. auto. }
  apply G; auto.
  - constructor; constructor.
  - intros u v Hu [<-|[]]. apply in_rev in Hu. rewrite Forall_forall in F. apply F; auto.
Qed.

Lemma subtree_sorted s : subtree t s -> sorted lt (elems s).
Proof.
  intros H. destruct (subtree_elems _ _ H) as (P & Q & E). rewrite E in So.
  apply (sorted_app_inv lt) in So. destruct So as (_ & S2 & _).
  apply (sorted_app_inv lt) in S2. tauto.
Qed.

Lemma bef_trans d a b c : bef d a b = true -> bef d b c = true -> bef d a c = true.
Proof. unfold bef, before. destruct d; intros; eapply (sw_trans _ SW); eauto. Qed.

Lemma bef_asym d a b : bef d a b = true -> bef d b a = false.
Proof. unfold bef, before. destruct d; apply (lt_asym lt SW). Qed.

(** where the search ended *)
Definition ended (d : bool) (x : A) (p : list nat) (found dir : bool) : Prop :=
  exists s R P, vpath t d p s R /\
    Forall (fun e => bef d (snd e) x = true) P /\ Forall (fun e => bef d x (snd e) = true) R /\
    exists i y b l r, s = Node i y b l r /\
    if found then
      eqk lt y x = true /\ ditems d t = P ++ here d s R /\
      Forall (fun e => bef d x (snd e) = true) (ditems d (link (negb d) s))
    else if Bool.eqb dir d then
      bef d x y = true /\ ditems d t = P ++ here d s R /\
      Forall (fun e => bef d x (snd e) = true) (ditems d (link (negb d) s))
    else bef d y x = true /\ link (negb d) s = Leaf /\ ditems d t = P ++ (i, y) :: R.

Lemma search_ok d x s : forall i p R P dir0,
  vpath t d (i :: p) s R -> ditems d t = P ++ ditems d s ++ R ->
  Forall (fun e => bef d (snd e) x = true) P -> Forall (fun e => bef d x (snd e) = true) R ->
  length p + height s <= maxPathLen ->
  exists p' found dir, searchPath lt x s p dir0 = Ok (p', found, dir) /\ ended d x p' found dir.
Proof.
  induction s as [|k y b l IHl r IHr]; intros i p R P dir0 V Ed FP FR L.
  - destruct (vpath_addr _ _ _ _ _ V) as (j & p' & _ & E). discriminate.
  - destruct (vpath_addr _ _ _ _ _ V) as (j & p' & [= <- <-] & E). simpl in E.
    injection E as <-.
    cbn [searchPath].
    assert (Hl : (length p <? maxPathLen) = true) by (apply Nat.ltb_lt; simpl in L; lia).
    rewrite Hl. clear Hl.
    pose proof (ditems_sorted d _ (subtree_sorted _ (vpath_sub _ _ _ _ _ V))) as Sd.
    rewrite ditems_node in Sd, Ed. set (s := Node k y b l r) in *.
    assert (Fn : Forall (fun e => bef d (snd e) y = true) (ditems d (link d s))).
    { rewrite Forall_forall. intros e He. revert Sd. generalize (ditems d (link (negb d) s)).
      revert He. generalize (ditems d (link d s)). clear. induction l as [|a l IH]; simpl; [tauto|].
      intros [->|He] q H; inversion H as [|? ? Hs Hf]; subst; [|eauto].
      rewrite Forall_app in Hf. destruct Hf as [_ Hf]. inversion Hf; auto. }
    assert (Ff : Forall (fun e => bef d y (snd e) = true) (ditems d (link (negb d) s))).
    { revert Sd. generalize (ditems d (link (negb d) s)). generalize (ditems d (link d s)). clear.
      induction l as [|a l IH]; simpl; intros q H; inversion H; subst; auto. }
    (* the generic steps *)
    assert (Near : bef d x y = true -> forall dir0,
      (forall i p R P dir0, vpath t d (i :: p) (link d s) R ->
         ditems d t = P ++ ditems d (link d s) ++ R ->
         Forall (fun e => bef d (snd e) x = true) P -> Forall (fun e => bef d x (snd e) = true) R ->
         length p + height (link d s) <= maxPathLen ->
         exists p' found dir, searchPath lt x (link d s) p dir0 = Ok (p', found, dir) /\ ended d x p' found dir) ->
      dir0 = d ->
      exists p' found dir, searchPath lt x (link d s) (k :: p) dir0 = Ok (p', found, dir) /\ ended d x p' found dir).
    { intros Hb dir1 IH ->.
      destruct (addr (link d s)) as [j|] eqn:Ej.
      - pose proof (vp_near _ _ _ _ _ _ y _ V (ri_node _ _ _ _ _) Ej) as V2.
        eapply IH with (P := P); [exact V2| |auto| |].
        + rewrite Ed. rewrite <- !app_assoc. auto.
        + constructor; auto. rewrite Forall_app. split; auto.
          eapply Forall_impl; [|exact Ff]. simpl. intros e He. eapply bef_trans; eauto.
        + pose proof (height_link d s ltac:(discriminate)). simpl length. lia.
      - apply addr_none in Ej. rewrite Ej. cbn [searchPath]. do 3 eexists; split; [reflexivity|].
        exists s, R, P. split; auto. split; auto. split; auto.
        exists k, y, b, l, r. split; auto. rewrite Bool.eqb_reflx. split; auto. split.
        + rewrite Ed, Ej. destruct d; reflexivity.
        + eapply Forall_impl; [|exact Ff]. simpl. intros e He. eapply bef_trans; eauto. }
    assert (Far : bef d y x = true -> forall dir0,
      (forall i p R P dir0, vpath t d (i :: p) (link (negb d) s) R ->
         ditems d t = P ++ ditems d (link (negb d) s) ++ R ->
         Forall (fun e => bef d (snd e) x = true) P -> Forall (fun e => bef d x (snd e) = true) R ->
         length p + height (link (negb d) s) <= maxPathLen ->
         exists p' found dir, searchPath lt x (link (negb d) s) p dir0 = Ok (p', found, dir) /\ ended d x p' found dir) ->
      dir0 = negb d ->
      exists p' found dir, searchPath lt x (link (negb d) s) (k :: p) dir0 = Ok (p', found, dir) /\ ended d x p' found dir).
    { intros Hb dir1 IH ->.
      assert (FP2 : Forall (fun e => bef d (snd e) x = true) (P ++ ditems d (link d s) ++ [(k, y)])).
      { rewrite !Forall_app. split; auto. split; auto.
        eapply Forall_impl; [|exact Fn]. simpl. intros e He. eapply bef_trans; eauto. }
      destruct (addr (link (negb d) s)) as [j|] eqn:Ej.
      - pose proof (vp_far _ _ _ _ _ _ _ V eq_refl Ej) as V2.
        eapply IH with (P := P ++ ditems d (link d s) ++ [(k, y)]); [exact V2| |auto|auto|].
        + rewrite Ed. repeat rewrite <- ?app_assoc, <- ?app_comm_cons; simpl. auto.
        + pose proof (height_link (negb d) s ltac:(discriminate)). simpl length. lia.
      - apply addr_none in Ej. rewrite Ej. cbn [searchPath]. do 3 eexists; split; [reflexivity|].
        exists s, R, (P ++ ditems d (link d s)). split; auto. split.
        { rewrite !Forall_app in *. tauto. }
        split; auto.
        exists k, y, b, l, r. split; auto.
        replace (Bool.eqb (negb d) d) with false by (destruct d; auto). split; auto. split; auto.
        rewrite Ed, Ej. destruct d; repeat rewrite <- ?app_assoc, <- ?app_comm_cons; simpl; auto. }
    destruct (lt x y) eqn:Exy; [|destruct (lt y x) eqn:Eyx].
    + destruct d; cbn [link negb] in *.
      * apply Far; auto.
      * apply Near; auto.
    + destruct d; cbn [link negb] in *.
      * apply Near; auto.
      * apply Far; auto.
    + do 3 eexists; split; [reflexivity|].
      assert (Eq : forall e, bef d e y = true -> bef d e x = true).
      { unfold bef, before. intros e. destruct d; intros He.
        - destruct (sw_cotrans _ SW _ _ x He); [congruence|auto].
        - destruct (sw_cotrans _ SW _ _ x He); [auto|congruence]. }
      assert (Eq2 : forall e, bef d y e = true -> bef d x e = true).
      { unfold bef, before. intros e. destruct d; intros He.
        - destruct (sw_cotrans _ SW _ _ x He); [auto|congruence].
        - destruct (sw_cotrans _ SW _ _ x He); [congruence|auto]. }
      exists s, R, (P ++ ditems d (link d s)). split; auto. split.
      { rewrite Forall_app. split; auto. eapply Forall_impl; [|exact Fn]. simpl. auto. }
      split; auto.
      exists k, y, b, l, r. split; auto. split; [unfold eqk; rewrite Exy, Eyx; auto|]. split.
      * rewrite Ed. repeat rewrite <- ?app_assoc, <- ?app_comm_cons. auto.
      * eapply Forall_impl; [|exact Ff]. simpl. auto.
Qed.

Lemma seekIter_ok x d :
  exists p found P Q, seekIter lt t x d = Ok (mkIter p d, found) /\ itpos d p Q /\
    ditems d t = P ++ Q /\
    Forall (fun e => bef d (snd e) x = true) P /\
    (if found then exists i y Q', Q = (i, y) :: Q' /\ eqk lt y x = true /\
                                  Forall (fun e => bef d x (snd e) = true) Q'
     else Forall (fun e => bef d x (snd e) = true) Q).
Proof.
  destruct (addr t) as [i|] eqn:Ei.
  - pose proof (vp_root t d i Ei) as V.
    destruct (search_ok d x t i [] [] [] false V) as (p & found & dir & Es & s & R & P & V2 & FP & FR & k & y & b & l & r & -> & H);
      [rewrite app_nil_r; auto|constructor|constructor|simpl; lia|].
    unfold seekIter. rewrite Es. cbn [obind]. destruct found.
    + destruct H as (Eq & Ed & F). do 4 eexists; split; [reflexivity|]. split; [right; eauto|].
      split; [exact Ed|]. split; auto. simpl. do 3 eexists; split; [reflexivity|]. split; auto.
      rewrite Forall_app. auto.
    + destruct (Bool.eqb dir d).
      * destruct H as (Hb & Ed & F). do 4 eexists; split; [reflexivity|]. split; [right; eauto|].
        split; [exact Ed|]. split; auto. simpl. constructor; auto. rewrite Forall_app. auto.
      * destruct H as (Hb & El & Ed). destruct (goNext_ok _ _ _ _ V2) as (p' & En & C).
        rewrite En. cbn [obind]. do 4 eexists; split; [reflexivity|]. split; [exact C|].
        rewrite El. replace (ditems d Leaf ++ R) with R by (destruct d; auto).
        split; [|split; [|auto]].
        -- instantiate (1 := P ++ [(k, y)]). rewrite <- app_assoc. exact Ed.
        -- rewrite Forall_app. auto.
  - apply addr_none in Ei. unfold seekIter. rewrite Ei. cbn [searchPath obind].
    destruct d; simpl.
    + do 4 eexists; split; [reflexivity|]. split; [left; auto|]. split; [instantiate (1 := []); auto|]. auto.
    + do 4 eexists; split; [reflexivity|]. split; [left; auto|]. split; [instantiate (1 := []); auto|]. auto.
Qed.
End Fixed.
End Iter.
