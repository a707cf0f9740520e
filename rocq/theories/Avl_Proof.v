(** Lemmas about the AVL tree: order of the items and balance. *)
From Verif Require Import Common Avl_Model Map_Spec.
From Coq Require Import Sorting.Sorted.

Local Arguments Nat.max : simpl never.
Local Arguments Z.sub : simpl never.
Local Arguments Z.add : simpl never.
Local Arguments Z.mul : simpl never.
Local Arguments Z.of_nat : simpl never.

Section Avl.
Context {A : Type}.
Implicit Types t l r s : tree A.

Fixpoint elems t : list (nat * A) :=
  match t with
  | Leaf => []
  | Node i x _ l r => elems l ++ (i, x) :: elems r
  end.

Fixpoint height t : nat :=
  match t with
  | Leaf => 0
  | Node _ _ _ l r => S (Nat.max (height l) (height r))
  end.

Definition bOf l r : Z := (Z.of_nat (height r) - Z.of_nat (height l))%Z.

Fixpoint balanced t : Prop :=
  match t with
  | Leaf => True
  | Node _ _ b l r => balanced l /\ balanced r /\ b = bOf l r /\ (-1 <= b <= 1)%Z
  end.

Lemma nodeCount_elems t : nodeCount t = length (elems t).
Proof.
  induction t as [|i x b l IHl r IHr]; simpl; auto.
  rewrite app_length; simpl. lia.
Qed.

Lemma height_0 t : height t = 0 -> t = Leaf.
Proof. destruct t; simpl; auto; lia. Qed.

Ltac lists := simpl; repeat rewrite <- ?app_assoc, <- ?app_comm_cons; simpl; auto.

(** ** Insertion *)
Lemma insertBalance_ok (d : bool) i x l r :
  let t := Node i x (2 * sgn d) l r in
  balanced l -> balanced r -> bOf l r = (2 * sgn d)%Z ->
  bal (link d t) <> 0%Z ->
  exists t', insertBalance d t = Ok t' /\ balanced t' /\ elems t' = elems t /\
             S (height t') = height t /\ (exists a, addr t' = Some a).
Proof.
  intros t Bl Br Hb Hn. subst t. unfold bOf in *.
  destruct d; simpl in Hb, Hn.
  - destruct r as [|i1 x1 b1 l1 r1]; simpl in *; [lia|].
    destruct Br as (Bl1 & Br1 & E1 & R1). unfold insertBalance; simpl.
    destruct (b1 =? 1)%Z eqn:Eb.
    + eexists; split; [reflexivity|]. simpl. unfold bOf in *.
      split; [|split; [lists|split; [lia|eauto]]].
      repeat split; auto; unfold bOf; simpl; lia.
    + assert (b1 = -1)%Z by lia. unfold bOf in *.
      destruct l1 as [|i2 x2 b2 l2 r2]; simpl in *; [lia|].
      destruct Bl1 as (Bl2 & Br2 & E2 & R2). unfold bOf in *.
      unfold adjustBalance; simpl.
      destruct (b2 =? 0)%Z eqn:E20; [|destruct (b2 =? 1)%Z eqn:E21];
      (eexists; split; [reflexivity|]; simpl;
       split; [|split; [lists|split; [lia|eauto]]];
       repeat split; auto; unfold bOf; simpl; lia).
  - destruct l as [|i1 x1 b1 l1 r1]; simpl in *; [lia|].
    destruct Bl as (Bl1 & Br1 & E1 & R1). unfold insertBalance; simpl.
    destruct (b1 =? -1)%Z eqn:Eb.
    + eexists; split; [reflexivity|]. simpl. unfold bOf in *.
      split; [|split; [lists|split; [lia|eauto]]].
      repeat split; auto; unfold bOf; simpl; lia.
    + assert (b1 = 1)%Z by lia. unfold bOf in *.
      destruct r1 as [|i2 x2 b2 l2 r2]; simpl in *; [lia|].
      destruct Br1 as (Bl2 & Br2 & E2 & R2). unfold bOf in *.
      unfold adjustBalance; simpl.
      destruct (b2 =? 0)%Z eqn:E20; [|destruct (b2 =? -1)%Z eqn:E21];
      (eexists; split; [reflexivity|]; simpl;
       split; [|split; [lists|split; [lia|eauto]]];
       repeat split; auto; unfold bOf; simpl; lia).
Qed.

(** the height after an insertion, told by the flag [done] *)
Definition grown (t t' : tree A) (done : bool) : Prop :=
  balanced t' /\
  (if done then height t' = height t
   else height t' = S (height t) /\ (t = Leaf \/ bal t' <> 0%Z)).

Lemma addr_bal t : isNull t = false -> exists a, addr t = Some a.
Proof. destruct t; simpl; [discriminate|eauto]. Qed.

Lemma insUp_some (d : bool) i x b l r nd done p :
  let t := Node i x b l r in
  balanced t -> grown (link d t) nd done -> nd <> Leaf ->
  exists t' done',
    insUp d t (Some nd, done, p) =
      Ok (Some t', done', match addr nd with Some a => a :: p | None => p end) /\
    grown t t' done' /\ elems t' = elems (setLink d t nd) /\ t' <> Leaf.
Proof.
  intros t (Bl & Br & Eb & Rb) (Bn & Hn) Hnl. subst t. cbn [insUp setLink].
  destruct done.
  - destruct d; cbn [link] in *; (eexists; eexists; split; [reflexivity|]);
      (split; [|split; [reflexivity|discriminate]]); (split; [|simpl; lia]);
      simpl; repeat split; auto; unfold bOf in *; simpl; lia.
  - assert (exists t2, setLink d (Node i x b l r) nd = t2) as [t2 E2] by eauto.
    destruct Hn as [Hh Hb2].
    assert (Hnb : bal nd <> 0%Z \/ (link d (Node i x b l r) = Leaf)) by tauto.
    destruct d; cbn [link setBal bal sgn] in *; unfold bOf in *.
    + destruct (b + 1 =? 0)%Z eqn:E0; [|destruct ((b + 1 <? -1) || (1 <? b + 1))%Z eqn:E1].
      * eexists; eexists; split; [reflexivity|]. split; [|split; [reflexivity|discriminate]].
        split; [|simpl; lia]. simpl. repeat split; auto; unfold bOf; simpl; lia.
      * destruct (insertBalance_ok true i x l nd) as (t' & Et & Bt & Lt & Ht & Ha); auto.
        { unfold bOf; simpl; lia. }
        { simpl. destruct Hnb as [Hnb|Hnb]; auto. subst r. simpl in Hh.
          simpl in *. lia. }
        simpl sgn in *. replace (2 * 1)%Z with (b + 1)%Z in Et by lia. rewrite Et. simpl.
        eexists; eexists; split; [reflexivity|]. simpl in Ht.
        split; [|split; [exact Lt|]].
        -- split; auto. simpl. lia.
        -- destruct Ha as [a Ha]. intros ->. discriminate Ha.
      * eexists; eexists; split; [reflexivity|]. split; [|split; [reflexivity|discriminate]].
        split.
        -- simpl. repeat split; auto; unfold bOf; simpl; lia.
        -- simpl. split; [lia|]. right. lia.
    + destruct (b + -1 =? 0)%Z eqn:E0; [|destruct ((b + -1 <? -1) || (1 <? b + -1))%Z eqn:E1].
      * eexists; eexists; split; [reflexivity|]. split; [|split; [reflexivity|discriminate]].
        split; [|simpl; lia]. simpl. repeat split; auto; unfold bOf; simpl; lia.
      * destruct (insertBalance_ok false i x nd r) as (t' & Et & Bt & Lt & Ht & Ha); auto.
        { unfold bOf; simpl; lia. }
        { simpl. destruct Hnb as [Hnb|Hnb]; auto. subst l. simpl in Hh.
          simpl in *. lia. }
        simpl sgn in *. replace (2 * -1)%Z with (b + -1)%Z in Et by lia. rewrite Et. simpl.
        eexists; eexists; split; [reflexivity|]. simpl in Ht.
        split; [|split; [exact Lt|]].
        -- split; auto. simpl. lia.
        -- destruct Ha as [a Ha]. intros ->. discriminate Ha.
      * eexists; eexists; split; [reflexivity|]. split; [|split; [reflexivity|discriminate]].
        split.
        -- simpl. repeat split; auto; unfold bOf; simpl; lia.
        -- simpl. split; [lia|]. right. lia.
Qed.

(** ** Removal *)
Definition shrunk (t t' : tree A) (done : bool) : Prop :=
  balanced t' /\ (if done then height t' = height t else S (height t') = height t).

Lemma removeBalance_ok (d : bool) i x l r :
  let t := Node i x (- (2 * sgn d)) l r in
  balanced l -> balanced r -> bOf l r = (- (2 * sgn d))%Z ->
  exists t' done', removeBalance d t false = Ok (t', done') /\ balanced t' /\
             elems t' = elems t /\
             (if done' then height t' = height t else S (height t') = height t).
Proof.
  intros t Bl Br Hb. subst t. unfold bOf in *.
  destruct d; simpl in Hb.
  - destruct l as [|i1 x1 b1 l1 r1]; simpl in *; [lia|].
    destruct Bl as (Bl1 & Br1 & E1 & R1). unfold removeBalance; simpl.
    unfold bOf in *.
    destruct (b1 =? -1)%Z eqn:Eb; [|destruct (b1 =? 1)%Z eqn:Eb1].
    + eexists; eexists; split; [reflexivity|]. simpl.
      split; [|split; [lists|lia]].
      repeat split; auto; unfold bOf; simpl; lia.
    + destruct r1 as [|i2 x2 b2 l2 r2]; simpl in *; [lia|].
      destruct Br1 as (Bl2 & Br2 & E2 & R2). unfold bOf in *.
      unfold adjustBalance; simpl.
      destruct (b2 =? 0)%Z eqn:E20; [|destruct (b2 =? -1)%Z eqn:E21];
      (eexists; eexists; split; [reflexivity|]; simpl;
       split; [|split; [lists|lia]];
       repeat split; auto; unfold bOf; simpl; lia).
    + eexists; eexists; split; [reflexivity|]. simpl.
      split; [|split; [lists|lia]].
      repeat split; auto; unfold bOf; simpl; lia.
  - destruct r as [|i1 x1 b1 l1 r1]; simpl in *; [lia|].
    destruct Br as (Bl1 & Br1 & E1 & R1). unfold removeBalance; simpl.
    unfold bOf in *.
    destruct (b1 =? 1)%Z eqn:Eb; [|destruct (b1 =? -1)%Z eqn:Eb1].
    + eexists; eexists; split; [reflexivity|]. simpl.
      split; [|split; [lists|lia]].
      repeat split; auto; unfold bOf; simpl; lia.
    + destruct l1 as [|i2 x2 b2 l2 r2]; simpl in *; [lia|].
      destruct Bl1 as (Bl2 & Br2 & E2 & R2). unfold bOf in *.
      unfold adjustBalance; simpl.
      destruct (b2 =? 0)%Z eqn:E20; [|destruct (b2 =? 1)%Z eqn:E21];
      (eexists; eexists; split; [reflexivity|]; simpl;
       split; [|split; [lists|lia]];
       repeat split; auto; unfold bOf; simpl; lia).
    + eexists; eexists; split; [reflexivity|]. simpl.
      split; [|split; [lists|lia]].
      repeat split; auto; unfold bOf; simpl; lia.
Qed.

Lemma balanceAfterRemove_ok (d : bool) i x i0 x0 b l r sub done :
  let t := Node i x b l r in
  balanced t -> shrunk (link d t) sub done ->
  let t2 := setLink d (Node i0 x0 b l r) sub in
  exists t' done',
    balanceAfterRemove t2 done d = Ok (t', done') /\
    shrunk t t' done' /\ elems t' = elems t2.
Proof.
  intros t (Bl & Br & Eb & Rb) (Bn & Hn). subst t. cbn zeta.
  unfold balanceAfterRemove. destruct done.
  - destruct d; cbn [link setLink] in *; (eexists; eexists; split; [reflexivity|]);
      (split; [|reflexivity]); (split; [|simpl; lia]);
      simpl; repeat split; auto; unfold bOf in *; simpl; lia.
  - destruct d; simpl; unfold bOf in *; cbn [link] in Hn.
    + destruct (Z.abs (b - 1) =? 1)%Z eqn:E0; [|destruct (1 <? Z.abs (b - 1))%Z eqn:E1].
      * eexists; eexists; split; [reflexivity|]. split; [|reflexivity].
        split; [|simpl; lia]. simpl. repeat split; auto; unfold bOf; simpl; lia.
      * destruct (removeBalance_ok true i0 x0 l sub) as (t' & dn & Et & Bt & Lt & Ht); auto.
        { unfold bOf; simpl; lia. }
        simpl sgn in *. replace (- (2 * 1))%Z with (b - 1)%Z in Et by lia. rewrite Et.
        eexists; eexists; split; [reflexivity|]. simpl in Ht.
        split; [|exact Lt]. split; auto. simpl. destruct dn; lia.
      * eexists; eexists; split; [reflexivity|]. split; [|reflexivity].
        split; [|simpl; lia]. simpl. repeat split; auto; unfold bOf; simpl; lia.
    + destruct (Z.abs (b - -1) =? 1)%Z eqn:E0; [|destruct (1 <? Z.abs (b - -1))%Z eqn:E1].
      * eexists; eexists; split; [reflexivity|]. split; [|reflexivity].
        split; [|simpl; lia]. simpl. repeat split; auto; unfold bOf; simpl; lia.
      * destruct (removeBalance_ok false i0 x0 sub r) as (t' & dn & Et & Bt & Lt & Ht); auto.
        { unfold bOf; simpl; lia. }
        simpl sgn in *. replace (- (2 * -1))%Z with (b - -1)%Z in Et by lia. rewrite Et.
        eexists; eexists; split; [reflexivity|]. simpl in Ht.
        split; [|exact Lt]. split; auto. simpl. destruct dn; lia.
      * eexists; eexists; split; [reflexivity|]. split; [|reflexivity].
        split; [|simpl; lia]. simpl. repeat split; auto; unfold bOf; simpl; lia.
Qed.

Lemma takeRightMost_ok t :
  balanced t -> t <> Leaf ->
  exists t' rm done', takeRightMost t false = Ok (t', rm, done') /\
    shrunk t t' done' /\ elems t = elems t' ++ [rm].
Proof.
  induction t as [|i x b l _ r IH]; intros B N; [congruence|].
  destruct r as [|ir xr br lr rr].
  - simpl in *. destruct B as (Bl & _ & E & R). unfold bOf in *. simpl in E.
    do 3 eexists; split; [reflexivity|]. split; auto.
    split; auto. simpl. lia.
  - destruct B as (Bl & Br & E & R).
    destruct IH as (r' & rm & dn & Er & Sr & Lr); auto; [discriminate|].
    destruct (balanceAfterRemove_ok true i x i x b l (Node ir xr br lr rr) r' dn)
      as (t' & dn' & Et & St & Lt); auto.
    { simpl; auto. }
    cbn [setLink] in Et, Lt.
    exists t', rm, dn'. split; [|split; auto].
    + cbn [takeRightMost] in *. rewrite Er. cbn [obind]. rewrite Et. reflexivity.
    + rewrite Lt. cbn [elems]. cbn [elems] in Lr. rewrite Lr. lists.
Qed.

Lemma removeRootNode_ok i x b l r :
  balanced (Node i x b l r) ->
  exists t' done', removeRootNode (Node i x b l r) false = Ok (t', done') /\
    shrunk (Node i x b l r) t' done' /\ elems t' = elems l ++ elems r.
Proof.
  intros (Bl & Br & E & R). unfold removeRootNode, bOf in *.
  destruct l as [|il xl bl ll rl]; [|destruct r as [|ir xr br lr rr]].
  - simpl in *. do 2 eexists; split; [reflexivity|]. split; auto; split; auto.
  - simpl isNull. cbn iota. do 2 eexists; split; [reflexivity|]. split.
    + split; auto.
    + simpl. rewrite app_nil_r. auto.
  - cbn [isNull].
    destruct (takeRightMost_ok (Node il xl bl ll rl)) as (l' & [i' x'] & dn & El & Sl & Ll);
      auto; [discriminate|].
    rewrite El. cbn [obind].
    destruct (balanceAfterRemove_ok false i x i' x' b (Node il xl bl ll rl) (Node ir xr br lr rr) l' dn)
      as (t' & dn' & Et & St & Lt); auto.
    { simpl; auto. }
    cbn [setLink] in Et, Lt. exists t', dn'. rewrite Et. split; auto. split; auto.
    rewrite Lt, Ll. cbn [elems]. lists.
Qed.

(** ** Order *)
Variable lt : A -> A -> bool.
Hypothesis SW : strict_weak lt.

Definition ltE (a b : nat * A) : Prop := lt (snd a) (snd b) = true.
Definition sorted := StronglySorted ltE.

Lemma sorted_app_inv (l1 l2 : list (nat * A)) :
  sorted (l1 ++ l2) ->
  sorted l1 /\ sorted l2 /\ (forall a b, In a l1 -> In b l2 -> ltE a b).
Proof.
  unfold sorted. induction l1 as [|a l1 IH]; simpl; intros H.
  - split; [constructor|split; auto]; intros; tauto.
  - inversion H as [|? ? Hs Hf]; subst. destruct (IH Hs) as (H1 & H2 & H3).
    rewrite Forall_app in Hf. destruct Hf as [F1 F2]. split; [constructor; auto|].
    split; auto. intros u v [->|Hu] Hv; auto. rewrite Forall_forall in F2; auto.
Qed.

Lemma sorted_app (l1 l2 : list (nat * A)) :
  sorted l1 -> sorted l2 -> (forall a b, In a l1 -> In b l2 -> ltE a b) -> sorted (l1 ++ l2).
Proof.
  unfold sorted. induction l1 as [|a l1 IH]; simpl; intros H1 H2 H3; auto.
  inversion H1 as [|? ? Hs Hf]; subst. constructor.
  - apply IH; auto.
  - rewrite Forall_app. split; auto. rewrite Forall_forall. auto.
Qed.

Lemma sorted_mid (l1 : list (nat * A)) a (l2 : list (nat * A)) :
  sorted (l1 ++ a :: l2) ->
  sorted l1 /\ sorted l2 /\ Forall (fun e => ltE e a) l1 /\ Forall (ltE a) l2.
Proof.
  intros H. destruct (sorted_app_inv _ _ H) as (H1 & H2 & H3).
  inversion H2 as [|? ? Hs Hf]; subst. split; [auto|split; [auto|split; auto]].
  rewrite Forall_forall. intros e He. apply H3; simpl; auto.
Qed.

Lemma lt_asym x y : lt x y = true -> lt y x = false.
Proof.
  intros H. destruct (lt y x) eqn:E; auto.
  pose proof (sw_trans _ SW _ _ _ H E) as C. rewrite (sw_irrefl _ SW) in C. discriminate.
Qed.

Lemma lt_trans_Forall_l x y (l : list (nat * A)) : lt x y = true ->
  Forall (fun e => lt (snd e) x = true) l -> Forall (fun e : nat * A => lt (snd e) y = true) l.
Proof. intros H. apply Forall_impl. intros e He. eapply (sw_trans _ SW); eauto. Qed.

Lemma lt_trans_Forall_r x y (l : list (nat * A)) : lt x y = true ->
  Forall (fun e => lt y (snd e) = true) l -> Forall (fun e : nat * A => lt x (snd e) = true) l.
Proof. intros H. apply Forall_impl. intros e He. eapply (sw_trans _ SW); eauto. Qed.

(** position of a new item *)
Definition placed (i : nat) (x : A) (t t' : tree A) : Prop :=
  exists l1 l2 : list (nat * A), elems t = l1 ++ l2 /\ elems t' = l1 ++ (i, x) :: l2 /\
    Forall (fun e => lt (snd e) x = true) l1 /\ Forall (fun e => lt x (snd e) = true) l2.

(** the deepest node of a path below a root *)
Definition lastIs (t : tree A) (p : list nat) (j : nat) : Prop :=
  exists a, addr t = Some a /\ last (a :: p) 0 = j.

Lemma ins_ok i x t :
  balanced t -> sorted (elems t) ->
  exists res done' p, ins lt i x t false = Ok (res, done', p) /\ length p <= height t /\
  Forall (fun j => In j (map fst (elems (match res with Some t' => t' | None => t end)))) p /\
  match res with
  | None => exists j y, In (j, y) (elems t) /\ eqk lt y x = true /\ lastIs t p j
  | Some t' => grown t t' done' /\ t' <> Leaf /\ placed i x t t' /\ lastIs t' p i
  end.
Proof.
  induction t as [|j y b l IHl r IHr]; intros B S.
  - do 3 eexists; split; [reflexivity|]. split; [simpl; lia|]. split; [constructor|].
    split; [|split; [discriminate|split]].
    + split; simpl; auto. unfold bOf. simpl. repeat split; lia.
    + exists [], []. simpl. auto.
    + exists i. auto.
  - simpl in S. destruct (sorted_mid _ _ _ S) as (Sl & Sr & Fl & Fr).
    pose proof B as (Bl & Br & _ & _). cbn [ins].
    destruct (lt x y) eqn:Exy; [|destruct (lt y x) eqn:Eyx].
    + destruct (IHl Bl Sl) as (res & dn & p & E & Hp & Fp & H). rewrite E. cbn [obind].
      destruct res as [nd|].
      * destruct H as (G & N & (l1 & l2 & E1 & E2 & F1 & F2) & (a & Ha & La)).
        destruct (insUp_some false j y b l r nd dn p B G N) as (t' & dn' & Eu & G' & Lt & N').
        exists (Some t'), dn'. rewrite Ha in Eu. rewrite Eu. eexists; split; [reflexivity|].
        split; [simpl in *; lia|]. split.
        { rewrite Lt. cbn [setLink elems]. rewrite map_app. constructor.
          - apply in_or_app. left. destruct nd; [discriminate|]. simpl in *. injection Ha as ->.
            rewrite map_app. apply in_or_app. right. simpl. auto.
          - eapply Forall_impl; [|exact Fp]. intros q Hq. apply in_or_app. auto. }
        split; auto. split; auto. split.
        -- exists l1, (l2 ++ (j, y) :: elems r). rewrite Lt. simpl. rewrite E1, E2. lists.
           split; auto. split; auto. split; auto.
           rewrite Forall_app. split; auto. constructor; auto.
           eapply lt_trans_Forall_r; eauto.
        -- destruct t' as [|k z c tl tr]; [congruence|]. exists k. split; auto.
      * destruct H as (j' & y' & Hin & Heq & (a & Ha & La)).
        cbn [insUp link]. rewrite Ha.
        do 3 eexists; split; [reflexivity|]. split; [simpl; lia|]. split.
        { cbn [elems]. rewrite map_app. constructor.
          - apply in_or_app. left. destruct l; [discriminate|]. simpl in *. injection Ha as ->.
            rewrite map_app. apply in_or_app. right. simpl. auto.
          - eapply Forall_impl; [|exact Fp]. intros q Hq. apply in_or_app. auto. }
        exists j', y'. simpl. rewrite in_app_iff. split; auto. split; auto.
        exists j. auto.
    + destruct (IHr Br Sr) as (res & dn & p & E & Hp & Fp & H). rewrite E. cbn [obind].
      destruct res as [nd|].
      * destruct H as (G & N & (l1 & l2 & E1 & E2 & F1 & F2) & (a & Ha & La)).
        destruct (insUp_some true j y b l r nd dn p B G N) as (t' & dn' & Eu & G' & Lt & N').
        exists (Some t'), dn'. rewrite Ha in Eu. rewrite Eu. eexists; split; [reflexivity|].
        split; [simpl in *; lia|]. split.
        { rewrite Lt. cbn [setLink elems]. rewrite map_app. cbn [map]. constructor.
          - apply in_or_app. right. right. destruct nd; [discriminate|]. simpl in *. injection Ha as ->.
            rewrite map_app. apply in_or_app. right. simpl. auto.
          - eapply Forall_impl; [|exact Fp]. intros q Hq. apply in_or_app. simpl. auto. }
        split; auto. split; auto. split.
        -- exists (elems l ++ (j, y) :: l1), l2. rewrite Lt. simpl. rewrite E1, E2. lists.
           split; auto. split; auto. split; auto.
           rewrite Forall_app. split; auto.
           eapply lt_trans_Forall_l; eauto.
        -- destruct t' as [|k z c tl tr]; [congruence|]. exists k. split; auto.
      * destruct H as (j' & y' & Hin & Heq & (a & Ha & La)).
        cbn [insUp link]. rewrite Ha.
        do 3 eexists; split; [reflexivity|]. split; [simpl; lia|]. split.
        { cbn [elems]. rewrite map_app. cbn [map]. constructor.
          - apply in_or_app. right. right. destruct r; [discriminate|]. simpl in *. injection Ha as ->.
            rewrite map_app. apply in_or_app. right. simpl. auto.
          - eapply Forall_impl; [|exact Fp]. intros q Hq. apply in_or_app. simpl. auto. }
        exists j', y'. simpl. rewrite in_app_iff. simpl. split; auto. split; auto.
        exists j. auto.
    + do 3 eexists; split; [reflexivity|]. split; [simpl; lia|]. split; [constructor|].
      exists j, y. cbn [elems]. rewrite in_app_iff. split; [simpl; auto|]. split.
      * unfold eqk. rewrite Exy, Eyx. auto.
      * exists j. auto.
Qed.

Lemma removeVal_ok x t :
  balanced t -> sorted (elems t) ->
  exists t' rm done', removeVal lt x t false = Ok (t', rm, done') /\
  match rm with
  | None => t' = t /\ done' = true /\ Forall (fun e => eqk lt (snd e) x = false) (elems t)
  | Some j => shrunk t t' done' /\ exists (l1 : list (nat * A)) y (l2 : list (nat * A)), elems t = l1 ++ (j, y) :: l2 /\
                elems t' = l1 ++ l2 /\ eqk lt y x = true
  end.
Proof.
  induction t as [|j y b l IHl r IHr]; intros B S.
  - do 3 eexists; split; [reflexivity|]. simpl. auto.
  - simpl in S. destruct (sorted_mid _ _ _ S) as (Sl & Sr & Fl & Fr).
    pose proof B as (Bl & Br & _ & _). cbn [removeVal].
    destruct (lt x y) eqn:Exy; [|destruct (lt y x) eqn:Eyx].
    + destruct (IHl Bl Sl) as (l' & rm & dn & E & H). rewrite E. cbn [obind].
      destruct rm as [k|].
      * destruct H as (Sh & l1 & z & l2 & E1 & E2 & Ez).
        destruct (balanceAfterRemove_ok false j y j y b l r l' dn B Sh) as (t' & dn' & Et & St & Lt).
        cbn [setLink] in Et, Lt. rewrite Et. cbn [obind].
        do 3 eexists; split; [reflexivity|]. split; auto.
        exists l1, z, (l2 ++ (j, y) :: elems r). rewrite Lt. simpl. rewrite E1, E2. lists.
      * destruct H as (-> & -> & F). simpl. do 3 eexists; split; [reflexivity|].
        split; auto. split; auto. rewrite Forall_app. split; auto. constructor.
        -- unfold eqk. simpl. rewrite Exy. rewrite andb_false_r. auto.
        -- eapply Forall_impl; [|apply Fr]. unfold ltE. simpl. intros e He.
           unfold eqk. rewrite (sw_trans _ SW _ _ _ Exy He). rewrite andb_false_r. auto.
    + destruct (IHr Br Sr) as (r' & rm & dn & E & H). rewrite E. cbn [obind].
      destruct rm as [k|].
      * destruct H as (Sh & l1 & z & l2 & E1 & E2 & Ez).
        destruct (balanceAfterRemove_ok true j y j y b l r r' dn B Sh) as (t' & dn' & Et & St & Lt).
        cbn [setLink] in Et, Lt. rewrite Et. cbn [obind].
        do 3 eexists; split; [reflexivity|]. split; auto.
        exists (elems l ++ (j, y) :: l1), z, l2. rewrite Lt. simpl. rewrite E1, E2. lists.
      * destruct H as (-> & -> & F). simpl. do 3 eexists; split; [reflexivity|].
        split; auto. split; auto. rewrite Forall_app. split; auto; [|constructor; auto].
        -- eapply Forall_impl; [|apply Fl]. unfold ltE. simpl. intros e He.
           unfold eqk. rewrite (sw_trans _ SW _ _ _ He Eyx). auto.
        -- unfold eqk. simpl. rewrite Eyx. auto.
    + destruct (removeRootNode_ok j y b l r B) as (t' & dn & Et & St & Lt).
      rewrite Et. cbn [obind]. do 3 eexists; split; [reflexivity|]. split; auto.
      exists (elems l), y, (elems r). simpl. split; auto. split; auto.
      unfold eqk. rewrite Exy, Eyx. auto.
Qed.
End Avl.
