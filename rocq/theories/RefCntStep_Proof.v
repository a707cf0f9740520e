From Verif Require Import Common RefCnt_Spec RefCnt_Model RefCnt_Proof.

Lemma upd_last {A} (l : list A) x y : upd (l ++ [x]) (length l) y = l ++ [y].
Proof. induction l; cbn; auto. rewrite IHl. reflexivity. Qed.
Lemma nth_last {A} (l : list A) x : nth_error (l ++ [x]) (length l) = Some x.
Proof. rewrite nth_error_app2, Nat.sub_diag; auto. Qed.
Lemma nth_app_some {A} (l l' : list A) i x : nth_error l i = Some x -> nth_error (l ++ l') i = Some x.
Proof. intros H. rewrite nth_error_app1; auto. eapply nth_len; eauto. Qed.
Lemma upd_app1 {A} (l l' : list A) i x : i < length l -> upd (l ++ l') i x = upd l i x ++ l'.
Proof.
  revert i. induction l as [|a l IH]; intros [|i] H; cbn in *; try lia; auto. rewrite IH by lia. reflexivity.
Qed.

Lemma newSlot_inv h p todo : Inv h (occ p ++ todo) -> Inv (newSlot h None p) todo.
Proof.
  intros I. split; cbn [newSlot objs slots destroyed].
  - intros o. pose proof (iC _ _ I o) as C. rewrite cnt_app in C. rewrite targets_app, cnt_app.
    cbn [targets flat_map starget sLive sPtr]. rewrite app_nil_r.
    destruct (nth_error (objs h) o) as [[c []]|]; lia.
  - intros i s x Hi Hl Hw. destruct (Nat.lt_ge_cases i (length (slots h))) as [L|L].
    + rewrite nth_error_app1 in Hi by auto. apply (iO _ _ I i s x Hi Hl Hw).
    + rewrite nth_error_app2 in Hi by auto. destruct (i - length (slots h)) as [|[|k]]; cbn in Hi; try discriminate.
      injection Hi as <-. discriminate.
  - apply I.
Qed.

Lemma targets_members m o : targets (repeat (mkSlot true o None) m) = [].
Proof. induction m; cbn; auto. Qed.

Definition withObj (h : heap) (m c : nat) : heap :=
  mkHeap (objs h ++ [(c, true)]) (slots h ++ repeat (mkSlot true (Some (length (objs h))) None) m) (destroyed h).

Lemma newObj_eq h m : newObj h m = (withObj h m 0, length (objs h)).
Proof. reflexivity. Qed.

Lemma withObj_inv h m todo : Inv h todo -> Inv (withObj h m 1) (length (objs h) :: todo).
Proof.
  intros I. set (n := length (objs h)). split; cbn [withObj objs slots destroyed].
  - intros o. pose proof (iC _ _ I o) as C. rewrite targets_app, targets_members, app_nil_r.
    destruct (Nat.lt_trichotomy o n) as [L|[->|G]].
    + rewrite nth_error_app1, count_occ_cons_neq by (subst n; lia). exact C.
    + subst n. rewrite nth_last, count_occ_cons_eq by auto.
      rewrite (proj2 (nth_error_None _ _)) in C by lia. lia.
    + rewrite nth_error_app2, count_occ_cons_neq by (subst n; lia).
      rewrite (proj2 (nth_error_None _ _)) in C by (subst n; lia).
      rewrite (proj2 (nth_error_None _ _)) by (cbn; subst n; lia). exact C.
  - intros i s x Hi Hl Hw. destruct (Nat.lt_ge_cases i (length (slots h))) as [L|L].
    + rewrite nth_error_app1 in Hi by auto. destruct (iO _ _ I i s x Hi Hl Hw) as [c Hc].
      exists c. cbn [withObj objs]. apply nth_app_some; auto.
    + rewrite nth_error_app2 in Hi by auto. apply nth_error_In, repeat_spec in Hi. subst s.
      injection Hw as <-. exists 1. apply nth_last.
  - destruct (iD _ _ I) as [Dn Dd]. split; auto. intros x. rewrite Dd. split; intros [c Hc].
    + exists c. apply nth_app_some; auto.
    + exists c. destruct (Nat.lt_ge_cases x n) as [L|L].
      * rewrite nth_error_app1 in Hc by auto. exact Hc.
      * rewrite nth_error_app2 in Hc by auto. destruct (x - length (objs h)) as [|[|k]]; cbn in Hc; discriminate.
Qed.

Lemma addRef_newSlot h p w q : addRef (newSlot h w q) p = let! h := addRef h p in Ok (newSlot h w q).
Proof.
  destruct p as [o|]; cbn [addRef newSlot objs]; auto.
  destruct (nth_error (objs h) o) as [[c []]|]; reflexivity.
Qed.

Lemma getPtr_ok h i s : nth_error (slots h) i = Some s -> sLive s = true -> getPtr h i = Ok (sPtr s).
Proof. intros H L. unfold getPtr. rewrite H, L. reflexivity. Qed.

(** releasePtr, with a reference kept aside *)
Lemma releasePtr_ok h i s D : Inv h D -> nth_error (slots h) i = Some s -> sLive s = true ->
  exists h', releasePtr h i = Ok h' /\ Inv h' D /\
    Shr (upd (slots h) i (mkSlot true (sOwner s) None)) h' /\ length (objs h') = length (objs h).
Proof.
  intros I Hi Hl. unfold releasePtr. rewrite (getPtr_ok _ _ _ Hi Hl). cbn [obind].
  destruct (setPtr_ok h i s None D (occ (sPtr s) ++ D) I Hi Hl) as [E I1].
  { intros o. rewrite cnt_app. cbn. lia. }
  rewrite E. cbn [obind].
  destruct (relPtr_ok _ _ _ I1) as (h' & R & I' & S' & L). eauto.
Qed.

Lemma releasePtr_keep h i s D k sk : Inv h D -> nth_error (slots h) i = Some s -> sLive s = true ->
  k <> i -> nth_error (slots h) k = Some sk -> sLive sk = true -> sPtr sk = sPtr s ->
  exists h', releasePtr h i = Ok h' /\ Inv h' D /\
    slots h' = upd (slots h) i (mkSlot true (sOwner s) None) /\ length (objs h') = length (objs h).
Proof.
  intros I Hi Hl Nk Hk Lk E. unfold releasePtr. rewrite (getPtr_ok _ _ _ Hi Hl). cbn [obind].
  destruct (setPtr_ok h i s None D (occ (sPtr s) ++ D) I Hi Hl) as [E1 I1].
  { intros o. rewrite cnt_app. cbn. lia. }
  rewrite E1. cbn [obind]. destruct (sPtr s) as [o|] eqn:Ep.
  - destruct (relPtr_shared _ o D I1) as (h' & R & I' & S' & L); eauto.
    cbn [setSlot slots]. eapply targets_in with (i := k) (s := sk); auto.
    rewrite nth_error_upd_ne; auto.
  - cbn [relPtr]. eexists; split; [reflexivity|]. split; [exact I1|]. split; reflexivity.
Qed.

(** when the assignment is safe, both variables are still there after releasing *)
Lemma releasePtr_safe h i j s sj D : Inv h D -> nth_error (slots h) i = Some s -> sLive s = true ->
  i <> j -> nth_error (slots h) j = Some sj -> sLive sj = true -> psafe (view h) i j ->
  exists h', releasePtr h i = Ok h' /\ Inv h' D /\
    Shr (upd (slots h) i (mkSlot true (sOwner s) None)) h' /\ length (objs h') = length (objs h) /\
    nth_error (slots h') i = Some (mkSlot true (sOwner s) None) /\ nth_error (slots h') j = Some sj.
Proof.
  intros I Hi Hl N Hj Lj Sf. pose proof (nth_len _ _ _ Hi) as Li.
  assert (Ei : nth_error (upd (slots h) i (mkSlot true (sOwner s) None)) i = Some (mkSlot true (sOwner s) None))
    by (apply nth_error_upd_eq; auto).
  assert (Ej : nth_error (upd (slots h) i (mkSlot true (sOwner s) None)) j = Some sj)
    by (rewrite nth_error_upd_ne; auto).
  destruct Sf as [[Oi Oj]|[Z|(k & Nk & Tk & Vk)]].
  - destruct (releasePtr_ok h i s D I Hi Hl) as (h' & R & I' & S' & L).
    exists h'. split; auto. split; auto. split; auto. split; auto.
    apply outer_slot in Oi as (s0 & H0 & _ & W0). rewrite Hi in H0. injection H0 as <-.
    apply outer_slot in Oj as (s0 & H0 & _ & W1). rewrite Hj in H0. injection H0 as <-.
    destruct S' as [_ S']. split.
    + destruct (S' _ _ Ei) as [|[_ (x & Hx & _)]]; auto. cbn in Hx. congruence.
    + destruct (S' _ _ Ej) as [|[_ (x & Hx & _)]]; auto. congruence.
  - rewrite (pvalue_view _ _ _ Hi) in Z. unfold releasePtr.
    rewrite (getPtr_ok _ _ _ Hi Hl). cbn [obind].
    destruct (setPtr_ok h i s None D D I Hi Hl) as [E1 I1].
    { intros o. rewrite Z. cbn. lia. }
    rewrite E1, Z. cbn [obind relPtr]. eexists; split; [reflexivity|].
    split; [exact I1|]. split; [apply Shr_refl|]. split; auto.
  - apply there_slot in Tk as (sk & Hk & Lk). rewrite (pvalue_view _ _ _ Hk), (pvalue_view _ _ _ Hi) in Vk.
    destruct (releasePtr_keep h i s D k sk I Hi Hl Nk Hk Lk Vk) as (h' & R & I' & S' & L).
    exists h'. split; auto. split; auto. rewrite <- S' in *. split; [apply Shr_refl|]. auto.
Qed.

Lemma Shr_upd w h i s s' : Shr w h -> nth_error (slots h) i = Some s -> Shr (upd w i s') (setSlot h i s').
Proof.
  intros [L H] Hi. split; cbn [setSlot slots destroyed]. { rewrite !upd_length. auto. }
  pose proof (nth_len _ _ _ Hi) as Li.
  intros k x Hk. destruct (Nat.eq_dec k i) as [->|Ne].
  - rewrite nth_error_upd_eq in * by lia. auto.
  - rewrite nth_error_upd_ne in * by auto. auto.
Qed.

Lemma upd_upd {A} (l : list A) : forall i x y, upd (upd l i x) i y = upd l i y.
Proof. induction l as [|a l IH]; intros [|i] x y; cbn; auto. rewrite IH. reflexivity. Qed.
Lemma upd_comm {A} (l : list A) : forall i j x y, i <> j -> upd (upd l i x) j y = upd (upd l j y) i x.
Proof.
  induction l as [|a l IH]; intros [|i] [|j] x y N; cbn; auto; try congruence. rewrite IH; auto.
Qed.

(** at least two references *)
Lemma two_refs l i s o : nth_error l i = Some s -> sLive s = true -> sPtr s = Some o ->
  (2 <= cnt (targets l) o <->
   exists k sk, k <> i /\ nth_error l k = Some sk /\ sLive sk = true /\ sPtr sk = Some o).
Proof.
  intros Hi Hl Hp. pose proof (nth_len _ _ _ Hi) as Li.
  pose proof (targets_upd l i s (mkSlot false None None) o Hi) as T.
  unfold starget at 1 2 in T. rewrite Hl, Hp in T. cbn [sLive occ] in T.
  rewrite count_occ_cons_eq in T by auto. cbn [count_occ] in T. split.
  - intros G. assert (P : cnt (targets (upd l i (mkSlot false None None))) o > 0) by lia.
    apply count_occ_In in P. apply in_flat_map in P as (sk & Hk & Hs).
    apply In_nth_error in Hk as [k Hk]. exists k, sk. destruct (Nat.eq_dec k i) as [->|Ne].
    + rewrite nth_error_upd_eq in Hk by auto. injection Hk as <-. destruct Hs.
    + rewrite nth_error_upd_ne in Hk by auto. split; auto. split; auto.
      unfold starget in Hs. destruct (sLive sk); [|destruct Hs]. split; auto.
      destruct (sPtr sk); cbn in Hs; [destruct Hs as [->|[]]; auto|destruct Hs].
  - intros (k & sk & Ne & Hk & Lk & Pk).
    assert (1 <= cnt (targets (upd l i (mkSlot false None None))) o); [|lia].
    eapply targets_in with (i := k); eauto. rewrite nth_error_upd_ne; auto.
Qed.

Lemma step_ok h op : Inv h [] -> pallowed op (view h) ->
  exists h' a w, rstep op h = Ok (h', a) /\ Inv h' [] /\
    map vw w = pwanted (length (objs h)) op (view h) /\ Shr w h' /\
    length (objs h') = length (objs h) + (if pcreates op then 1 else 0) /\
    panswer op (view h) a.
Proof.
  intros I A. destruct op as [|m|j|j|i j|i j|i|i|i j|i m|i]; cbn [pallowed rstep pwanted pcreates panswer] in *.
  - (* PNull *)
    do 3 eexists. split; [reflexivity|]. split; [apply newSlot_inv; exact I|].
    split; [|split; [apply Shr_refl|split; [cbn; lia|reflexivity]]].
    cbn [newSlot slots]. rewrite map_app. reflexivity.
  - (* PNew *)
    rewrite newObj_eq, addRef_newSlot. cbn [addRef withObj objs]. rewrite nth_last, upd_last. cbn [obind].
    do 3 eexists. split; [reflexivity|].
    split; [apply newSlot_inv; apply (withObj_inv h m [] I)|].
    split; [|split; [apply Shr_refl|split; [cbn [newSlot objs]; rewrite app_length; reflexivity|reflexivity]]].
    cbn [newSlot withObj slots]. rewrite !map_app, <- app_assoc. unfold view. f_equal. f_equal.
    clear. induction m; cbn; auto. rewrite IHm. reflexivity.
  - (* PCopy *)
    apply there_slot in A as (s & Hj & Lj). rewrite (getPtr_ok _ _ _ Hj Lj). cbn [obind].
    rewrite addRef_newSlot.
    destruct (addRef_ok h (sPtr s) [] I) as (h1 & R & I1 & S1 & D1 & L1).
    { intros o Ho. eapply slot_alive; eauto. }
    rewrite R. cbn [obind]. do 3 eexists. split; [reflexivity|].
    split; [apply newSlot_inv; exact I1|].
    split; [|split; [apply Shr_refl|split; [cbn; lia|reflexivity]]].
    cbn [newSlot slots]. rewrite map_app, S1, (pvalue_view _ _ _ Hj). reflexivity.
  - (* PMoveNew *)
    apply there_slot in A as (s & Hj & Lj). rewrite (getPtr_ok _ _ _ Hj Lj). cbn [obind].
    pose proof (nth_len _ _ _ Hj) as Lj'.
    assert (Q : setPtr (newSlot h None (sPtr s)) j None =
       Ok (newSlot (setSlot h j (mkSlot true (sOwner s) None)) None (sPtr s))).
    { unfold setPtr, newSlot, setSlot. cbn [slots objs destroyed]. rewrite nth_error_app1, Hj, Lj by auto.
      rewrite upd_app1 by auto. reflexivity. }
    rewrite Q. cbn [obind].
    destruct (setPtr_ok h j s None [] (occ (sPtr s) ++ []) I Hj Lj) as [_ I1].
    { intros o. rewrite cnt_app. cbn. lia. }
    do 3 eexists. split; [reflexivity|].
    split; [apply newSlot_inv; exact I1|].
    split; [|split; [apply Shr_refl|split; [cbn; lia|reflexivity]]].
    cbn [newSlot setSlot slots]. rewrite map_app. unfold view.
    rewrite (pset_map _ _ s None Hj Lj). fold (view h). rewrite (pvalue_view _ _ _ Hj). reflexivity.
  - (* PAssign *)
    destruct A as (N & Ti & Tj & Sf). apply there_slot in Ti as (s & Hi & Li).
    apply there_slot in Tj as (sj & Hj & Lj). rewrite (getPtr_ok _ _ _ Hj Lj). cbn [obind].
    destruct (addRef_ok h (sPtr sj) [] I) as (h1 & R & I1 & S1 & D1 & L1).
    { intros o Ho. eapply slot_alive with (i := j); eauto. }
    rewrite R. cbn [obind].
    assert (V1 : view h1 = view h) by (unfold view; rewrite S1; auto).
    destruct (releasePtr_safe h1 i j s sj (occ (sPtr sj) ++ [])) as (h2 & R2 & I2 & Sh & L2 & Ei & Ej);
      auto; try (rewrite S1; assumption); try (rewrite V1; assumption).
    rewrite R2. cbn [obind]. rewrite (getPtr_ok _ _ _ Ej Lj). cbn [obind].
    destruct (setPtr_ok h2 i _ (sPtr sj) _ [] I2 Ei eq_refl) as [E3 I3].
    { intros o. rewrite cnt_app. cbn. lia. }
    rewrite E3. cbn [obind]. do 3 eexists. split; [reflexivity|]. split; [exact I3|].
    split; [|split; [apply (Shr_upd _ _ _ _ _ Sh Ei)|split; [cbn; lia|reflexivity]]].
    cbn [sOwner]. rewrite upd_upd, S1. unfold view. rewrite (pset_map _ _ s _ Hi Li).
    fold (view h). rewrite (pvalue_view _ _ _ Hj). reflexivity.
  - (* PMove *)
    destruct A as (Ti & Tj & Sf). apply there_slot in Ti as (s & Hi & Li).
    apply there_slot in Tj as (sj & Hj & Lj).
    destruct (Nat.eqb_spec i j) as [E|N].
    { do 3 eexists. split; [reflexivity|]. split; [exact I|].
      split; [|split; [apply Shr_refl|split; [cbn; lia|reflexivity]]]. reflexivity. }
    destruct Sf as [|Sf]; [contradiction|].
    destruct (releasePtr_safe h i j s sj []) as (h2 & R2 & I2 & Sh & L2 & Ei & Ej); auto.
    rewrite R2. cbn [obind]. rewrite (getPtr_ok _ _ _ Ej Lj). cbn [obind].
    unfold setPtr at 1. rewrite Ei. cbn [sLive obind sOwner].
    unfold setPtr. cbn [setSlot slots]. rewrite nth_error_upd_ne, Ej, Lj by auto. cbn [obind].
    do 3 eexists. split; [reflexivity|].
    assert (Ls : i < length (slots h2)) by (eapply nth_len; eauto).
    split.
    + (* j first, then i: the same heap *)
      destruct (setPtr_ok h2 j sj None [] (occ (sPtr sj) ++ []) I2 Ej Lj) as [_ I3].
      { intros o. rewrite cnt_app. cbn. lia. }
      assert (Ei' : nth_error (slots (setSlot h2 j (mkSlot true (sOwner sj) None))) i = Some (mkSlot true (sOwner s) None))
        by (cbn [setSlot slots]; rewrite nth_error_upd_ne; auto).
      destruct (setPtr_ok _ i _ (sPtr sj) _ [] I3 Ei' eq_refl) as [_ I4].
      { intros o. rewrite cnt_app. cbn. lia. }
      unfold setSlot in *. cbn [objs slots destroyed sOwner] in *. rewrite upd_comm by auto. exact I4.
    + split; [|split; [|split; [cbn; lia|reflexivity]]].
      2:{ eapply Shr_upd; [eapply Shr_upd; [exact Sh|exact Ei]|].
          cbn [setSlot slots]. rewrite nth_error_upd_ne; eauto. }
      rewrite upd_upd. unfold view. rewrite (pset_map _ _ s _ Hi Li).
      rewrite (pset_map _ j sj _) ; auto; [|rewrite nth_error_upd_ne; auto].
      fold (view h). rewrite (pvalue_view _ _ _ Hj). reflexivity.
  - (* PClear *)
    apply there_slot in A as (s & Hi & Li).
    destruct (releasePtr_ok h i s [] I Hi Li) as (h' & R & I' & S' & L').
    rewrite R. cbn [obind]. do 3 eexists. split; [reflexivity|]. split; [exact I'|].
    split; [|split; [exact S'|split; [lia|reflexivity]]].
    unfold view. rewrite (pset_map _ _ s _ Hi Li). reflexivity.
  - (* PDrop *)
    apply outer_slot in A as (s & Hi & Li & Wi). rewrite Hi, Li.
    destruct (relPtr_ok (setSlot h i (mkSlot false (sOwner s) None)) (sPtr s) []) as (h' & R & I' & S' & L').
    { split; cbn [setSlot objs slots destroyed].
      - intros o. pose proof (iC _ _ I o) as C. rewrite app_nil_r.
        pose proof (targets_upd (slots h) i s (mkSlot false (sOwner s) None) o Hi) as T.
        unfold starget at 1 2 in T. cbn [sLive sPtr] in T. rewrite Li in T. cbn [count_occ] in T, C.
        destruct (nth_error (objs h) o) as [[c []]|]; lia.
      - intros k s' x Hk Hl' Hw. destruct (Nat.eq_dec k i) as [->|Ne].
        + rewrite nth_error_upd_eq in Hk by (eapply nth_len; eauto). injection Hk as <-. discriminate.
        + rewrite nth_error_upd_ne in Hk by auto. apply (iO _ _ I k s' x Hk Hl' Hw).
      - apply I. }
    rewrite R. cbn [obind]. do 3 eexists. split; [reflexivity|]. split; [exact I'|].
    split; [|split; [exact S'|split; [cbn in L'; lia|reflexivity]]].
    cbn [setSlot slots]. rewrite map_upd. unfold view. rewrite nth_error_map, Hi. reflexivity.
  - (* PSwap *)
    destruct A as (Ti & Tj). apply there_slot in Ti as (s & Hi & Li).
    apply there_slot in Tj as (sj & Hj & Lj).
    rewrite (getPtr_ok _ _ _ Hi Li), (getPtr_ok _ _ _ Hj Lj). cbn [obind].
    unfold setPtr at 1. rewrite Hi, Li. cbn [obind].
    pose proof (nth_len _ _ _ Hi) as Ls.
    destruct (Nat.eq_dec i j) as [<-|N].
    + rewrite Hi in Hj. injection Hj as <-.
      assert (Q : setSlot h i (mkSlot true (sOwner s) (sPtr s)) = h).
      { destruct h as [ob sl de]. unfold setSlot. cbn [slots objs destroyed] in *. f_equal.
        replace (mkSlot true (sOwner s) (sPtr s)) with s by (destruct s; cbn in Li; subst; auto).
        clear -Hi. revert i Hi. induction sl as [|a l IH]; intros [|i] Hi; cbn in *; try discriminate.
        - injection Hi as ->. auto. - rewrite IH; auto. }
      rewrite Q. unfold setPtr. rewrite Hi, Li, Q. cbn [obind].
      do 3 eexists. split; [reflexivity|]. split; [exact I|].
      split; [|split; [apply Shr_refl|split; [lia|reflexivity]]].
      rewrite (pvalue_view _ _ _ Hi). unfold view. rewrite (pset_map _ _ s _ Hi Li).
      replace (upd (slots h) i (mkSlot true (sOwner s) (sPtr s))) with (slots h)
        by (rewrite <- Q at 1; reflexivity).
      rewrite (pset_map _ _ s _ Hi Li). f_equal. rewrite <- Q at 1. reflexivity.
    + unfold setPtr. cbn [setSlot slots]. rewrite nth_error_upd_ne, Hj, Lj by auto. cbn [obind].
      do 3 eexists. split; [reflexivity|]. split.
      * destruct (setPtr_ok h j sj None [] (occ (sPtr sj)) I Hj Lj) as [_ I1]; [cbn; lia|].
        assert (E1 : nth_error (slots (setSlot h j (mkSlot true (sOwner sj) None))) i = Some s)
          by (cbn [setSlot slots]; rewrite nth_error_upd_ne; auto).
        destruct (setPtr_ok _ i s (sPtr sj) _ (occ (sPtr s)) I1 E1 Li) as [_ I2]; [intros; lia|].
        assert (E2 : nth_error (slots (setSlot (setSlot h j (mkSlot true (sOwner sj) None)) i
                        (mkSlot true (sOwner s) (sPtr sj)))) j = Some (mkSlot true (sOwner sj) None)).
        { cbn [setSlot slots]. rewrite nth_error_upd_ne by auto. apply nth_error_upd_eq. eapply nth_len; eauto. }
        destruct (setPtr_ok _ j _ (sPtr s) _ [] I2 E2 eq_refl) as [_ I3]; [intros; cbn; lia|].
        unfold setSlot in *. cbn [objs slots destroyed sOwner] in *.
        rewrite (upd_comm _ j i), upd_upd in I3 by auto. exact I3.
      * split; [|split; [apply Shr_refl|split; [cbn; lia|reflexivity]]].
        cbn [setSlot slots]. unfold view. rewrite (pset_map _ _ s _ Hi Li).
        rewrite (pset_map _ j sj _); auto; [|rewrite nth_error_upd_ne; auto].
        fold (view h). rewrite (pvalue_view _ _ _ Hj), (pvalue_view _ _ _ Hi). reflexivity.
  - (* PCreate *)
    destruct A as (Ti & Z). apply there_slot in Ti as (s & Hi & Li).
    rewrite (pvalue_view _ _ _ Hi) in Z. rewrite (getPtr_ok _ _ _ Hi Li), Z. cbn [obind].
    unfold setPtr at 1. rewrite Hi, Li. cbn [obind]. rewrite newObj_eq.
    set (n := length (objs h)). pose proof (nth_len _ _ _ Hi) as Ls.
    replace (length (objs (setSlot h i (mkSlot true (sOwner s) None)))) with n by reflexivity.
    replace (setSlot h i (mkSlot true (sOwner s) None)) with h.
    2:{ destruct h as [ob sl de]. unfold setSlot. cbn [slots objs destroyed] in *. f_equal.
        replace (mkSlot true (sOwner s) None) with s by (destruct s; cbn in Li, Z; subst; auto).
        clear -Hi. revert i Hi. induction sl as [|a l IH]; intros [|i] Hi; cbn in *; try discriminate.
        - injection Hi as ->. auto. - rewrite <- IH; auto. }
    pose proof (withObj_inv h m [] I) as I1.
    assert (E1 : nth_error (slots (withObj h m 1)) i = Some s) by (cbn [withObj slots]; apply nth_app_some; auto).
    destruct (setPtr_ok _ i s (Some n) _ [] I1 E1 Li) as [_ I2].
    { intros o. rewrite Z. cbn [occ count_occ]. subst n. lia. }
    unfold setPtr. change (slots (withObj h m 0)) with (slots (withObj h m 1)). rewrite E1, Li. cbn [obind].
    cbn [addRef setSlot withObj objs]. subst n. rewrite nth_last, upd_last. cbn [obind].
    do 3 eexists. split; [reflexivity|]. split; [exact I2|].
    split; [|split; [apply Shr_refl|split; [cbn [setSlot withObj objs]; rewrite app_length; reflexivity|reflexivity]]].
    cbn [setSlot withObj slots]. rewrite upd_app1 by auto. rewrite map_app. unfold view. rewrite (pset_map _ _ s _ Hi Li).
    f_equal. clear. induction m; cbn; auto. rewrite IHm. reflexivity.
  - (* PShared *)
    apply there_slot in A as (s & Hi & Li). rewrite (getPtr_ok _ _ _ Hi Li). cbn [obind].
    destruct (sPtr s) as [o|] eqn:Ep.
    + destruct (slot_alive h [] i s o I Hi Li Ep) as [c Hc]. rewrite Hc.
      pose proof (iC _ _ I o) as C. rewrite Hc in C. cbn [count_occ] in C.
      do 3 eexists. split; [reflexivity|]. split; [exact I|].
      split; [|split; [apply Shr_refl|split; [lia|]]]. { reflexivity. }
      eexists; split; [reflexivity|].
      rewrite Nat.ltb_lt, (pvalue_view _ _ _ Hi), Ep.
      destruct (two_refs _ _ _ _ Hi Li Ep) as [T1 T2]. split.
      * intros G. destruct T1 as (k & sk & Ne & Hk & Lk & Pk); [lia|].
        exists k, o. split; auto. split.
        { exists (vw sk). unfold view. rewrite nth_error_map, Hk. auto. }
        split; auto. rewrite (pvalue_view _ _ _ Hk). auto.
      * intros (k & x & Ne & Tk & Ex & Vk). injection Ex as <-. apply there_slot in Tk as (sk & Hk & Lk).
        rewrite (pvalue_view _ _ _ Hk) in Vk.
        assert (2 <= cnt (targets (slots h)) o) by (apply T2; eauto 8). lia.
    + do 3 eexists. split; [reflexivity|]. split; [exact I|].
      split; [|split; [apply Shr_refl|split; [lia|]]]. { reflexivity. }
      eexists; split; [reflexivity|]. rewrite (pvalue_view _ _ _ Hi), Ep. split; [discriminate|].
      intros (k & x & _ & _ & Ex & _). discriminate.
Qed.
