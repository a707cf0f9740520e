From Verif Require Import Common RefCnt_Spec RefCnt_Model.
From Coq Require Import Permutation.

Notation cnt := (count_occ Nat.eq_dec).
Definition occ (p : option nat) : list nat := match p with Some o => [o] | None => [] end.

Definition starget (s : slot) : list nat := if sLive s then occ (sPtr s) else [].
Definition targets (l : list slot) : list nat := flat_map starget l.

Definition aliveObj (h : heap) (o : nat) : Prop := exists c, nth_error (objs h) o = Some (c, true).

Record Inv (h : heap) (todo : list nat) : Prop := {
  iC : forall o, match nth_error (objs h) o with
                 | Some (c, true) => c = cnt (targets (slots h)) o + cnt todo o /\ 1 <= c
                 | _ => cnt (targets (slots h)) o + cnt todo o = 0
                 end;
  iO : forall i s x, nth_error (slots h) i = Some s -> sLive s = true -> sOwner s = Some x -> aliveObj h x;
  iD : NoDup (destroyed h) /\
       forall o, In o (destroyed h) <-> exists c, nth_error (objs h) o = Some (c, false) }.

(** the slots of h are those of w, except that members of destroyed objects went away *)
Definition Shr (w : list slot) (h : heap) : Prop :=
  length (slots h) = length w /\
  forall i s, nth_error w i = Some s ->
    nth_error (slots h) i = Some s \/
    (sLive s = true /\ exists x, sOwner s = Some x /\ In x (destroyed h) /\
      nth_error (slots h) i = Some (mkSlot false (sOwner s) None)).

Lemma cnt_app l l' o : cnt (l ++ l') o = cnt l o + cnt l' o.
Proof. apply count_occ_app. Qed.

Lemma Inv_ext h t t' : (forall o, cnt t o = cnt t' o) -> Inv h t -> Inv h t'.
Proof.
  intros E [C O D]. split; auto. intros o. specialize (C o).
  destruct (nth_error (objs h) o) as [[c []]|]; rewrite <- E; auto.
Qed.

Lemma targets_app l l' : targets (l ++ l') = targets l ++ targets l'.
Proof. apply flat_map_app. Qed.

Lemma nth_len {A} (l : list A) i x : nth_error l i = Some x -> i < length l.
Proof. intros H. apply nth_error_Some. congruence. Qed.

Lemma targets_upd l : forall i s s' o, nth_error l i = Some s ->
  cnt (targets (upd l i s')) o + cnt (starget s) o = cnt (targets l) o + cnt (starget s') o.
Proof.
  induction l as [|a l IH]; intros [|i] s s' o H; try discriminate; cbn [nth_error] in H.
  - injection H as ->. cbn [upd targets flat_map]. rewrite !cnt_app. lia.
  - cbn [upd targets flat_map]. rewrite !cnt_app. specialize (IH i s s' o H). unfold targets in IH. lia.
Qed.

Lemma targets_length l : length (targets l) <= length l.
Proof.
  induction l as [|s l IH]; cbn [targets flat_map length]; auto.
  rewrite app_length. fold (targets l). unfold starget at 1.
  destruct (sLive s), (sPtr s); cbn [occ length]; lia.
Qed.

(** ** killing the members *)
Definition kslot (o : nat) (s : slot) := if isMember o s then mkSlot false (sOwner s) None else s.
Definition kt (o : nat) (s : slot) : list nat :=
  if isMember o s then match sPtr s with Some t => [t] | None => [] end else [].

Lemma kill_eq h o : killMembers h o =
  (mkHeap (upd (objs h) o (0, false)) (map (kslot o) (slots h)) (destroyed h ++ [o]), flat_map (kt o) (slots h)).
Proof. reflexivity. Qed.

Lemma kslot_cnt o s x : cnt (starget (kslot o s)) x + cnt (kt o s) x = cnt (starget s) x.
Proof.
  unfold kslot, kt. destruct (isMember o s) eqn:E; cbn; [|lia].
  unfold isMember in E. apply andb_true_iff in E as [E _]. unfold starget. rewrite E. cbn [sLive].
  destruct (sPtr s); cbn; lia.
Qed.

Lemma kill_cnt o l x : cnt (targets (map (kslot o) l)) x + cnt (flat_map (kt o) l) x = cnt (targets l) x.
Proof.
  induction l as [|s l IH]; cbn [map targets flat_map]; auto. unfold targets in IH.
  rewrite !cnt_app. pose proof (kslot_cnt o s x). lia.
Qed.

Lemma kill_len o l : length (targets (map (kslot o) l)) + length (flat_map (kt o) l) = length (targets l).
Proof.
  induction l as [|s l IH]; cbn [map targets flat_map]; auto. unfold targets in IH.
  rewrite !app_length.
  assert (length (starget (kslot o s)) + length (kt o s) = length (starget s)); [|lia].
  unfold kslot, kt. destruct (isMember o s) eqn:E; cbn; [|lia].
  unfold isMember in E. apply andb_true_iff in E as [E _]. unfold starget. rewrite E. cbn [sLive].
  destruct (sPtr s); cbn; lia.
Qed.

Lemma kill_inv h o c todo : nth_error (objs h) o = Some (c, true) ->
  cnt (targets (slots h)) o + cnt todo o = 0 ->
  (forall x, x <> o -> match nth_error (objs h) x with
                 | Some (c, true) => c = cnt (targets (slots h)) x + cnt todo x /\ 1 <= c
                 | _ => cnt (targets (slots h)) x + cnt todo x = 0
                 end) ->
  (forall i s x, nth_error (slots h) i = Some s -> sLive s = true -> sOwner s = Some x -> aliveObj h x) ->
  (NoDup (destroyed h) /\
       forall o, In o (destroyed h) <-> exists c, nth_error (objs h) o = Some (c, false)) ->
  Inv (fst (killMembers h o)) (snd (killMembers h o) ++ todo) /\
  Shr (slots h) (fst (killMembers h o)).
Proof.
  intros Ho Hz C O D. rewrite kill_eq. cbn [fst snd].
  pose proof (nth_len _ _ _ Ho) as Lo. split.
  - split; cbn [objs slots destroyed].
    + intros x. rewrite cnt_app. pose proof (kill_cnt o (slots h) x) as K.
      destruct (Nat.eq_dec x o) as [->|Ne].
      * rewrite nth_error_upd_eq by auto. lia.
      * rewrite nth_error_upd_ne by auto. specialize (C x Ne).
        destruct (nth_error (objs h) x) as [[c' []]|]; lia.
    + intros i s x Hi Hl Hw. rewrite nth_error_map in Hi.
      destruct (nth_error (slots h) i) as [s0|] eqn:E; cbn in Hi; [|discriminate]. injection Hi as <-.
      unfold kslot in *. destruct (isMember o s0) eqn:M; cbn in Hl; [discriminate|].
      destruct (O _ _ _ E Hl Hw) as [c' Hc]. exists c'. cbn [objs].
      rewrite nth_error_upd_ne; auto. intros ->. unfold isMember in M. rewrite Hl, Hw, Nat.eqb_refl in M.
      discriminate.
    + destruct D as [Dn Dd]. split.
      * apply NoDup_rev in Dn. rewrite <- (rev_involutive (destroyed h ++ [o])). apply NoDup_rev.
        rewrite rev_app_distr. cbn. constructor; auto. rewrite <- in_rev. intros Hi.
        apply Dd in Hi as [c' Hc]. congruence.
      * intros x. rewrite in_app_iff, Dd. cbn. destruct (Nat.eq_dec x o) as [->|Ne].
        -- rewrite nth_error_upd_eq by auto. split; [intros _; eauto|auto].
        -- rewrite nth_error_upd_ne by auto. split; [intros [H|[H|[]]]; auto; congruence|auto].
  - split; cbn [slots destroyed]. { apply map_length. }
    intros i s Hi. rewrite nth_error_map, Hi. cbn. unfold kslot.
    destruct (isMember o s) eqn:M; auto. right. unfold isMember in M. apply andb_true_iff in M as [Ml Mo].
    split; auto. destruct (sOwner s) as [x|]; [|discriminate]. apply Nat.eqb_eq in Mo. subst x.
    exists o. repeat split; try (rewrite in_app_iff; cbn; auto).
Qed.

Lemma Shr_refl h : Shr (slots h) h.
Proof. split; auto. Qed.

Lemma Shr_trans w h1 h2 : Shr w h1 -> Shr (slots h1) h2 ->
  (forall x, In x (destroyed h1) -> In x (destroyed h2)) -> Shr w h2.
Proof.
  intros [L1 H1] [L2 H2] D. split; [congruence|]. intros i s Hi.
  destruct (H1 i s Hi) as [E|[Hl (x & Hx & Hd & E)]].
  - apply H2. exact E.
  - right. split; auto. exists x. split; auto. split; auto.
    destruct (H2 _ _ E) as [E2|[Hl' _]]; auto. discriminate.
Qed.

Lemma release_ok : forall fuel todo D h,
  Inv h (todo ++ D) -> length todo + length (targets (slots h)) <= fuel ->
  exists h', releaseAll fuel todo h = Ok h' /\ Inv h' D /\ Shr (slots h) h' /\
    length (objs h') = length (objs h) /\
    (forall x, In x (destroyed h) -> In x (destroyed h')).
Proof.
  induction fuel as [|f IH]; intros todo D h I F.
  - destruct todo; [|cbn in F; lia]. exists h. split; [reflexivity|]; split; [exact I|]; split; [apply Shr_refl|]; split; auto.
  - destruct todo as [|o rest].
    { exists h. split; [reflexivity|]; split; [exact I|]; split; [apply Shr_refl|]; split; auto. }
    pose proof (iC _ _ I o) as Co. cbn [app] in Co. rewrite count_occ_cons_eq in Co by reflexivity.
    cbn [releaseAll]. destruct (nth_error (objs h) o) as [[c []]|] eqn:Eo; try lia.
    pose proof (nth_len _ _ _ Eo) as Lo. destruct Co as [Ec Hc].
    destruct c as [|[|c]]; [lia| |].
    + destruct (kill_inv h o 1 (rest ++ D) Eo) as [I1 S1].
      * lia.
      * intros x Nx. pose proof (iC _ _ I x) as Cx. cbn [app] in Cx.
        rewrite count_occ_cons_neq in Cx by auto. exact Cx.
      * apply I. 
      * apply I.
      * pose proof (kill_len o (slots h)) as KL.
        rewrite kill_eq in *. cbn [fst snd] in *. rewrite app_assoc in I1.
        destruct (IH _ D _ I1) as (h' & R & I' & S' & Lb & Ds).
        { cbn [slots]. rewrite app_length. cbn [length] in F. lia. }
        exists h'. split; [exact R|]. split; [exact I'|]. split.
        -- eapply Shr_trans; eauto.
        -- split; [rewrite Lb; cbn [objs]; apply upd_length|].
           intros x Hx. apply Ds. cbn [destroyed]. apply in_or_app. auto.
    + set (h1 := mkHeap (upd (objs h) o (S c, true)) (slots h) (destroyed h)).
      assert (I1 : Inv h1 (rest ++ D)).
      { split; subst h1; cbn [objs slots destroyed].
        - intros x. pose proof (iC _ _ I x) as Cx. cbn [app] in Cx.
          destruct (Nat.eq_dec x o) as [->|Ne].
          + rewrite nth_error_upd_eq by auto. rewrite Eo, count_occ_cons_eq in Cx by auto. lia.
          + rewrite nth_error_upd_ne by auto. rewrite count_occ_cons_neq in Cx by auto. exact Cx.
        - intros i s x Hi Hl Hw. destruct (iO _ _ I _ _ _ Hi Hl Hw) as [c' Hc'].
          destruct (Nat.eq_dec x o) as [->|Ne].
          + exists (S c). cbn [objs]. apply nth_error_upd_eq; auto.
          + exists c'. cbn [objs]. rewrite nth_error_upd_ne; auto.
        - destruct (iD _ _ I) as [Dn Dd]. split; auto. intros x. rewrite Dd.
          destruct (Nat.eq_dec x o) as [->|Ne].
          + rewrite nth_error_upd_eq by auto. split; intros [c' Hc']; congruence.
          + rewrite nth_error_upd_ne by auto. reflexivity. }
      destruct (IH rest D h1 I1) as (h' & R & I' & S' & Lb & Ds).
      { cbn [slots h1]. cbn [length] in F. lia. }
      exists h'. split; [exact R|]. repeat split; auto; try apply I'; try apply S'.
      rewrite Lb. apply upd_length.
Qed.

Lemma relPtr_ok h p D : Inv h (occ p ++ D) ->
  exists h', relPtr h p = Ok h' /\ Inv h' D /\ Shr (slots h) h' /\ length (objs h') = length (objs h).
Proof.
  intros I. destruct p as [o|]; cbn [occ app relPtr] in *.
  - destruct (release_ok (S (length (slots h))) [o] D h) as (h' & R & I' & S' & L & _); eauto 8.
    pose proof (targets_length (slots h)). cbn [length]. lia.
  - exists h. repeat split; auto; try apply I; apply Shr_refl.
Qed.

(** when somebody else refers to the object, releasing only counts *)
Lemma relPtr_shared h o D : Inv h (o :: D) -> 1 <= cnt (targets (slots h)) o ->
  exists h', relPtr h (Some o) = Ok h' /\ Inv h' D /\ slots h' = slots h /\ length (objs h') = length (objs h).
Proof.
  intros I G. destruct (relPtr_ok h (Some o) D I) as (h' & R & I' & S' & L).
  exists h'. split; auto. split; auto. split; auto.
  pose proof (iC _ _ I o) as C. rewrite count_occ_cons_eq in C by auto.
  cbn [relPtr releaseAll] in R. destruct (nth_error (objs h) o) as [[c []]|]; try lia.
  destruct c as [|[|c]]; try lia. destruct (length (slots h)); injection R as <-; reflexivity.
Qed.

(** ** changing one slot *)
Lemma setPtr_ok h i s q todo todo' :
  Inv h todo -> nth_error (slots h) i = Some s -> sLive s = true ->
  (forall o, cnt todo' o + cnt (occ q) o = cnt todo o + cnt (occ (sPtr s)) o) ->
  setPtr h i q = Ok (setSlot h i (mkSlot true (sOwner s) q)) /\
  Inv (setSlot h i (mkSlot true (sOwner s) q)) todo'.
Proof.
  intros I Hi Hl E. pose proof (nth_len _ _ _ Hi) as Li. split.
  - unfold setPtr. rewrite Hi, Hl. reflexivity.
  - split; cbn [setSlot objs slots destroyed].
    + intros o. pose proof (iC _ _ I o) as C.
      pose proof (targets_upd (slots h) i s (mkSlot true (sOwner s) q) o Hi) as T.
      unfold starget at 1 2 in T. cbn [sLive sPtr] in T. rewrite Hl in T. specialize (E o).
      destruct (nth_error (objs h) o) as [[c []]|]; lia.
    + intros k s' x Hk Hl' Hw. destruct (Nat.eq_dec k i) as [->|Ne].
      * rewrite nth_error_upd_eq in Hk by auto. injection Hk as <-. cbn in Hw.
        apply (iO _ _ I i s x Hi Hl Hw).
      * rewrite nth_error_upd_ne in Hk by auto. apply (iO _ _ I k s' x Hk Hl' Hw).
    + apply I.
Qed.

Lemma addRef_ok h p todo : Inv h todo -> (forall o, p = Some o -> aliveObj h o) ->
  exists h', addRef h p = Ok h' /\ Inv h' (occ p ++ todo) /\ slots h' = slots h /\
    destroyed h' = destroyed h /\ length (objs h') = length (objs h).
Proof.
  intros I A. destruct p as [o|]; cbn [addRef occ app].
  - destruct (A o eq_refl) as [c Ho]. rewrite Ho. eexists; split; [reflexivity|].
    pose proof (nth_len _ _ _ Ho) as Lo.
    cbn [slots destroyed objs]. rewrite upd_length. split; auto.
    split; cbn [slots destroyed objs].
    + intros x. pose proof (iC _ _ I x) as C. destruct (Nat.eq_dec x o) as [->|Ne].
      * rewrite nth_error_upd_eq, count_occ_cons_eq by auto. rewrite Ho in C. lia.
      * rewrite nth_error_upd_ne, count_occ_cons_neq by auto. exact C.
    + intros i s x Hi Hl Hw. destruct (iO _ _ I _ _ _ Hi Hl Hw) as [c' Hc].
      unfold aliveObj. cbn [objs]. destruct (Nat.eq_dec x o) as [->|Ne].
      * rewrite nth_error_upd_eq by auto. eauto.
      * rewrite nth_error_upd_ne by auto. eauto.
    + destruct (iD _ _ I) as [Dn Dd]. split; auto. intros x. rewrite Dd.
      destruct (Nat.eq_dec x o) as [->|Ne].
      * rewrite nth_error_upd_eq by auto. split; intros [c' Hc']; congruence.
      * rewrite nth_error_upd_ne by auto. reflexivity.
  - exists h. repeat split; auto; apply I.
Qed.

Lemma targets_in l i s o : nth_error l i = Some s -> sLive s = true -> sPtr s = Some o -> 1 <= cnt (targets l) o.
Proof.
  intros Hi Hl Hp. apply (count_occ_In Nat.eq_dec). apply in_flat_map. exists s.
  split; [eapply nth_error_In; eauto|]. unfold starget. rewrite Hl, Hp. cbn. auto.
Qed.

Lemma slot_alive h todo i s o : Inv h todo -> nth_error (slots h) i = Some s -> sLive s = true ->
  sPtr s = Some o -> aliveObj h o.
Proof.
  intros I Hi Hl Hp. pose proof (targets_in _ _ _ _ Hi Hl Hp). pose proof (iC _ _ I o) as C.
  unfold aliveObj. destruct (nth_error (objs h) o) as [[c []]|]; try lia. eauto.
Qed.

(** ** the table seen by the specification *)
Definition vw (s : slot) : pvar := PV (sLive s) (sOwner s) (sPtr s).
Definition view (h : heap) : list pvar := map vw (slots h).

Definition Good (h : heap) : Prop := Inv h [].

Lemma there_slot h i : pthere (view h) i -> exists s, nth_error (slots h) i = Some s /\ sLive s = true.
Proof.
  intros (v & Hv & E). unfold view in Hv. rewrite nth_error_map in Hv.
  destruct (nth_error (slots h) i) as [s|]; [|discriminate]. injection Hv as <-. eauto.
Qed.
Lemma outer_slot h i : pouter (view h) i ->
  exists s, nth_error (slots h) i = Some s /\ sLive s = true /\ sOwner s = None.
Proof.
  intros (v & Hv & E & N). unfold view in Hv. rewrite nth_error_map in Hv.
  destruct (nth_error (slots h) i) as [s|]; [|discriminate]. injection Hv as <-. eauto.
Qed.
Lemma pvalue_view h i s : nth_error (slots h) i = Some s -> pvalue (view h) i = sPtr s.
Proof. intros H. unfold pvalue, view. rewrite nth_error_map, H. reflexivity. Qed.

Lemma map_upd {A B} (f : A -> B) l : forall i x, map f (upd l i x) = upd (map f l) i (f x).
Proof. induction l as [|a l IH]; intros [|i] x; cbn; auto. rewrite IH. reflexivity. Qed.

Lemma pset_map l i s p : nth_error l i = Some s -> sLive s = true ->
  pset (map vw l) i p = map vw (upd l i (mkSlot true (sOwner s) p)).
Proof.
  intros H L. unfold pset. rewrite nth_error_map, H, map_upd. cbn. rewrite L. reflexivity.
Qed.

Lemma Shr_without w h : Inv h [] -> Shr w h ->
  without (destroyed h) (map vw w) (view h).
Proof.
  intros I [L H]. split. { unfold view. rewrite !map_length. auto. }
  intros i v Hv. rewrite nth_error_map in Hv. destruct (nth_error w i) as [s|] eqn:E; [|discriminate].
  injection Hv as <-. cbn [vw pInside]. unfold view. rewrite nth_error_map.
  destruct (H i s E) as [E'|[Hl (x & Hx & Hd & E')]]; rewrite E'; cbn [option_map].
  - destruct (sOwner s) as [x|] eqn:Ox.
    + split.
      * intros Hd. exists (vw s). split; auto. cbn. destruct (sLive s) eqn:Hl; auto.
        destruct (iO _ _ I i s x E' Hl Ox) as [c Hc]. apply (iD _ _ I) in Hd as [c' Hc']. congruence.
      * intros _. reflexivity.
    + reflexivity.
  - rewrite Hx. split.
    + intros _. eexists; split; [reflexivity|]. reflexivity.
    + intros N. contradiction.
Qed.
