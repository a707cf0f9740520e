(** Properties of the ordered map (class Map over the AVL tree). *)
From Verif Require Import Common Avl_Model Map_Model Map_Spec Avl_Proof AvlIter_Proof Map_Proof MapRef_Proof.
From Coq Require Import Sorting.Permutation Sorting.Sorted.

(** A map never holds 2^44 entries, as they do not fit in any memory. *)

(** C17: after any history the map answers as a finite map *)
Theorem C17_map_refines_finite_map :
  forall (K V : Type) (lt : K -> K -> bool) (dummy : V) (os : list (mop K V)),
  strict_weak lt -> (N.of_nat (mostEntries lt os []) < 2 ^ 44)%N ->
  exists s, msteps lt dummy os emptyAvl = Ok (s, snd (mspecs lt os [])).
Proof.
  intros K V lt dummy os SW H.
  destruct (msteps_ok lt SW dummy os _ _ (inv_empty lt) H) as (s & E & _). eauto.
Qed.
Print Assumptions C17_map_refines_finite_map.

Example C17_example :
  let os := [MInsert 30 1; MInsert 10 2; MInsert 20 3; MInsert 10 4; MReplace 30 5; MSet 40 0 6;
             MErase 20; MFind 10; MFind 20; MAt 20; MTouch 50 7; MSize; MWalk true; MSeek 20 false;
             MEraseAt 31 false; MWalk false] in
  (N.of_nat (mostEntries Nat.ltb os []) < 2 ^ 44)%N /\
  snd (mspecs Nat.ltb os []) =
    [AFlag false; AFlag false; AFlag false; AFlag true; AValue (Some 5); ANone; AFlag true;
     AValue (Some 2); AValue None; AThrown; AValue (Some 7); ANumber 4;
     AEntries true [(50, 7); (40, 6); (30, 5); (10, 2)];
     AEntries false [(30, 5); (40, 6); (50, 7)]; AEntries true [(50, 7)];
     AEntries true [(10, 2); (30, 5); (50, 7)]] /\
  exists s, msteps Nat.ltb 0 os emptyAvl = Ok (s, snd (mspecs Nat.ltb os [])).
Proof. split; [reflexivity|]. split; [reflexivity|]. eexists. vm_compute. reflexivity. Qed.

(** the natural numbers' order is an order the theorems accept *)
Example C17_order : strict_weak Nat.ltb.
Proof.
  constructor; intros *; rewrite ?Nat.ltb_lt, ?Nat.ltb_ge, ?Nat.ltb_irrefl; try lia; auto.
Qed.

(** C18: after any history the depth [h] of the tree with [n] entries is at
    most 121/84 (which is less than 1.4405) times log2(n + 2), and every path
    fits in the array of 64 pointers of an iterator *)
Theorem C18_map_balanced :
  forall (K V : Type) (lt : K -> K -> bool) (dummy : V) (os : list (mop K V)),
  strict_weak lt -> (N.of_nat (mostEntries lt os []) < 2 ^ 44)%N ->
  exists s, msteps lt dummy os emptyAvl = Ok (s, snd (mspecs lt os [])) /\
    let h := height (root s) in
    let n := length (fst (mspecs lt os [])) in
    (2 ^ (84 * N.of_nat h) <= (N.of_nat n + 2) ^ 121)%N /\
    h < maxPathLen /\
    maxHeight (root s) = h.
Proof.
  intros K V lt dummy os SW H.
  destruct (msteps_ok lt SW dummy os _ _ (inv_empty lt) H) as (s & E & I & Sm).
  exists s. split; auto. cbv zeta.
  pose proof (height_log (root s) (i_bal _ _ _ I)) as L.
  rewrite <- (Permutation_length (i_perm _ _ _ I)), map_length.
  split; [exact L|]. split.
  - pose proof (inv_height lt _ _ I Sm). unfold maxPathLen. lia.
  - apply maxHeight_ok, I.
Qed.
Print Assumptions C18_map_balanced.

Example C18_example :
  let os := map (fun k => MInsert k k) (seq 0 20) in
  (N.of_nat (mostEntries Nat.ltb os []) < 2 ^ 44)%N /\
  exists s, msteps Nat.ltb 0 os emptyAvl = Ok (s, snd (mspecs Nat.ltb os [])) /\
    height (root s) = 5.
Proof. split; [reflexivity|]. eexists. split; vm_compute; reflexivity. Qed.

(** C19: a walk gives every entry once, ordered in its direction; seek gives
    the walk over the entries not before the key, and says whether it is there *)
Theorem C19_map_iteration :
  forall (K V : Type) (lt : K -> K -> bool) (dummy : V) (os : list (mop K V)) (d : bool) (k : K),
  strict_weak lt -> (N.of_nat (mostEntries lt os []) < 2 ^ 44)%N ->
  exists s, msteps lt dummy os emptyAvl = Ok (s, snd (mspecs lt os [])) /\
    let m := fst (mspecs lt os []) in
    (exists l, rest s (firstIter (root s) d) = Ok l /\ Permutation l m /\
               StronglySorted (fun a b => before lt d (fst a) (fst b) = true) l) /\
    (exists it l, mapSeek lt dummy s k d = Ok (it, known lt k m) /\ rest s it = Ok l /\
               Permutation l (filter (fun e => negb (before lt d (fst e) k)) m) /\
               StronglySorted (fun a b => before lt d (fst a) (fst b) = true) l).
Proof.
  intros K V lt dummy os d k SW H.
  destruct (msteps_ok lt SW dummy os _ _ (inv_empty lt) H) as (s & E & I & Sm).
  exists s. split; auto. cbv zeta. pose proof (inv_distinct lt _ _ I) as D. split.
  - exists (ordered lt d (fst (mspecs lt os []))). split; [apply walk_all; auto|].
    split; [symmetry; apply ordered_perm0|apply ordered_srt; auto].
  - destruct (mapSeek_ok lt SW dummy s _ k d I Sm) as (p & Q & Es & Hp & Eq & L & _).
    eexists; eexists; split; [exact Es|]. split; [apply (rest_ok lt s _ d p Q I Sm Hp L)|].
    rewrite Eq. split; [symmetry; apply ordered_perm0|apply fromKey_srt; auto].
Qed.
Print Assumptions C19_map_iteration.

Example C19_example :
  exists s, msteps Nat.ltb 0 [MInsert 3 0; MInsert 1 0; MInsert 2 0] emptyAvl
            = Ok (s, [AFlag false; AFlag false; AFlag false]) /\
  rest s (firstIter (root s) true) = Ok [(3, 0); (2, 0); (1, 0)].
Proof. eexists. split; vm_compute; reflexivity. Qed.

(** C83: a copied or assigned map answers as the source from then on *)
Theorem C83_map_copy :
  forall (K V : Type) (lt : K -> K -> bool) (dummy : V) (os1 os2 os3 : list (mop K V)),
  strict_weak lt ->
  let m1 := fst (mspecs lt os1 []) in
  (N.of_nat (mostEntries lt os1 []) < 2 ^ 44)%N -> (N.of_nat (mostEntries lt os2 []) < 2 ^ 44)%N ->
  (N.of_nat (mostEntries lt os3 m1) < 2 ^ 44)%N ->
  exists s1 s2 c a, msteps lt dummy os1 emptyAvl = Ok (s1, snd (mspecs lt os1 [])) /\
    msteps lt dummy os2 emptyAvl = Ok (s2, snd (mspecs lt os2 [])) /\
    copyAvl (ltKV lt) s1 = Ok c /\ assign (ltKV lt) s2 s1 = Ok a /\
    (exists c', msteps lt dummy os3 c = Ok (c', snd (mspecs lt os3 m1))) /\
    (exists a', msteps lt dummy os3 a = Ok (a', snd (mspecs lt os3 m1))).
Proof.
  intros K V lt dummy os1 os2 os3 SW m1 H1 H2 H3.
  destruct (msteps_ok lt SW dummy os1 _ _ (inv_empty lt) H1) as (s1 & E1 & I1 & S1).
  destruct (msteps_ok lt SW dummy os2 _ _ (inv_empty lt) H2) as (s2 & E2 & I2 & S2).
  destruct (copy_ok lt SW s1 _ emptyAvl I1 S1 (inv_empty lt)) as (c & Ec & Ic).
  destruct (copy_ok lt SW s1 _ (clear s2) I1 S1 (inv_clear lt _ _ I2)) as (a & Ea & Ia).
  exists s1, s2, c, a. do 4 (split; auto). 
  destruct (msteps_ok lt SW dummy os3 _ _ Ic H3) as (c' & Ec' & _).
  destruct (msteps_ok lt SW dummy os3 _ _ Ia H3) as (a' & Ea' & _). eauto.
Qed.
Print Assumptions C83_map_copy.

Example C83_example :
  exists s c, msteps Nat.ltb 0 [MInsert 3 1; MInsert 1 2; MInsert 2 3] emptyAvl
     = Ok (s, [AFlag false; AFlag false; AFlag false]) /\
  copyAvl (ltKV Nat.ltb) s = Ok c /\ rest c (firstIter (root c) false) = Ok [(1, 2); (2, 3); (3, 1)].
Proof. do 2 eexists. repeat split; vm_compute; reflexivity. Qed.

(** C84: assigning a map to itself should keep it, but it is emptied *)
Theorem C84_map_self_assignment_refuted :
  forall (K V : Type) (lt : K -> K -> bool) (s : avl (K * V)),
  exists s', assignSelf (ltKV lt) s = Ok s' /\ isEmpty s' = true /\ size s' = 0.
Proof. intros. exists (clear s). auto. Qed.
Print Assumptions C84_map_self_assignment_refuted.

Example C84_example :
  exists s, msteps Nat.ltb 0 [MInsert 3 1; MInsert 1 2] emptyAvl = Ok (s, [AFlag false; AFlag false]) /\
  isEmpty s = false /\ size s = 2.
Proof. eexists. repeat split. Qed.

(** C85: += and + give the entries of both maps, the first one wins; -= removes
    the keys of the other map *)
Theorem C85_map_union_and_removal :
  forall (K V : Type) (lt : K -> K -> bool) (dummy : V) (os1 os2 os3 : list (mop K V)),
  strict_weak lt ->
  let m1 := fst (mspecs lt os1 []) in
  let m2 := fst (mspecs lt os2 []) in
  (N.of_nat (mostEntries lt os1 []) < 2 ^ 43)%N -> (N.of_nat (mostEntries lt os2 []) < 2 ^ 43)%N ->
  (N.of_nat (mostEntries lt os3 (union lt m1 m2)) < 2 ^ 44)%N ->
  (N.of_nat (mostEntries lt os3 (minus lt m1 m2)) < 2 ^ 44)%N ->
  exists s1 s2 u p r, msteps lt dummy os1 emptyAvl = Ok (s1, snd (mspecs lt os1 [])) /\
    msteps lt dummy os2 emptyAvl = Ok (s2, snd (mspecs lt os2 [])) /\
    mapPlusAssign lt s1 s2 = Ok u /\ mapPlus lt s1 s2 = Ok p /\
    mapMinusAssign lt dummy s1 s2 = Ok r /\
    (exists u', msteps lt dummy os3 u = Ok (u', snd (mspecs lt os3 (union lt m1 m2)))) /\
    (exists p', msteps lt dummy os3 p = Ok (p', snd (mspecs lt os3 (union lt m1 m2)))) /\
    (exists r', msteps lt dummy os3 r = Ok (r', snd (mspecs lt os3 (minus lt m1 m2)))).
Proof.
  intros K V lt dummy os1 os2 os3 SW m1 m2 H1 H2 H3 H4.
  assert (P : (2 ^ 43 < 2 ^ 44)%N) by reflexivity.
  assert (P2 : (2 ^ 44 = 2 ^ 43 + 2 ^ 43)%N) by reflexivity.
  destruct (msteps_ok lt SW dummy os1 _ _ (inv_empty lt) ltac:(eapply N.lt_trans; eauto)) as (s1 & E1 & I1 & S1).
  destruct (msteps_ok lt SW dummy os2 _ _ (inv_empty lt) ltac:(eapply N.lt_trans; eauto)) as (s2 & E2 & I2 & S2).
  assert (L : forall os : list (mop K V), (N.of_nat (length (fst (mspecs lt os []))) <= N.of_nat (mostEntries lt os []))%N).
  { intros os. generalize (@nil (K * V)). induction os as [|o os IH]; intros m; cbn [mspecs mostEntries].
    - reflexivity.
    - destruct (mspec lt o m) as [m' b]. cbn [fst]. specialize (IH m').
      destruct (mspecs lt os m') as [m'' l]. cbn [fst] in *. lia. }
  pose proof (L os1) as L1. pose proof (L os2) as L2. fold m1 in L1. fold m2 in L2.
  assert (L3 : (N.of_nat (length m1 + length m2) <= 2 ^ 44)%N).
  { rewrite P2, Nat2N.inj_add. apply N.add_le_mono; eapply N.le_trans; eauto; apply N.lt_le_incl; auto. }
  destruct (plusAssign_ok lt SW s1 _ s2 _ I1 I2 S2 L3) as (u & Eu & Iu).
  destruct (plusAssign_ok lt SW emptyAvl [] s1 _ (inv_empty lt) I1 S1) as (p0 & Ep0 & Ip0).
  { apply N.lt_le_incl. exact S1. }
  rewrite perm_nil_union in Ip0.
  destruct (plusAssign_ok lt SW p0 _ s2 _ Ip0 I2 S2 L3) as (p & Ep & Ip).
  destruct (minusAssign_ok lt SW dummy s1 _ s2 _ I1 I2 S2) as (r & Er & Ir).
  exists s1, s2, u, p, r. do 3 (split; auto). split.
  { unfold mapPlus. rewrite Ep0. exact Ep. }
  split; auto.
  destruct (msteps_ok lt SW dummy os3 _ _ Iu H3) as (u' & Eu' & _).
  destruct (msteps_ok lt SW dummy os3 _ _ Ip H3) as (p' & Ep' & _).
  destruct (msteps_ok lt SW dummy os3 _ _ Ir H4) as (r' & Er' & _).
  split; [eauto|split; eauto].
Qed.
Print Assumptions C85_map_union_and_removal.

Example C85_example :
  exists a b c d, msteps Nat.ltb 0 [MInsert 3 1; MInsert 1 2] emptyAvl = Ok (a, [AFlag false; AFlag false]) /\
  msteps Nat.ltb 0 [MInsert 2 7; MInsert 3 8] emptyAvl = Ok (b, [AFlag false; AFlag false]) /\
  mapPlus Nat.ltb a b = Ok c /\ mapMinusAssign Nat.ltb 0 a b = Ok d /\
  rest c (firstIter (root c) false) = Ok [(1, 2); (2, 7); (3, 1)] /\
  rest d (firstIter (root d) false) = Ok [(1, 2)].
Proof. do 4 eexists. repeat split; vm_compute; reflexivity. Qed.

(** C86: a - b should give the entries of a whose keys are not in b, but the
    result is always empty *)
Theorem C86_map_difference_refuted :
  forall (K V : Type) (lt : K -> K -> bool) (dummy : V) (os1 os2 : list (mop K V)),
  strict_weak lt ->
  (N.of_nat (mostEntries lt os1 []) < 2 ^ 44)%N -> (N.of_nat (mostEntries lt os2 []) < 2 ^ 44)%N ->
  minus lt (fst (mspecs lt os1 [])) (fst (mspecs lt os2 [])) <> [] ->
  exists s1 s2 r, msteps lt dummy os1 emptyAvl = Ok (s1, snd (mspecs lt os1 [])) /\
    msteps lt dummy os2 emptyAvl = Ok (s2, snd (mspecs lt os2 [])) /\
    mapMinus lt dummy s1 s2 = Ok r /\
    exists r', msteps lt dummy [MSize; MWalk false] r = Ok (r', [ANumber 0; AEntries true []]).
Proof.
  intros K V lt dummy os1 os2 SW H1 H2 _.
  destruct (msteps_ok lt SW dummy os1 _ _ (inv_empty lt) H1) as (s1 & E1 & I1 & S1).
  destruct (msteps_ok lt SW dummy os2 _ _ (inv_empty lt) H2) as (s2 & E2 & I2 & S2).
  destruct (minusAssign_ok lt SW dummy emptyAvl _ s1 _ (inv_empty lt) I1 S1) as (r0 & E0 & I0).
  destruct (minusAssign_ok lt SW dummy r0 _ s2 _ I0 I2 S2) as (r & Er & Ir).
  exists s1, s2, r. do 2 (split; auto). split; [unfold mapMinus; rewrite E0; exact Er|].
  destruct (msteps_ok lt SW dummy [MSize; MWalk false] _ _ Ir) as (r' & Em & _); [reflexivity|].
  exists r'. exact Em.
Qed.
Print Assumptions C86_map_difference_refuted.

Example C86_example :
  minus Nat.ltb (fst (mspecs Nat.ltb [MInsert 3 1; MInsert 1 2] []))
                (fst (mspecs Nat.ltb [MInsert 3 1] [])) = [(1, 2)] /\
  exists a b c, msteps Nat.ltb 0 [MInsert 3 1; MInsert 1 2] emptyAvl = Ok (a, [AFlag false; AFlag false]) /\
  msteps Nat.ltb 0 [MInsert 3 1] emptyAvl = Ok (b, [AFlag false]) /\
  mapMinus Nat.ltb 0 a b = Ok c /\ rest c (firstIter (root c) false) = Ok [].
Proof. split; [reflexivity|]. do 3 eexists. repeat split; vm_compute; reflexivity. Qed.

(** C87: the iterator insert returns refers to the entry of the key *)
Theorem C87_inserted_entry :
  forall (K V : Type) (lt : K -> K -> bool) (dummy : V) (os : list (mop K V)) (k : K) (v : V),
  strict_weak lt -> (N.of_nat (mostEntries lt os []) < 2 ^ 44)%N ->
  exists s s' it x, msteps lt dummy os emptyAvl = Ok (s, snd (mspecs lt os [])) /\
    let m := fst (mspecs lt os []) in
    mapInsert lt s k v = Ok (s', it, known lt k m) /\
    peek (root s') it = Ok x /\ eqk lt (fst x) k = true /\
    Some (snd x) = if known lt k m then lookup lt k m else Some v.
Proof.
  intros K V lt dummy os k v SW H.
  destruct (msteps_ok lt SW dummy os _ _ (inv_empty lt) H) as (s & E & I & Sm).
  destruct (mapInsert_ok lt SW s _ k v I Sm) as (s' & it & x & Ei & I' & Hk & Hx & Hd & R).
  exists s, s', it, x. split; auto. cbv zeta. split; auto.
  destruct (refers_lookup lt SW s' _ it x k I' R Hk) as [L Pk]. split; auto. split; auto.
  destruct (known lt k _); [congruence|]. rewrite (Hx eq_refl). auto.
Qed.
Print Assumptions C87_inserted_entry.

Example C87_example :
  exists s s' it, msteps Nat.ltb 0 [MInsert 3 1; MInsert 1 2] emptyAvl = Ok (s, [AFlag false; AFlag false]) /\
  mapInsert Nat.ltb s 2 9 = Ok (s', it, false) /\ peek (root s') it = Ok (2, 9).
Proof. do 3 eexists. repeat split; vm_compute; reflexivity. Qed.

(** C88: walking on from the iterator insert returned should give the following
    entries, each once, and erasing through it should remove the entry; after
    inserting 30, 10 and 20 the walk repeats entries and erasing calls a
    function of a null pointer *)
Theorem C88_inserted_iterator_refuted :
  exists (s s' : avl (nat * nat)) it,
  msteps Nat.ltb 0 [MInsert 30 0; MInsert 10 0] emptyAvl = Ok (s, [AFlag false; AFlag false]) /\
  mapInsert Nat.ltb s 20 0 = Ok (s', it, false) /\
  rest s' (firstIter (root s') false) = Ok [(10, 0); (20, 0); (30, 0)] /\
  rest s' it <> Ok [(20, 0); (30, 0)] /\
  rest s' it = Ok [(20, 0); (30, 0); (20, 0); (30, 0)] /\
  eraseIter (ltKV Nat.ltb) s' it = Undef.
Proof. do 3 eexists. repeat split; vm_compute; try reflexivity. discriminate. Qed.
Print Assumptions C88_inserted_iterator_refuted.

(** C89: of two iterators of a map one should be less than the other when its
    entry goes first; the comparison reads an unset pointer when one entry is
    an ancestor of the other in the tree *)
Theorem C89_iterator_order_refuted :
  exists (s : avl (nat * nat)) a b,
  msteps Nat.ltb 0 [MInsert 1 0; MInsert 2 0; MInsert 3 0] emptyAvl
    = Ok (s, [AFlag false; AFlag false; AFlag false]) /\
  mapSeek Nat.ltb 0 s 1 false = Ok (a, true) /\ mapSeek Nat.ltb 0 s 2 false = Ok (b, true) /\
  lessThan (root s) a b = Undef /\ lessThan (root s) b a = Undef.
Proof. do 3 eexists. repeat split; vm_compute; reflexivity. Qed.
Print Assumptions C89_iterator_order_refuted.

(** C90: compare is a total order of the sets of keys: equal exactly when both
    maps have the same keys, antisymmetric and transitive *)
Theorem C90_map_compare :
  forall (K V : Type) (lt : K -> K -> bool) (dummy : V) (os1 os2 os3 : list (mop K V)),
  strict_weak lt ->
  (N.of_nat (mostEntries lt os1 []) < 2 ^ 44)%N -> (N.of_nat (mostEntries lt os2 []) < 2 ^ 44)%N ->
  (N.of_nat (mostEntries lt os3 []) < 2 ^ 44)%N ->
  exists s1 s2 s3 c12 c21 c23 c13,
    msteps lt dummy os1 emptyAvl = Ok (s1, snd (mspecs lt os1 [])) /\
    msteps lt dummy os2 emptyAvl = Ok (s2, snd (mspecs lt os2 [])) /\
    msteps lt dummy os3 emptyAvl = Ok (s3, snd (mspecs lt os3 [])) /\
    mapCompare lt s1 s2 = Ok c12 /\ mapCompare lt s2 s1 = Ok c21 /\
    mapCompare lt s2 s3 = Ok c23 /\ mapCompare lt s1 s3 = Ok c13 /\
    (c12 = Eq <-> sameKeys lt (fst (mspecs lt os1 [])) (fst (mspecs lt os2 []))) /\
    c21 = CompOpp c12 /\
    (c12 <> Gt -> c23 <> Gt -> c13 <> Gt).
Proof.
  intros K V lt dummy os1 os2 os3 SW H1 H2 H3.
  destruct (msteps_ok lt SW dummy os1 _ _ (inv_empty lt) H1) as (s1 & E1 & I1 & S1).
  destruct (msteps_ok lt SW dummy os2 _ _ (inv_empty lt) H2) as (s2 & E2 & I2 & S2).
  destruct (msteps_ok lt SW dummy os3 _ _ (inv_empty lt) H3) as (s3 & E3 & I3 & S3).
  exists s1, s2, s3. do 4 eexists. do 3 (split; [eassumption|]). unfold mapCompare.
  rewrite (walk_all lt SW s1 _ false I1 S1), (walk_all lt SW s2 _ false I2 S2), (walk_all lt SW s3 _ false I3 S3).
  cbn [obind]. do 4 (split; [reflexivity|]). split; [|split].
  - rewrite compareKeys_eq; auto;
      [|apply ordered_srt; auto; eapply inv_distinct; eauto ..].
    apply sameKeys_perm; symmetry; apply ordered_perm0.
  - apply compareKeys_opp; auto.
  - apply compareKeys_trans; auto.
Qed.
Print Assumptions C90_map_compare.

Example C90_example :
  exists a b, msteps Nat.ltb 0 [MInsert 3 1; MInsert 1 2] emptyAvl = Ok (a, [AFlag false; AFlag false]) /\
  msteps Nat.ltb 0 [MInsert 1 1; MInsert 2 2] emptyAvl = Ok (b, [AFlag false; AFlag false]) /\
  mapCompare Nat.ltb a b = Ok Gt.
Proof. do 2 eexists. repeat split; vm_compute; reflexivity. Qed.

(** C91: maps that compare equal should hold the same values, but the values are
    not looked at *)
Theorem C91_map_compare_values_refuted :
  forall (v1 v2 : nat), v1 <> v2 ->
  exists s1 s2, msteps Nat.ltb 0 [MInsert 1 v1; MFind 1] emptyAvl = Ok (s1, [AFlag false; AValue (Some v1)]) /\
    msteps Nat.ltb 0 [MInsert 1 v2; MFind 1] emptyAvl = Ok (s2, [AFlag false; AValue (Some v2)]) /\
    mapCompare Nat.ltb s1 s2 = Ok Eq.
Proof. intros v1 v2 H. do 2 eexists. repeat split; reflexivity. Qed.
Print Assumptions C91_map_compare_values_refuted.

(** C92: forEach calls the function once for every entry, ascending or
    descending (and once for each in some order for the other two), until it
    says stop *)
Theorem C92_map_for_each :
  forall (K V S : Type) (lt : K -> K -> bool) (dummy : V) (os : list (mop K V))
         (fn : K * V -> S -> S * bool) (st : S),
  strict_weak lt -> (N.of_nat (mostEntries lt os []) < 2 ^ 44)%N ->
  exists s, msteps lt dummy os emptyAvl = Ok (s, snd (mspecs lt os [])) /\
    let m := fst (mspecs lt os []) in
    forEach fn Forward (root s) st = visit fn (ordered lt false m) st /\
    forEach fn Backward (root s) st = visit fn (ordered lt true m) st /\
    (exists l, Permutation l m /\ forEach fn Up (root s) st = visit fn l st) /\
    (exists l, Permutation l m /\ forEach fn Down (root s) st = visit fn l st).
Proof.
  intros K V S lt dummy os fn st SW H.
  destruct (msteps_ok lt SW dummy os _ _ (inv_empty lt) H) as (s & E & I & Sm).
  exists s. split; auto. cbv zeta. rewrite !forEach_visit.
  rewrite itemsBy_forward, itemsBy_backward, <- map_rev.
  rewrite <- (ditems_ordered lt SW s _ false I), <- (ditems_ordered lt SW s _ true I).
  split; [reflexivity|]. split; [reflexivity|].
  split; eexists; (split; [etransitivity; [apply itemsBy_perm|apply (i_perm _ _ _ I)]|reflexivity]).
Qed.
Print Assumptions C92_map_for_each.

Example C92_example :
  exists s, msteps Nat.ltb 0 [MInsert 3 1; MInsert 1 2; MInsert 2 5] emptyAvl
     = Ok (s, [AFlag false; AFlag false; AFlag false]) /\
  forEach (fun e st => (fst e :: st, fst e =? 2)) Backward (root s) [] = ([2; 3], true).
Proof. eexists. split; vm_compute; reflexivity. Qed.

(** C93: the estimate of the number of nodes should be safe to ask for; it always
    reaches a null pointer and reads its fields *)
Theorem C93_approximate_count_refuted :
  forall (A : Type) (t : tree A), balanced t -> aproxCount t = Undef.
Proof.
  intros A. induction t as [|i x b l IHl r IHr]; intros B; auto.
  destruct B as (Bl & Br & Hb & Hd). cbn [aproxCount]. rewrite (IHl Bl), (IHr Br).
  destruct (isNull l); auto. destruct (isNull r); auto.
  destruct (b =? 0)%Z eqn:E0; auto. destruct (b =? 1)%Z eqn:E1; auto.
  destruct (b =? -1)%Z eqn:E2; auto. exfalso.
  apply Z.eqb_neq in E0. apply Z.eqb_neq in E1. apply Z.eqb_neq in E2. lia.
Qed.
Print Assumptions C93_approximate_count_refuted.

Example C93_example :
  exists s, msteps Nat.ltb 0 [MInsert 3 1; MInsert 1 2] emptyAvl = Ok (s, [AFlag false; AFlag false]) /\
  balanced (root s) /\ aproxCount (root s) = Undef.
Proof. eexists. repeat split; vm_compute; auto; discriminate. Qed.

(** C94: size() of an AvlTreeBasic should be the number of its nodes; removing the
    only node by an iterator, or clearing the tree, leaves the number *)
Theorem C94_basic_tree_size_refuted :
  forall (A : Type) (lt : A -> A -> bool) (x : A),
  exists s it s', insert lt emptyAvl x = Ok (s, it, false) /\ size s = 1 /\
    basicRemove s it = Ok (s', x) /\ root s' = Leaf /\ size s' = 1 /\
    root (basicClear s) = Leaf /\ size (basicClear s) = 1.
Proof. intros. do 3 eexists. repeat split; reflexivity. Qed.
Print Assumptions C94_basic_tree_size_refuted.
