(** Lemmas for SmallAlloc_Props.v *)
From Coq Require Import ZArith Permutation.
From Verif Require Import Common SmallAlloc_Model SmallAlloc_Spec.
Open Scope nat_scope.

Lemma find_in i h c : find i h = Some c -> In i (map fst h).
Proof. induction h as [|[j d] t IH]; cbn; [discriminate|]. destruct (i =? j) eqn:E; [apply Nat.eqb_eq in E; auto|auto]. Qed.
Lemma find_drop i j h : i <> j -> find i (drop j h) = find i h.
Proof.
  intros N. induction h as [|[k d] t IH]; [reflexivity|]. unfold drop. cbn [filter fst find]. fold (drop j t). destruct (j =? k) eqn:E; cbn [negb].
  - apply Nat.eqb_eq in E. subst k. destruct (i =? j) eqn:F; [apply Nat.eqb_eq in F; congruence|exact IH].
  - cbn [find]. rewrite IH. reflexivity.
Qed.
Lemma drop_perm h i l : NoDup (map fst h) -> Permutation (map fst h) (i :: l) -> NoDup (map fst (drop i h)) /\ Permutation (map fst (drop i h)) l.
Proof.
  intros ND P. assert (Q : Permutation (map fst h) (i :: map fst (drop i h))).
  { assert (I : In i (map fst h)) by (apply (Permutation_in _ (Permutation_sym P)); left; reflexivity). clear P.
    induction h as [|[j d] t IH]; [destruct I|]. unfold drop. cbn [filter fst map]. fold (drop i t). inversion ND as [|? ? N ND']; subst. destruct (i =? j) eqn:E; cbn [negb].
    - apply Nat.eqb_eq in E. subst j. apply perm_skip. assert (D : drop i t = t); [|rewrite D; reflexivity].
      clear - N. cbn in N. induction t as [|[k d] t IH]; [reflexivity|]. unfold drop. cbn [filter fst]. fold (drop i t). cbn in N. destruct (i =? k) eqn:E; cbn [negb]; [apply Nat.eqb_eq in E; exfalso; apply N; left; congruence|]. f_equal. apply IH. intros Q. apply N. right. exact Q.
    - cbn [map fst]. destruct I as [I|I]; [cbn in I; apply Nat.eqb_neq in E; congruence|]. rewrite (IH ND' I). apply perm_swap. }
  split; [|apply (Permutation_cons_inv (a := i)); rewrite <- Q; exact P]. apply (Permutation_NoDup Q) in ND. inversion ND; assumption.
Qed.
Lemma put_ids i c h : map fst (put i c h) = map fst h.
Proof. induction h as [|[j [k d]] t IH]; cbn; [reflexivity|]. destruct (i =? j); cbn; congruence. Qed.
Lemma put_eq i c h k d : find i h = Some (k, d) -> find i (put i c h) = Some (k, c).
Proof. induction h as [|[j [k' d']] t IH]; cbn; [discriminate|]. destruct (i =? j) eqn:E; cbn; rewrite E; [intros Q; injection Q as <- <-; reflexivity|exact IH]. Qed.
Lemma put_ne i j c h : i <> j -> find i (put j c h) = find i h.
Proof.
  intros N. induction h as [|[m [k d]] t IH]; cbn; [reflexivity|]. destruct (j =? m) eqn:E; cbn; [|rewrite IH; reflexivity].
  apply Nat.eqb_eq in E. subst m. destruct (i =? j) eqn:F; [apply Nat.eqb_eq in F; congruence|reflexivity].
Qed.

Definition ptrs (m : am) : list nat := match ptr m with Blk i => [i] | _ => [] end.
Record WI (w : world) (ids : list nat) : Prop := {
  w_nd : NoDup (map fst (mem w));
  w_ids : Permutation (map fst (mem w)) ids;
  w_fresh : forall i, In i (map fst (mem w)) -> i < fresh w;
  w_std : forall i k c, find i (mem w) = Some (k, c) -> k = false;
}.
Record AI (cnt : nat) (a : arr) (l : list Z) (w : world) : Prop := {
  a_rt : rt (blk a) = false;
  a_cells : exists c, cells (blk a) w = Ok c /\ length c = size (blk a) /\ firstn (used a) c = l;
  a_used : used a = length l;
  a_buf : length (buf (blk a)) = cnt;
  a_size : cnt <= size (blk a);
}.
Lemma WI_perm w l l' : Permutation l l' -> WI w l -> WI w l'.
Proof. intros P [A B C D]. constructor; auto. rewrite B. exact P. Qed.
Lemma AI_frame cnt a l w w' : (forall i, In i (ptrs (blk a)) -> find i (mem w') = find i (mem w)) -> AI cnt a l w -> AI cnt a l w'.
Proof.
  intros F [A B C D E]. constructor; auto. destruct B as (c & B & B2). exists c. split; [|exact B2]. unfold cells, ptrs in *. destruct (ptr (blk a)); try exact B. rewrite F by (left; reflexivity). exact B.
Qed.
Lemma AI_le cnt a l w : AI cnt a l w -> length l <= size (blk a).
Proof. intros [_ (c & _ & L & F) U _ _]. rewrite <- F, firstn_length. lia. Qed.
(** storing new content to an array that may have another size of used part *)
Lemma store_ok cnt a l w rest c u l' : AI cnt a l w -> WI w (ptrs (blk a) ++ rest) -> length c = size (blk a) -> firstn u c = l' -> u = length l' ->
  exists b w', store (blk a) c w = (b, w') /\ AI cnt (mkA b u) l' w' /\ WI w' (ptrs b ++ rest) /\ (forall i, In i rest -> find i (mem w') = find i (mem w)) /\ size b = size (blk a) /\ ptrs b = ptrs (blk a).
Proof.
  intros [A (c0 & B1 & B2 & B3) C D E] W L F U. unfold store, cells, ptrs in *. destruct (ptr (blk a)) as [| |i] eqn:P; [discriminate|..].
  - injection B1 as B1. rewrite B1 in D. eexists. exists w. split; [reflexivity|]. cbn. split; [|auto]. constructor; cbn; auto; [|lia]. exists c. cbn. auto.
  - exists (blk a). eexists. split; [reflexivity|]. rewrite P. destruct W as [W1 W2 W3 W4]. destruct (find i (mem w)) as [[k d]|] eqn:FI; [|discriminate]. injection B1 as ->.
    assert (FP : find i (put i c (mem w)) = Some (k, c)) by (apply (put_eq i c _ _ _ FI)).
    split; [|split; [|split; [|auto]]].
    + constructor; cbn; auto. exists c. unfold cells. rewrite P. cbn [mem]. rewrite FP. auto.
    + constructor; cbn [mem fresh]; try (rewrite put_ids; assumption). intros j kk d Q. destruct (Nat.eq_dec j i) as [->|N]; [rewrite FP in Q; injection Q as <- <-; apply (W4 i k c0 FI)|]. rewrite put_ne in Q by exact N. apply (W4 j kk d Q).
    + intros j J. cbn [mem]. apply put_ne. intros ->. assert (ND : NoDup ([i] ++ rest)) by (apply (Permutation_NoDup W2); exact W1). inversion ND; auto.
Qed.
Lemma setn_ok x d c : x + length d <= length c -> setn x d c = Ok (firstn x c ++ d ++ skipn (x + length d) c).
Proof. intros L. unfold setn. destruct (x + length d <=? length c) eqn:E; [reflexivity|]. apply Nat.leb_gt in E. lia. Qed.
Lemma getn_ok x n c : x + n <= length c -> getn x n c = Ok (firstn n (skipn x c)).
Proof. intros L. unfold getn. destruct (x + n <=? length c) eqn:E; [reflexivity|]. apply Nat.leb_gt in E. lia. Qed.

Lemma realloc_ok cnt ok limit max a l w rest : AI cnt a l w -> WI w (ptrs (blk a) ++ rest) -> used a <= max -> (limit = true -> cnt < max) ->
  exists t a' w', realloc cnt ok limit max a w = Ok (t, a', w') /\ AI cnt a' l w' /\ WI w' (ptrs (blk a') ++ rest) /\
    (forall i, In i rest -> find i (mem w') = find i (mem w)) /\ (t = true -> ok = false) /\ (t = false -> cnt < max -> size (blk a') = max).
Proof.
  intros V W UM LM. pose proof (AI_le _ _ _ _ V) as LS. destruct V as [A (c & B1 & B2 & B3) C D E]. unfold realloc. unfold allocMem at 1. destruct (cnt <? max) eqn:CM.
  - apply Nat.ltb_lt in CM. destruct ok; [|exists true, a, w; split; [reflexivity|]; split; [constructor; eauto|]; split; [exact W|]; split; [auto|]; split; [auto|discriminate]].
    unfold allocMem. destruct (cnt <? 0) eqn:C0; [apply Nat.ltb_lt in C0; lia|]. unfold move at 1. cbn [isLocal ptr obind]. rewrite A.
    set (w1 := mkW ((fresh w, (false, repeat 0%Z max)) :: mem w) (S (fresh w))). destruct W as [W1 W2 W3 W4].
    assert (NF : ~ In (fresh w) (map fst (mem w))) by (intros I; specialize (W3 _ I); lia).
    assert (NR : ~ In (fresh w) (ptrs (blk a) ++ rest)) by (intros I; apply NF; apply (Permutation_in _ (Permutation_sym W2)); exact I).
    assert (CW : cells (blk a) w1 = Ok c).
    { unfold cells in *. destruct (ptr (blk a)) as [| |i] eqn:P; try assumption. cbn [mem w1 find]. destruct (i =? fresh w) eqn:Q; [|exact B1]. apply Nat.eqb_eq in Q. exfalso. apply NR. unfold ptrs. rewrite P. left. exact Q. }
    rewrite CW. cbn [obind]. rewrite getn_ok by lia. cbn [obind skipn]. rewrite B3. unfold cells. cbn [ptr mem w1 find]. rewrite Nat.eqb_refl. cbn [obind].
    rewrite setn_ok by (rewrite repeat_length; lia). cbn [obind firstn app Nat.add]. set (c' := l ++ skipn (length l) (repeat 0%Z max)).
    unfold store. cbn [ptr mem fresh w1]. set (w2 := mkW (put (fresh w) c' ((fresh w, (false, repeat 0%Z max)) :: mem w)) (S (fresh w))).
    assert (M2 : mem w2 = (fresh w, (false, c')) :: mem w) by (unfold w2; cbn; rewrite Nat.eqb_refl; reflexivity). assert (FR2 : fresh w2 = S (fresh w)) by reflexivity. clearbody w2.
    assert (LC : length c' = max) by (unfold c'; rewrite app_length, skipn_length, repeat_length; lia).
    assert (FC : firstn (used a) c' = l) by (unfold c'; rewrite C, firstn_app, firstn_all, Nat.sub_diag; cbn; apply app_nil_r).
    unfold move. cbn [isLocal ptr rt size buf]. unfold isLocal. destruct (ptr (blk a)) as [| |i] eqn:P.
    + unfold cells in B1. rewrite P in B1. discriminate.
    + cbn [obind]. unfold dtor. cbn [isLocal ptr release rt obind]. eexists. eexists. exists w2. split; [reflexivity|]. unfold ptrs in *. rewrite P in W2, NR. cbn [blk ptr app] in *.
      split; [|split; [|split; [|split; [discriminate|auto]]]].
      * constructor; cbn; auto; [|lia]. exists c'. unfold cells. cbn [ptr]. rewrite M2. cbn [find]. rewrite Nat.eqb_refl. auto.
      * constructor; rewrite ?M2; cbn [map fst].
        -- constructor; assumption.
        -- apply perm_skip. exact W2.
        -- rewrite FR2. intros i [<-|I]; [lia|]. specialize (W3 i I). lia.
        -- intros i k d. cbn [find]. destruct (i =? fresh w); [intros Q; injection Q as <- <-; reflexivity|apply W4].
      * intros i I. rewrite M2. cbn [find]. destruct (i =? fresh w) eqn:Q; [|reflexivity]. apply Nat.eqb_eq in Q. subst i. tauto.
    + unfold ptrs in *. rewrite P in W2, NR. cbn [app] in W2, NR. unfold cells in B1. rewrite P in B1. destruct (find i (mem w)) as [[k d]|] eqn:FI; [|discriminate].
      assert (NI : i <> fresh w) by (intros ->; apply NR; left; reflexivity).
      assert (FI2 : find i (mem w2) = Some (k, d)) by (rewrite M2; cbn [find]; destruct (i =? fresh w) eqn:Q; [apply Nat.eqb_eq in Q; congruence|exact FI]).
      assert (ND2 : NoDup (map fst (mem w2))) by (rewrite M2; cbn; constructor; assumption).
      assert (P2 : Permutation (map fst (mem w2)) (i :: fresh w :: rest)) by (rewrite M2; cbn; rewrite W2; apply perm_swap).
      destruct (drop_perm _ _ _ ND2 P2) as [ND3 P3].
      assert (NIR : ~ In i (fresh w :: rest)) by (apply (Permutation_NoDup P2) in ND2; inversion ND2; assumption).
      cbn [release]. rewrite FI2, (W4 i k d FI). cbn [Bool.eqb obind]. unfold dtor. cbn [isLocal ptr release rt obind]. eexists. eexists. eexists. split; [reflexivity|]. cbn [blk ptr app mem fresh].
      split; [|split; [|split; [|split; [discriminate|auto]]]].
      * constructor; cbn; auto; [|lia]. exists c'. unfold cells. cbn [ptr mem]. rewrite find_drop by (intros Q; apply NI; symmetry; exact Q). rewrite M2. cbn [find]. rewrite Nat.eqb_refl. auto.
      * constructor; cbn [mem fresh].
        -- exact ND3.
        -- exact P3.
        -- intros j J. apply (Permutation_in _ P3) in J. assert (J2 : In j (i :: fresh w :: rest)) by (right; exact J). apply (Permutation_in _ (Permutation_sym P2)) in J2. rewrite M2 in J2. cbn in J2. rewrite FR2. destruct J2 as [<-|J2]; [lia|]. specialize (W3 j J2). lia.
        -- intros j kk dd Q. assert (NJ : j <> i) by (intros ->; apply find_in in Q; apply (Permutation_in _ P3) in Q; auto). rewrite find_drop, M2 in Q by exact NJ. cbn [find] in Q. destruct (j =? fresh w); [injection Q as <- <-; reflexivity|apply (W4 _ _ _ Q)].
      * intros j J. rewrite find_drop by (intros ->; apply NIR; right; exact J). rewrite M2. cbn [find]. destruct (j =? fresh w) eqn:Q; [|reflexivity]. apply Nat.eqb_eq in Q. subst j. exfalso. apply NR. right. exact J.
  - apply Nat.ltb_ge in CM. unfold allocMem. destruct (cnt <? 0) eqn:C0; [apply Nat.ltb_lt in C0; lia|]. unfold move. cbn [isLocal ptr obind]. unfold dtor. cbn [isLocal ptr obind].
    exists limit, a, w. split; [reflexivity|]. split; [constructor; eauto|]. split; [exact W|]. split; [auto|]. split; [intros ->; specialize (LM eq_refl); lia|lia].
Qed.
Lemma addExtra_ok cnt ok n a l w rest : AI cnt a l w -> WI w (ptrs (blk a) ++ rest) ->
  exists t a' w', addExtra cnt ok n a w = Ok (t, a', w') /\ AI cnt a' l w' /\ WI w' (ptrs (blk a') ++ rest) /\
    (forall i, In i rest -> find i (mem w') = find i (mem w)) /\ (t = true -> ok = false) /\ (t = false -> length l + n <= size (blk a')).
Proof.
  intros V W. unfold addExtra. pose proof (a_size _ _ _ _ V) as S. pose proof (a_used _ _ _ _ V) as U. destruct (size (blk a) <? used a + n) eqn:Q.
  - apply Nat.ltb_lt in Q. set (max := if used a * 3 / 2 <? used a + n then used a + n else used a * 3 / 2).
    assert (LM : used a + n <= max) by (unfold max; destruct (used a * 3 / 2 <? used a + n) eqn:T; [lia|apply Nat.ltb_ge in T; exact T]).
    destruct (realloc_ok cnt ok true max a l w rest V W) as (t & a' & w' & R & V' & W' & F & T1 & T2); [lia|intros _; lia|]. exists t, a', w'. repeat (split; [assumption|]). intros T0. rewrite T2; [lia|exact T0|lia].
  - apply Nat.ltb_ge in Q. exists false, a, w. repeat (split; [auto; try discriminate|]). intros _. lia.
Qed.
Lemma reserve_ok cnt ok n a l w rest : AI cnt a l w -> WI w (ptrs (blk a) ++ rest) ->
  exists t a' w', reserve cnt ok n a w = Ok (t, a', w') /\ AI cnt a' l w' /\ WI w' (ptrs (blk a') ++ rest) /\
    (forall i, In i rest -> find i (mem w') = find i (mem w)) /\ (t = true -> ok = false) /\ (t = false -> n <= size (blk a')).
Proof.
  intros V W. unfold reserve. pose proof (AI_le _ _ _ _ V) as S. pose proof (a_used _ _ _ _ V) as U. destruct (used a <? n) eqn:Q.
  - apply Nat.ltb_lt in Q. destruct (addExtra_ok cnt ok (n - used a) a l w rest V W) as (t & a' & w' & R & V' & W' & F & T1 & T2). exists t, a', w'. repeat (split; [assumption|]). intros T0. specialize (T2 T0). lia.
  - apply Nat.ltb_ge in Q. exists false, a, w. repeat (split; [auto; try discriminate|]). intros _. lia.
Qed.
Lemma freeExtra_ok cnt ok a l w rest : AI cnt a l w -> WI w (ptrs (blk a) ++ rest) ->
  exists t a' w', freeExtra cnt ok a w = Ok (t, a', w') /\ AI cnt a' l w' /\ WI w' (ptrs (blk a') ++ rest) /\
    (forall i, In i rest -> find i (mem w') = find i (mem w)) /\ (t = true -> ok = false).
Proof.
  intros V W. unfold freeExtra. destruct (used a <? size (blk a)) eqn:Q.
  - destruct (realloc_ok cnt ok false (used a) a l w rest V W) as (t & a' & w' & R & V' & W' & F & T1 & T2); [lia|discriminate|]. exists t, a', w'. auto.
  - exists false, a, w. repeat (split; [auto; try discriminate|]). discriminate.
Qed.
Lemma add_ok cnt ok x a l w rest : AI cnt a l w -> WI w (ptrs (blk a) ++ rest) ->
  exists t a' w', add cnt ok x a w = Ok (t, a', w') /\ AI cnt a' (if t then l else l ++ [x]) w' /\ WI w' (ptrs (blk a') ++ rest) /\
    (forall i, In i rest -> find i (mem w') = find i (mem w)) /\ (t = true -> ok = false).
Proof.
  intros V W. unfold add. destruct (addExtra_ok cnt ok 1 a l w rest V W) as (t & a' & w' & R & V' & W' & F & T1 & T2). rewrite R. cbn [obind]. destruct t; [exists true, a', w'; auto|].
  specialize (T2 eq_refl). destruct (a_cells _ _ _ _ V') as (c & B1 & B2 & B3). pose proof (a_used _ _ _ _ V') as U. rewrite B1. cbn [obind]. rewrite setn_ok by (cbn; lia). cbn [obind]. rewrite B3.
  destruct (store_ok cnt a' l w' rest (l ++ [x] ++ skipn (used a' + length [x]) c) (used a' + 1) (l ++ [x]) V' W') as (b & w2 & S & V2 & W2 & F2 & _).
  - rewrite !app_length, skipn_length. cbn [length]. lia.
  - rewrite app_assoc, firstn_app, firstn_all2 by (rewrite app_length; cbn; lia). rewrite app_length. cbn [length]. rewrite U, Nat.sub_diag. cbn. apply app_nil_r.
  - rewrite app_length. cbn. lia.
  - rewrite S. exists false, (mkA b (used a' + 1)), w2. repeat (split; [assumption || reflexivity|]). split; [|discriminate]. intros i I. rewrite F2 by exact I. apply F. exact I.
Qed.
Lemma trunc_ok cnt n a l w : AI cnt a l w -> AI cnt (trunc n a) (firstn (length l - n) l) w /\ blk (trunc n a) = blk a.
Proof.
  intros [A (c & B1 & B2 & B3) C D E]. split; [|reflexivity]. assert (U : used (trunc n a) = length l - n) by (unfold trunc; cbn; destruct (used a <=? n) eqn:Q; [apply Nat.leb_le in Q|apply Nat.leb_gt in Q]; lia).
  assert (LC : length l <= length c) by (rewrite <- B3, firstn_length; lia).
  constructor; auto; [exists c; split; [exact B1|split; [exact B2|]]|]; rewrite U.
  - transitivity (firstn (length l - n) (firstn (used a) c)); [rewrite firstn_firstn; f_equal; lia|rewrite B3; reflexivity].
  - rewrite firstn_length. lia.
Qed.
Lemma firstn_parts {A} x : forall u (c : list A), x <= u -> firstn x c ++ firstn (u - x) (skipn x c) = firstn u c.
Proof.
  induction x as [|x IH]; intros u c L; [cbn; rewrite Nat.sub_0_r; reflexivity|]. destruct u as [|u]; [lia|]. destruct c as [|y c]; [cbn; rewrite firstn_nil; reflexivity|].
  cbn. rewrite IH by lia. reflexivity.
Qed.
Lemma swap1_ok cnt ok a b la lb w : AI cnt a la w -> AI cnt b lb w -> WI w (ptrs (blk b) ++ ptrs (blk a)) -> used b <= used a ->
  exists t a' b' w', swap1 cnt ok a b w = Ok (t, a', b', w') /\ AI cnt a' (if t then la else lb) w' /\ AI cnt b' (if t then lb else la) w' /\ WI w' (ptrs (blk b') ++ ptrs (blk a')) /\ (t = true -> ok = false).
Proof.
  intros VA VB W LE. unfold swap1. destruct (reserve_ok cnt ok (used a) b lb w _ VB W) as (t & b1 & w1 & R & VB1 & W1 & F & T1 & T2). rewrite R. cbn [obind].
  assert (VA1 : AI cnt a la w1) by (apply (AI_frame _ _ _ w); assumption). destruct t; [exists true, a, b1, w1; auto|]. specialize (T2 eq_refl).
  destruct (a_cells _ _ _ _ VA1) as (ca & A1 & A2 & A3). destruct (a_cells _ _ _ _ VB1) as (cb & B1 & B2 & B3). pose proof (a_used _ _ _ _ VA1) as UA. pose proof (a_used _ _ _ _ VB1) as UB. pose proof (a_used _ _ _ _ VB) as UB0.
  assert (LA : length la <= length ca) by (rewrite <- A3, firstn_length; lia).
  assert (LB : length lb <= length cb) by (rewrite <- B3, firstn_length; lia).
  rewrite A1, B1. cbn [obind]. rewrite getn_ok by lia. cbn [obind]. rewrite getn_ok by lia. cbn [obind]. rewrite getn_ok by lia. cbn [obind]. cbn [skipn]. rewrite B3.
  rewrite setn_ok by lia. cbn [obind firstn app Nat.add]. set (xa := firstn (used b1) ca). assert (LX : length xa = used b1) by (unfold xa; rewrite firstn_length; lia).
  rewrite setn_ok by lia. cbn [obind firstn app Nat.add]. set (ya := firstn (used a - used b1) (skipn (used b1) ca)). assert (LY : length ya = used a - used b1) by (unfold ya; rewrite firstn_length, skipn_length; lia).
  assert (XY : xa ++ ya = la).
  { unfold xa, ya. rewrite firstn_parts by lia. exact A3. }
  rewrite setn_ok by (rewrite app_length, skipn_length; lia). cbn [obind].
  assert (EB : firstn (used b1) (xa ++ skipn (length xa) cb) = xa) by (rewrite firstn_app, LX, Nat.sub_diag; cbn; rewrite app_nil_r; apply firstn_all2; lia). rewrite EB.
  destruct (store_ok cnt a la w1 (ptrs (blk b1)) (lb ++ skipn (length lb) ca) (used b1) lb VA1) as (ba & w2 & SA & VA2 & W2 & F2 & S2 & P2).
  { apply (WI_perm _ (ptrs (blk b1) ++ ptrs (blk a))); [apply Permutation_app_comm|exact W1]. }
  { rewrite app_length, skipn_length. lia. }
  { rewrite firstn_app, UB, Nat.sub_diag. cbn. rewrite app_nil_r. apply firstn_all. }
  { lia. }
  rewrite SA.
  assert (VB2 : AI cnt b1 lb w2) by (apply (AI_frame _ _ _ w1); assumption).
  destruct (store_ok cnt b1 lb w2 (ptrs ba) (xa ++ ya ++ skipn (used b1 + length ya) (xa ++ skipn (length xa) cb)) (used a) la VB2) as (bb & w3 & SB & VB3 & W3 & F3 & S3 & P3).
  { apply (WI_perm _ (ptrs ba ++ ptrs (blk b1))); [apply Permutation_app_comm|exact W2]. }
  { rewrite !app_length, skipn_length, app_length, skipn_length. lia. }
  { rewrite app_assoc, XY, firstn_app, UA, Nat.sub_diag. cbn. rewrite app_nil_r. apply firstn_all. }
  { exact UA. }
  rewrite SB. exists false, (mkA ba (used b1)), (mkA bb (used a)), w3. split; [reflexivity|]. split; [apply (AI_frame _ _ _ w2); assumption|]. split; [exact VB3|]. split; [exact W3|discriminate].
Qed.
Lemma swap_ok cnt ok a b la lb w : AI cnt a la w -> AI cnt b lb w -> WI w (ptrs (blk a) ++ ptrs (blk b)) ->
  exists t a' b' w', swap cnt ok a b w = Ok (t, a', b', w') /\ AI cnt a' (if t then la else lb) w' /\ AI cnt b' (if t then lb else la) w' /\ WI w' (ptrs (blk a') ++ ptrs (blk b')) /\ (t = true -> ok = false).
Proof.
  intros VA VB W. unfold swap, swapAM. destruct (isLocal (blk a) || isLocal (blk b)) eqn:L.
  - destruct (used a <? used b) eqn:Q.
    + apply Nat.ltb_lt in Q. destruct (swap1_ok cnt ok b a lb la w VB VA) as (t & b' & a' & w' & R & V1 & V2 & W' & T); [exact W|lia|]. rewrite R. cbn [obind]. exists t, a', b', w'. auto.
    + apply Nat.ltb_ge in Q. destruct (swap1_ok cnt ok a b la lb w VA VB) as (t & a' & b' & w' & R & V1 & V2 & W' & T); [apply (WI_perm _ _ _ (Permutation_app_comm _ _) W)|lia|]. rewrite R. cbn [obind]. exists t, a', b', w'.
      repeat (split; [assumption || reflexivity|]). split; [apply (WI_perm _ _ _ (Permutation_app_comm _ _) W')|exact T].
  - apply Bool.orb_false_iff in L. destruct L as [LA LB]. unfold isLocal in LA, LB. destruct VA as [A (ca & A1 & A2) A3 A4 A5]. destruct VB as [B (cb & B1 & B2) B3 B4 B5].
    eexists. eexists. eexists. exists w. split; [reflexivity|]. cbn [blk]. unfold ptrs, cells in *. cbn [ptr]. split; [|split; [|split; [|discriminate]]].
    + constructor; cbn; auto. exists cb. unfold cells. cbn. destruct (ptr (blk b)); [discriminate|discriminate|auto].
    + constructor; cbn; auto. exists ca. unfold cells. cbn. destruct (ptr (blk a)); [discriminate|discriminate|auto].
    + apply (WI_perm _ _ _ (Permutation_app_comm _ _) W).
Qed.

(** * Runs *)
Definition spec_op (o : op) : sop :=
  match o with Add b _ x => SAdd b x | Reserve _ _ _ | FreeExtra _ _ => SNone | Trunc b n => STrunc b n | Swap _ _ => SSwap end.
Definition has_memory (o : op) : bool :=
  match o with Add _ ok _ | Reserve _ ok _ | FreeExtra _ ok | Swap _ ok => ok | Trunc _ _ => true end.
Record SI (cnt : nat) (s : st) (p : list Z * list Z) : Prop := {
  s_fst : AI cnt (fst_ s) (fst p) (wo s);
  s_snd : AI cnt (snd_ s) (snd p) (wo s);
  s_wo : WI (wo s) (ptrs (blk (fst_ s)) ++ ptrs (blk (snd_ s)));
}.
Lemma on_ok cnt second (ok : bool) (f : arr -> world -> outcome (bool * arr * world)) s p (g : list Z -> list Z) : SI cnt s p ->
  (forall a l w rest, AI cnt a l w -> WI w (ptrs (blk a) ++ rest) -> exists t a' w', f a w = Ok (t, a', w') /\ AI cnt a' (if t then l else g l) w' /\ WI w' (ptrs (blk a') ++ rest) /\ (forall i, In i rest -> find i (mem w') = find i (mem w)) /\ (t = true -> ok = false)) ->
  exists t s', on second f s = Ok (t, s') /\ SI cnt s' (if t then p else if second then (fst p, g (snd p)) else (g (fst p), snd p)) /\ (t = true -> ok = false).
Proof.
  intros [A B W] H. unfold on. destruct second.
  - destruct (H _ _ _ (ptrs (blk (fst_ s))) B (WI_perm _ _ _ (Permutation_app_comm _ _) W)) as (t & a' & w' & R & V & W' & F & TO). rewrite R. cbn [obind]. exists t. eexists. split; [reflexivity|]. split; [|exact TO].
    constructor; cbn.
    + destruct t; apply (AI_frame _ _ _ (wo s)); auto.
    + destruct t; exact V.
    + apply (WI_perm _ _ _ (Permutation_app_comm _ _) W').
  - destruct (H _ _ _ (ptrs (blk (snd_ s))) A W) as (t & a' & w' & R & V & W' & F & TO). rewrite R. cbn [obind]. exists t. eexists. split; [reflexivity|]. split; [|exact TO].
    constructor; cbn.
    + destruct t; exact V.
    + destruct t; apply (AI_frame _ _ _ (wo s)); auto.
    + exact W'.
Qed.

Lemma exec_ok cnt o s p : SI cnt s p -> exists t s', exec cnt o s = Ok (t, s') /\ SI cnt s' (if t then p else sexec (spec_op o) p) /\ (t = true -> has_memory o = false).
Proof.
  intros V. destruct p as [la lb]. destruct o as [b ok x|b ok n|b ok|b n|b ok]; cbn [exec spec_op sexec has_memory].
  - apply (on_ok cnt b ok (add cnt ok x) s (la, lb) (fun l => l ++ [x]) V). intros a l w rest A W. apply add_ok; assumption.
  - destruct (on_ok cnt b ok (reserve cnt ok n) s (la, lb) (fun l => l) V) as (t & s' & R & S & T).
    + intros a l w rest A W. destruct (reserve_ok cnt ok n a l w rest A W) as (t & a' & w' & R & V' & W' & F & T & _). exists t, a', w'. repeat (split; [assumption || (destruct t; assumption)|]). exact T.
    + exists t, s'. split; [exact R|]. split; [|exact T]. destruct t, b; exact S.
  - destruct (on_ok cnt b ok (freeExtra cnt ok) s (la, lb) (fun l => l) V) as (t & s' & R & S & T).
    + intros a l w rest A W. destruct (freeExtra_ok cnt ok a l w rest A W) as (t & a' & w' & R & V' & W' & F & T). exists t, a', w'. repeat (split; [assumption || (destruct t; assumption)|]). exact T.
    + exists t, s'. split; [exact R|]. split; [|exact T]. destruct t, b; exact S.
  - destruct (on_ok cnt b true (fun a w => Ok (false, trunc n a, w)) s (la, lb) (fun l => firstn (length l - n) l) V) as (t & s' & R & S & T).
    + intros a l w rest A W. destruct (trunc_ok cnt n a l w A) as [V' E]. exists false, (trunc n a), w. rewrite E. repeat (split; [auto; fail|]). discriminate.
    + exists t, s'. split; [exact R|]. split; [|exact T]. destruct t, b; exact S.
  - destruct V as [A B W]. cbn [fst snd] in *. destruct b.
    + destruct (swap_ok cnt ok _ _ _ _ _ B A (WI_perm _ _ _ (Permutation_app_comm _ _) W)) as (t & x & y & w' & R & V1 & V2 & W' & T). rewrite R. cbn [obind]. exists t. eexists. split; [reflexivity|]. split; [|exact T].
      constructor; cbn; [destruct t; exact V2|destruct t; exact V1|apply (WI_perm _ _ _ (Permutation_app_comm _ _) W')].
    + destruct (swap_ok cnt ok _ _ _ _ _ A B W) as (t & x & y & w' & R & V1 & V2 & W' & T). rewrite R. cbn [obind]. exists t. eexists. split; [reflexivity|]. split; [|exact T].
      constructor; cbn; [destruct t; exact V1|destruct t; exact V2|exact W'].
Qed.
Lemma run_ok cnt l : forall s p, SI cnt s p -> exists ts s', run cnt l s = Ok (ts, s') /\ length ts = length l /\ SI cnt s' (srun (combine (map spec_op l) ts) p) /\
  (forall i o, nth_error l i = Some o -> nth_error ts i = Some true -> has_memory o = false).
Proof.
  induction l as [|o l IH]; cbn [run]; intros s p V; [exists [], s; repeat (split; [auto; fail|]); intros [|i] o; discriminate|].
  destruct (exec_ok cnt o s p V) as (t & s1 & E & V1 & T). rewrite E. cbn [obind]. destruct (IH s1 _ V1) as (ts & s' & R & L & V' & Q). rewrite R. cbn [obind].
  exists (t :: ts), s'. split; [reflexivity|]. split; [cbn; lia|]. split; [exact V'|]. intros [|i] o'; cbn [nth_error]; [|apply Q]. intros X Y. injection X as <-. injection Y as ->. apply T. reflexivity.
Qed.
Lemma init_si cnt : SI cnt (init cnt false) ([], []).
Proof.
  constructor; cbn.
  - constructor; cbn; auto. 2: apply repeat_length. exists (repeat 0%Z cnt). cbn. rewrite repeat_length. auto.
  - constructor; cbn; auto. 2: apply repeat_length. exists (repeat 0%Z cnt). cbn. rewrite repeat_length. auto.
  - constructor; cbn; auto; [constructor|intros i []|discriminate].
Qed.
Lemma items_ok cnt a l w : AI cnt a l w -> items a w = Ok l.
Proof.
  intros V. pose proof (AI_le _ _ _ _ V) as L. destruct V as [A (c & B1 & B2 & B3) C D E]. unfold items. rewrite B1. cbn [obind]. rewrite getn_ok by lia. cbn [skipn]. rewrite B3. reflexivity.
Qed.
Lemma dtor_ok cnt a l w rest : AI cnt a l w -> WI w (ptrs (blk a) ++ rest) -> exists w', dtor (blk a) w = Ok w' /\ WI w' rest /\ forall i, In i rest -> find i (mem w') = find i (mem w).
Proof.
  intros [A (c & B1 & B2 & B3) C D E] [W1 W2 W3 W4]. unfold dtor, isLocal, ptrs, cells in *. destruct (ptr (blk a)) as [| |i] eqn:P; [discriminate|..].
  - exists w. split; [reflexivity|]. split; [constructor; auto|auto].
  - cbn [app] in W2. destruct (find i (mem w)) as [[k d]|] eqn:FI; [|discriminate]. cbn [release]. rewrite FI, (W4 i k d FI), A. cbn [Bool.eqb]. eexists. split; [reflexivity|].
    destruct (drop_perm _ _ _ W1 W2) as [N3 P3]. assert (NI : ~ In i rest) by (apply (Permutation_NoDup W2) in W1; inversion W1; assumption). cbn [mem]. split.
    + constructor; cbn [mem fresh]; auto.
      * intros j J. apply W3. apply (Permutation_in _ (Permutation_sym W2)). right. apply (Permutation_in _ P3). exact J.
      * intros j kk dd Q. assert (NJ : j <> i) by (intros ->; apply find_in in Q; apply (Permutation_in _ P3) in Q; auto). rewrite find_drop in Q by exact NJ. apply (W4 _ _ _ Q).
    + intros j J. apply find_drop. intros ->. auto.
Qed.
Lemma destroy_ok cnt s p : SI cnt s p -> exists w, destroy s = Ok w /\ mem w = [].
Proof.
  intros [A B W]. unfold destroy. destruct (dtor_ok cnt _ _ _ _ B (WI_perm _ _ _ (Permutation_app_comm _ _) W)) as (w1 & E1 & W1 & F1). rewrite E1. cbn [obind].
  assert (A1 : AI cnt (fst_ s) (fst p) w1) by (apply (AI_frame _ _ _ (wo s)); assumption). destruct (dtor_ok cnt _ _ w1 [] A1) as (w2 & E2 & W2 & _); [rewrite app_nil_r; exact W1|].
  exists w2. split; [exact E2|]. destruct W2 as [_ P _ _]. apply Permutation_sym, Permutation_nil in P. destruct (mem w2); [reflexivity|discriminate].
Qed.
