(** Lemmas for ArraySet_Props.v *)
From Coq Require Import Sorting.Permutation Sorting.Sorted.
From Verif Require Import Common ArraySet_Spec ArraySet_Model.
From Verif Require Heap_Model Heap_Proof.

Section Proof.
  Context {A : Type} (cmp : A -> A -> bool) (d : A).
  Hypothesis H1 : forall a b, cmp a b = true -> cmp b a = false.
  Hypothesis H2 : forall a b c, cmp b a = false -> cmp c b = false -> cmp c a = false.
  Notation "l !! i" := (nth i l d) (at level 20).

  (** the first [n] items are in order *)
  Definition upto (n : nat) (l : list A) : Prop := forall i j, i < j -> j < n -> cmp (l !! j) (l !! i) = false.
  Definition SI (s : st) : Prop := orderedCount s <= length (items s) /\ upto (orderedCount s) (items s).

  Lemma refl_ a : cmp a a = false.
  Proof. destruct (cmp a a) eqn:E; [rewrite (H1 _ _ E) in E; discriminate|reflexivity]. Qed.
  (** v < o, u <= v gives u < o *)
  Lemma low u v o : cmp v o = true -> cmp v u = false -> cmp u o = true.
  Proof. intros X Y. destruct (cmp u o) eqn:E; [reflexivity|]. rewrite (H2 o u v E Y) in X. discriminate. Qed.
  Lemma high u v o : cmp o v = true -> cmp u v = false -> cmp o u = true.
  Proof. intros X Y. destruct (cmp o u) eqn:E; [reflexivity|]. rewrite (H2 v u o Y E) in X. discriminate. Qed.
  Lemma get_ok (l : list A) i : i < length l -> get l i = Ok (l !! i).
  Proof. intros H. unfold get. rewrite (nth_error_nth' l d H). reflexivity. Qed.
  Lemma upto_le n m l : n <= m -> upto m l -> upto n l.
  Proof. intros L U i j I J. apply U; lia. Qed.
  Lemma upto_ext n l l' : (forall i, i < n -> l' !! i = l !! i) -> upto n l -> upto n l'.
  Proof. intros E U i j I J. rewrite !E by lia. apply U; lia. Qed.

  (** * find *)
  Lemma bsearch_ok s obj : forall fuel l r n, upto n s -> r <= n -> n <= length s -> l <= r -> r - l <= fuel ->
    (forall i, i < l -> cmp (s !! i) obj = true) -> (forall i, r <= i -> i < n -> cmp obj (s !! i) = true) ->
    exists b p, bsearch cmp fuel s obj l r = Ok (b, p) /\
      (if b then p < n /\ cmp obj (s !! p) = false /\ cmp (s !! p) obj = false
       else p <= n /\ (forall i, i < p -> cmp (s !! i) obj = true) /\ (forall i, p <= i -> i < n -> cmp obj (s !! i) = true)).
  Proof.
    induction fuel as [|f IH]; intros l r n U RN NL LR F LO HI; cbn [bsearch]; (destruct (l <? r) eqn:E; [apply Nat.ltb_lt in E|apply Nat.ltb_ge in E]).
    - lia.
    - exists false, l. split; [reflexivity|]. assert (l = r) as -> by lia. auto.
    - assert (M1 : l <= (l + r) / 2) by (apply Nat.div_le_lower_bound; lia). assert (M2 : (l + r) / 2 < r) by (apply Nat.div_lt_upper_bound; lia).
      set (m := (l + r) / 2) in *. rewrite get_ok by lia. cbn [obind]. destruct (cmp obj (s !! m)) eqn:C1; [|destruct (cmp (s !! m) obj) eqn:C2].
      + apply (IH l m n); auto; try lia. intros i I J. destruct (Nat.eq_dec i m) as [->|N]; [exact C1|]. apply (high _ (s !! m)); [exact C1|]. apply U; lia.
      + apply (IH (m + 1) r n); auto; try lia. intros i I. destruct (Nat.eq_dec i m) as [->|N]; [exact C2|]. apply (low _ (s !! m)); [exact C2|]. apply U; lia.
      + exists true, m. split; [reflexivity|]. split; [lia|]. auto.
    - exists false, l. split; [reflexivity|]. assert (l = r) as -> by lia. auto.
  Qed.
  Lemma scan_ok obj : forall l i, match scan cmp l i obj with
    | (true, p) => i <= p /\ p - i < length l /\ cmp obj (l !! (p - i)) = false /\ cmp (l !! (p - i)) obj = false
    | (false, p) => forall v, In v l -> ~ same cmp obj v end.
  Proof.
    induction l as [|v l IH]; intros i; cbn [scan]; [intros v []|]. destruct (negb (cmp obj v) && negb (cmp v obj)) eqn:E.
    - apply Bool.andb_true_iff in E. destruct E as [E1 E2]. apply Bool.negb_true_iff in E1. apply Bool.negb_true_iff in E2. rewrite Nat.sub_diag. cbn. repeat split; auto; lia.
    - specialize (IH (S i)). destruct (scan cmp l (S i) obj) as [[|] p].
      + destruct IH as (P1 & P2 & P3 & P4). replace (p - i) with (S (p - S i)) by lia. cbn. repeat split; auto; lia.
      + intros w [<-|I]; [|apply IH; exact I]. intros [S1 S2]. rewrite S1, S2 in E. discriminate.
  Qed.
  Lemma find_ok s obj : SI s -> exists r p, find cmp s obj = Ok (r, p) /\
    match r with
    | Some _ => exists v, nth_error (items s) p = Some v /\ same cmp obj v
    | None => (forall v, In v (items s) -> ~ same cmp obj v) /\ p <= orderedCount s /\
              (forall i v, nth_error (items s) i = Some v -> i < p -> cmp v obj = true) /\
              (forall i v, nth_error (items s) i = Some v -> p <= i -> i < orderedCount s -> cmp obj v = true)
    end.
  Proof.
    intros [L U]. unfold find, searchOrdered. rewrite Nat.min_l by exact L.
    destruct (bsearch_ok (items s) obj (orderedCount s) 0 (orderedCount s) (orderedCount s) U) as (b & p & E & Q); try lia. rewrite E. cbn [obind]. destruct b.
    - destruct Q as (P & C1 & C2). rewrite get_ok by lia. cbn [obind]. eexists. exists p. split; [reflexivity|]. exists (items s !! p). split; [apply nth_error_nth'; lia|split; assumption].
    - destruct Q as (P & LO & HI). unfold searchUnordered. rewrite Nat.min_l by exact L. pose proof (scan_ok obj (skipn (orderedCount s) (items s)) (orderedCount s)) as S.
      destruct (scan cmp (skipn (orderedCount s) (items s)) (orderedCount s) obj) as [[|] p2].
      + destruct S as (S1 & S2 & S3 & S4). rewrite skipn_length in S2. rewrite get_ok by lia. cbn [obind]. eexists. exists p2. split; [reflexivity|].
        exists (items s !! p2). split; [apply nth_error_nth'; lia|]. assert (EN : skipn (orderedCount s) (items s) !! (p2 - orderedCount s) = items s !! p2).
        { rewrite <- (firstn_skipn (orderedCount s) (items s)) at 2. rewrite app_nth2; rewrite firstn_length, Nat.min_l by lia; [reflexivity|lia]. }
        rewrite EN in *. split; assumption.
      + exists None, p. split; [reflexivity|]. split; [|split; [exact P|split]].
        * intros v I. rewrite <- (firstn_skipn (orderedCount s) (items s)) in I. apply in_app_or in I. destruct I as [I|I]; [|apply S; exact I]. apply (In_nth _ _ d) in I. destruct I as (i & I & V). rewrite firstn_length, Nat.min_l in I by lia.
          assert (V2 : items s !! i = v) by (rewrite <- V; rewrite <- (firstn_skipn (orderedCount s) (items s)) at 1; apply app_nth1; rewrite firstn_length; lia).
          intros [S1 S2]. destruct (Nat.lt_ge_cases i p) as [LT|GE]; [specialize (LO i LT); congruence|specialize (HI i GE I); congruence].
        * intros i v V LT. apply nth_error_nth with (d := d) in V. rewrite <- V. apply LO. exact LT.
        * intros i v V GE LT. apply nth_error_nth with (d := d) in V. rewrite <- V. apply HI; assumption.
  Qed.

  (** * makeOrdered *)
  Definition SK (n x : nat) (l : list A) : Prop :=
    (forall i j, i < j -> j < n -> i <> x -> j <> x -> cmp (l !! j) (l !! i) = false) /\ (forall j, x < j -> j < n -> cmp (l !! j) (l !! x) = false).
  Lemma sink_ok n : forall x l, x < n -> n <= length l -> SK n x l -> exists l', sink cmp l x = Ok l' /\ Permutation l l' /\ upto n l' /\ forall k, n <= k -> l' !! k = l !! k.
  Proof.
    induction x as [|x IH]; intros l X L [K1 K2]; cbn [sink].
    - exists l. split; [reflexivity|]. split; [reflexivity|]. split; [|auto]. intros i j I J. destruct i as [|i]; [apply K2; lia|apply K1; lia].
    - rewrite !get_ok by lia. cbn [obind]. destruct (cmp (l !! x) (l !! S x)) eqn:C; cbn [negb].
      + exists l. split; [reflexivity|]. split; [reflexivity|]. split; [|auto]. intros i j I J. destruct (Nat.eq_dec i (S x)) as [->|NI]; [apply K2; lia|].
        destruct (Nat.eq_dec j (S x)) as [->|NJ]; [|apply K1; lia]. destruct (Nat.eq_dec i x) as [->|NX]; [apply H1; exact C|]. apply H1. apply (low _ (l !! x)); [exact C|]. apply K1; lia.
      + rewrite (Heap_Proof.swap_ok d) by lia. cbn [obind]. set (l1 := Heap_Proof.swapped d l x (S x)).
        assert (N1 : forall k, l1 !! k = l !! (if k =? S x then x else if k =? x then S x else k)) by (intros k; apply Heap_Proof.swapped_nth; lia).
        destruct (IH l1) as (l' & E & P & U & B); [lia|unfold l1; rewrite Heap_Proof.swapped_length; exact L| |].
        { split.
          - intros i j I J NI NJ. rewrite !N1. destruct (Nat.eqb_spec j (S x)) as [->|NJ2].
            + destruct (Nat.eqb_spec i (S x)); [lia|]. destruct (Nat.eqb_spec i x); [lia|]. apply K1; lia.
            + destruct (Nat.eqb_spec j x); [lia|]. destruct (Nat.eqb_spec i (S x)) as [->|NI2]; [apply K1; lia|]. destruct (Nat.eqb_spec i x); [lia|]. apply K1; lia.
          - intros j J1 J2. rewrite !N1. rewrite (proj2 (Nat.eqb_neq x (S x))) by lia. rewrite Nat.eqb_refl. destruct (Nat.eqb_spec j (S x)) as [->|NJ]; [exact C|]. destruct (Nat.eqb_spec j x); [lia|]. apply K2; lia. }
        exists l'. split; [exact E|]. split; [rewrite <- P; apply Heap_Proof.swapped_perm; lia|]. split; [exact U|]. intros k K. rewrite B, N1 by exact K.
        destruct (Nat.eqb_spec k (S x)); [lia|]. destruct (Nat.eqb_spec k x); [lia|]. reflexivity.
  Qed.
  Lemma sinkAll_ok : forall n l i, i + n = length l -> upto i l -> exists l', sinkAll cmp n l i = Ok l' /\ Permutation l l' /\ upto (length l) l'.
  Proof.
    induction n as [|n IH]; intros l i L U; cbn [sinkAll].
    - exists l. split; [reflexivity|]. split; [reflexivity|]. replace (length l) with i by lia. exact U.
    - destruct (sink_ok (S i) i l) as (l1 & E & P & U1 & _); [lia|lia| |].
      { split; [intros a b Q1 Q2 _ Q3; apply U; lia|intros j J1 J2; lia]. }
      rewrite E. cbn [obind]. assert (LL : length l1 = length l) by (symmetry; apply Permutation_length; exact P). destruct (IH l1 (S i)) as (l' & E' & P' & U'); [lia|exact U1|].
      exists l'. split; [exact E'|]. split; [rewrite P; exact P'|]. rewrite <- LL. exact U'.
  Qed.
  Lemma sorted_upto l : StronglySorted (fun a b => cmp b a = false) l -> upto (length l) l.
  Proof.
    induction 1 as [|a l S IH F]; intros i j I J; [cbn in J; lia|]. destruct j as [|j]; [lia|]. cbn [nth length] in *. destruct i as [|i]; [|apply IH; lia].
    rewrite Forall_forall in F. apply F. apply nth_In. lia.
  Qed.
  Lemma upto_sorted l : upto (length l) l -> StronglySorted (fun a b => cmp b a = false) l.
  Proof.
    induction l as [|a l IH]; intros U; constructor.
    - apply IH. intros i j I J. apply (U (S i) (S j)); cbn; lia.
    - apply Forall_forall. intros b I. apply (In_nth _ _ d) in I. destruct I as (i & I & <-). apply (U 0 (S i)); cbn; lia.
  Qed.
  Lemma makeOrdered_ok s : SI s -> exists s', makeOrdered cmp s = Ok s' /\ Permutation (items s) (items s') /\ upto (length (items s')) (items s') /\ orderedCount s' = length (items s') /\ duplicates s' = duplicates s.
  Proof.
    intros [L U]. unfold makeOrdered. destruct (items s) as [|a t] eqn:EI.
    - exists s. split; [reflexivity|]. rewrite EI. split; [constructor|]. split; [intros i j I J; cbn in J; lia|]. cbn in *. split; [lia|reflexivity].
    - rewrite <- EI in *. set (oc := if orderedCount s =? 0 then 1 else orderedCount s). assert (LP : 0 < length (items s)) by (rewrite EI; cbn; lia).
      assert (OC : oc <= length (items s)) by (unfold oc; destruct (orderedCount s =? 0); lia).
      assert (UO : upto oc (items s)) by (unfold oc; destruct (orderedCount s =? 0) eqn:Z; [intros i j I J; lia|exact U]).
      destruct (length (items s) <=? oc) eqn:Q.
      + apply Nat.leb_le in Q. assert (oc = length (items s)) as E by lia. eexists. split; [reflexivity|]. cbn. split; [reflexivity|]. rewrite <- E. auto.
      + apply Nat.leb_gt in Q. destruct (length (items s) - oc <? 30) eqn:B.
        * destruct (sinkAll_ok (length (items s) - oc) (items s) oc) as (l' & E & P & V); [lia|exact UO|]. rewrite E. cbn [obind]. eexists. split; [reflexivity|]. cbn. split; [exact P|]. rewrite <- (Permutation_length P). auto.
        * destruct (Heap_Proof.sort_ok cmp d H1 H2 (items s)) as (l' & E & P & V). rewrite E. cbn [obind]. apply sorted_upto in V.
          assert (LL : length l' = length (items s)) by (symmetry; apply Permutation_length; exact P).
          destruct (duplicates s); cbn [obind].
          -- eexists. split; [reflexivity|]. cbn. auto.
          -- unfold removeDuplicatesAfterOrder. cbn [items orderedCount]. rewrite LL. rewrite (proj2 (Nat.ltb_lt oc (length (items s))) Q), Bool.orb_true_r. cbn [obind]. eexists. split; [reflexivity|]. cbn. auto.
  Qed.

  (** * other operations *)
  Lemma ins_nth (l : list A) a x i : a <= length l -> ins l a [x] !! i = if i <? a then l !! i else if i =? a then x else l !! (i - 1).
  Proof.
    intros L. unfold ins. assert (LF : length (firstn a l) = a) by (rewrite firstn_length; lia). destruct (i <? a) eqn:E; [apply Nat.ltb_lt in E|apply Nat.ltb_ge in E].
    - rewrite app_nth1 by lia. rewrite <- (firstn_skipn a l) at 2. rewrite app_nth1 by lia. reflexivity.
    - rewrite app_nth2 by lia. rewrite LF. destruct (Nat.eqb_spec i a) as [->|N]; [rewrite Nat.sub_diag; reflexivity|]. rewrite app_nth2 by (cbn; lia). cbn [length].
      rewrite <- (firstn_skipn a l) at 2. rewrite app_nth2 by lia. rewrite LF. f_equal. lia.
  Qed.
  Lemma ins_length (l : list A) a x : a <= length l -> length (ins l a [x]) = S (length l).
  Proof. intros L. unfold ins. rewrite !app_length, firstn_length, skipn_length. cbn. lia. Qed.
  Lemma del_nth (l : list A) a i : a <= length l -> del l a 1 !! i = if i <? a then l !! i else l !! (i + 1).
  Proof.
    intros L. unfold del. assert (LF : length (firstn a l) = a) by (rewrite firstn_length; lia). destruct (i <? a) eqn:E; [apply Nat.ltb_lt in E|apply Nat.ltb_ge in E].
    - rewrite app_nth1 by lia. rewrite <- (firstn_skipn a l) at 2. rewrite app_nth1 by lia. reflexivity.
    - rewrite app_nth2 by lia. rewrite LF. destruct (Nat.le_gt_cases (a + 1) (length l)) as [Q|Q].
      + rewrite <- (firstn_skipn (a + 1) l) at 2. rewrite app_nth2; rewrite firstn_length, Nat.min_l by lia; [f_equal; lia|lia].
      + rewrite skipn_all2 by lia. rewrite !nth_overflow; [reflexivity|lia|cbn; lia].
  Qed.
  Lemma insert_ok a x s : SI s -> a <= length (items s) -> exists s', insert cmp a x s = Ok s' /\ SI s' /\ items s' = ins (items s) a [x].
  Proof.
    intros [L U] LA. unfold insert. destruct (length (items s) <? a) eqn:E; [apply Nat.ltb_lt in E; lia|]. set (l := ins (items s) a [x]).
    assert (LL : length l = S (length (items s))) by (apply ins_length; exact LA). assert (N : forall i, l !! i = if i <? a then items s !! i else if i =? a then x else items s !! (i - 1)) by (intros i; apply ins_nth; exact LA).
    assert (UA : forall n, n <= a -> n <= orderedCount s -> upto n l) by (intros n N1 N2; apply (upto_ext n (items s)); [intros i I; rewrite N; destruct (i <? a) eqn:Q; [reflexivity|apply Nat.ltb_ge in Q; lia]|apply (upto_le n (orderedCount s)); assumption]).
    destruct (a <? orderedCount s) eqn:AO; [apply Nat.ltb_lt in AO|apply Nat.ltb_ge in AO].
    2: { eexists. split; [reflexivity|]. split; [|reflexivity]. split; cbn; [lia|apply UA; lia]. }
    assert (F1 : exists b, (if 0 <? a then let! u := get l (a - 1) in let! v := get l a in Ok (negb (cmp u v)) else Ok false) = Ok b /\ (b = false -> 0 < a -> cmp (l !! (a - 1)) x = true)).
    { destruct (0 <? a) eqn:Z; [apply Nat.ltb_lt in Z|apply Nat.ltb_ge in Z]; [|exists false; split; [reflexivity|lia]]. rewrite !get_ok by lia. cbn [obind]. eexists. split; [reflexivity|]. intros B _.
      apply Bool.negb_false_iff in B. rewrite (N a), Nat.ltb_irrefl, Nat.eqb_refl in B. exact B. }
    destruct F1 as (b1 & E1 & B1). rewrite E1. cbn [obind]. destruct b1; [eexists; split; [reflexivity|]; split; [|reflexivity]; split; cbn; [lia|apply UA; lia]|].
    rewrite (proj2 (Nat.ltb_lt (a + 1) (length l))) by lia. rewrite !get_ok by lia. cbn [obind]. eexists. split; [reflexivity|]. split; [|reflexivity].
    destruct (cmp (l !! a) (l !! (a + 1))) eqn:C; cbn [negb]; split; cbn [orderedCount items]; [lia| |lia|apply UA; lia].
    assert (NA : l !! a = x) by (rewrite N, Nat.ltb_irrefl, Nat.eqb_refl; reflexivity). rewrite NA in C.
    assert (NA1 : l !! (a + 1) = items s !! a) by (rewrite N; destruct (a + 1 <? a) eqn:Q; [apply Nat.ltb_lt in Q; lia|]; destruct (Nat.eqb_spec (a + 1) a); [lia|]; f_equal; lia). rewrite NA1 in C.
    intros i j I J. destruct (Nat.lt_trichotomy j a) as [J1|[J1|J1]].
    - apply (UA a); lia.
    - subst j. rewrite NA. specialize (B1 eq_refl ltac:(lia)). destruct (Nat.eq_dec i (a - 1)) as [->|NI]; [apply H1; exact B1|]. apply H1. apply (low _ (l !! (a - 1))); [exact B1|]. apply (UA a); lia.
    - assert (NJ : l !! j = items s !! (j - 1)) by (rewrite N; destruct (j <? a) eqn:Q; [apply Nat.ltb_lt in Q; lia|]; destruct (Nat.eqb_spec j a); [lia|reflexivity]). rewrite NJ.
      destruct (Nat.lt_trichotomy i a) as [I1|[I1|I1]].
      + rewrite N. rewrite (proj2 (Nat.ltb_lt i a) I1). apply U; lia.
      + subst i. rewrite NA. apply H1. destruct (Nat.eq_dec (j - 1) a) as [->|NE]; [exact C|]. apply (high _ (items s !! a)); [exact C|]. apply U; lia.
      + assert (NI : l !! i = items s !! (i - 1)) by (rewrite N; destruct (i <? a) eqn:Q; [apply Nat.ltb_lt in Q; lia|]; destruct (Nat.eqb_spec i a); [lia|reflexivity]). rewrite NI. apply U; lia.
  Qed.
  Lemma erase_ok a s : SI s -> a <= length (items s) -> exists s', erase a s = Ok s' /\ SI s' /\ items s' = del (items s) a 1.
  Proof.
    intros [L U] LA. unfold erase. destruct (length (items s) <? a) eqn:E; [apply Nat.ltb_lt in E; lia|]. eexists. split; [reflexivity|]. split; [|reflexivity].
    assert (LL : length (del (items s) a 1) = a + (length (items s) - (a + 1))) by (unfold del; rewrite app_length, firstn_length, skipn_length; lia).
    split; cbn [orderedCount items].
    - rewrite LL. destruct (a <? orderedCount s) eqn:Q; [apply Nat.ltb_lt in Q|apply Nat.ltb_ge in Q]; lia.
    - intros i j I J. rewrite !del_nth by exact LA. destruct (a <? orderedCount s) eqn:Q; [apply Nat.ltb_lt in Q|apply Nat.ltb_ge in Q];
      destruct (i <? a) eqn:IA, (j <? a) eqn:JA; rewrite ?Nat.ltb_lt, ?Nat.ltb_ge in *; try lia; apply U; lia.
  Qed.
  Lemma trunc_ok n s : SI s -> exists s', trunc n s = Ok s' /\ SI s' /\ items s' = firstn (length (items s) - n) (items s).
  Proof.
    intros [L U]. unfold trunc. eexists. split; [reflexivity|]. split; [|reflexivity]. set (k := length (items s) - n). assert (LF : length (firstn k (items s)) = k) by (rewrite firstn_length; lia).
    split; cbn [orderedCount items].
    - destruct (length (firstn k (items s)) <? orderedCount s) eqn:Q; [lia|apply Nat.ltb_ge in Q; lia].
    - rewrite LF. apply (upto_ext _ (items s)).
      + intros i I. rewrite <- (firstn_skipn k (items s)) at 2. rewrite app_nth1; [reflexivity|]. rewrite LF. destruct (k <? orderedCount s) eqn:Q; [lia|apply Nat.ltb_ge in Q; lia].
      + apply (upto_le _ (orderedCount s)); [|exact U]. destruct (k <? orderedCount s) eqn:Q; [apply Nat.ltb_lt in Q; lia|lia].
  Qed.
  Lemma run_up_ok : forall l, run_up cmp l <= length l - 1 /\ upto (run_up cmp l + 1) l.
  Proof.
    induction l as [|a [|b t] IH].
    - split; [cbn; lia|]. intros i j I J. cbn in J. lia.
    - split; [cbn; lia|]. intros i j I J. cbn in J. lia.
    - assert (E : run_up cmp (a :: b :: t) = if cmp a b then S (run_up cmp (b :: t)) else 0) by reflexivity. rewrite E. destruct (cmp a b) eqn:C.
      + destruct IH as [I1 I2]. split; [cbn [length] in *; lia|]. intros i j I J. destruct j as [|j]; [lia|]. destruct i as [|i]; [|apply (I2 i j); lia].
        apply H1. cbn [nth]. change (cmp a ((b :: t) !! j) = true). destruct j as [|j]; [exact C|]. apply (high _ b); [exact C|]. apply (I2 0 (S j)); lia.
      + split; [lia|]. intros i j I J. lia.
  Qed.
  Lemma detect_ok a t : exists s, detect cmp (a :: t) = Ok s /\ SI s /\ items s = a :: t.
  Proof.
    destruct (run_up_ok (a :: t)) as [I1 I2]. unfold detect, checkOrder. cbn [obind]. eexists. split; [reflexivity|]. split; [|reflexivity]. split; cbn [orderedCount items]; [lia|]. apply (upto_le _ (run_up cmp (a :: t) + 1)); [lia|exact I2].
  Qed.
  Definition plain (o : @op A) : Prop := match o with InsertN _ _ _ | EraseN _ _ => False | _ => True end.
  Lemma exec_ok o s : plain o -> SI s -> match exec cmp o s with Ok s' => SI s' | Throw => True | _ => False end.
  Proof.
    intros P V. destruct o as [x|a x|a x n|a|a n|n| | |b]; cbn [exec]; try destruct P.
    - destruct V as [L U]. split; cbn [orderedCount items]; [rewrite app_length; lia|]. apply (upto_ext _ (items s)); [|exact U]. intros i I. apply app_nth1. lia.
    - destruct (Nat.le_gt_cases a (length (items s))) as [Q|Q]; [destruct (insert_ok a x s V Q) as (s' & -> & V' & _); exact V'|]. unfold insert. rewrite (proj2 (Nat.ltb_lt _ _) Q). exact I.
    - destruct (Nat.le_gt_cases a (length (items s))) as [Q|Q]; [destruct (erase_ok a s V Q) as (s' & -> & V' & _); exact V'|]. unfold erase. rewrite (proj2 (Nat.ltb_lt _ _) Q). exact I.
    - destruct (trunc_ok n s V) as (s' & -> & V' & _). exact V'.
    - split; cbn; [lia|]. intros i j I J. cbn in J. lia.
    - destruct (makeOrdered_ok s V) as (s' & -> & _ & U & O & _). split; [lia|]. rewrite O. exact U.
    - exact V.
  Qed.
  Lemma run_ok l : forall s, Forall plain l -> SI s -> exists s', run cmp l s = Ok s' /\ SI s'.
  Proof.
    induction l as [|o l IH]; intros s P V; cbn [run]; [eauto|]. inversion P; subst. pose proof (exec_ok o s H3 V) as X. destruct (exec cmp o s); try destruct X; apply IH; auto. split; assumption.
  Qed.
  Lemma init_si : SI init.
  Proof. split; cbn; [lia|]. intros i j I J. cbn in J. lia. Qed.
End Proof.
