(** Lemmas about the model of array expressions. *)
From Verif Require Import Common ArrExpr_Spec ArrExpr_Model.

Section Proof.
  Context {T : Type}.
  Implicit Types (a b : aexp T) (l : list T).

  Lemma concat_repeat_length l n : length (concat (repeat l n)) = length l * n.
  Proof. induction n; cbn [repeat concat]; [cbn; lia|]. rewrite app_length, IHn. lia. Qed.

  Lemma len_items a : sound a -> length (items a) = len a.
  Proof.
    induction a as [l s n|a IHa b IHb|a IHa s n|a IHa|a IHa n]; cbn [sound items len]; intros H.
    - rewrite firstn_length, skipn_length. lia.
    - destruct H. rewrite app_length. auto.
    - destruct H as [H1 H2]. rewrite firstn_length, skipn_length. lia.
    - rewrite rev_length. auto.
    - rewrite concat_repeat_length, IHa; auto.
  Qed.

  Lemma nth_firstn l n i : i < n -> nth_error (firstn n l) i = nth_error l i.
  Proof. revert n i. induction l; intros [|n] [|i] H; cbn; try lia; auto. apply IHl. lia. Qed.
  Lemma nth_skipn l s i : nth_error (skipn s l) i = nth_error l (s + i).
  Proof. revert l. induction s; intros [|x l]; cbn; auto. destruct i; reflexivity. Qed.
  Lemma nth_rev l : forall i, i < length l -> nth_error (rev l) i = nth_error l (length l - i - 1).
  Proof.
    intros i H. destruct (nth_error l (length l - i - 1)) as [x|] eqn:E; [|apply nth_error_None in E; lia].
    assert (Z : nth_error (rev l) i = Some (nth i (rev l) x)) by (apply nth_error_nth'; rewrite rev_length; exact H).
    rewrite Z, rev_nth by exact H. replace (length l - S i) with (length l - i - 1) by lia. f_equal. apply nth_error_nth. exact E.
  Qed.
  Lemma nth_concat_repeat l n : forall i, i < length l * n -> nth_error (concat (repeat l n)) i = nth_error l (i mod length l).
  Proof.
    induction n as [|n IH]; intros i H; [lia|]. cbn [repeat concat]. destruct (Nat.lt_ge_cases i (length l)).
    - rewrite nth_error_app1, Nat.mod_small by lia. reflexivity.
    - rewrite nth_error_app2, IH by lia. f_equal.
      replace i with ((i - length l) + 1 * length l) at 2 by lia. rewrite Nat.mod_add by lia. reflexivity.
  Qed.

  Lemma at_items a : sound a -> forall i, i < len a -> exists x, nth_error (items a) i = Some x /\ at_ a i = Ok x.
  Proof.
    induction a as [l s n|a IHa b IHb|a IHa s n|a IHa|a IHa n]; cbn [sound items len at_]; intros H i Hi.
    - rewrite nth_firstn, nth_skipn by exact Hi. destruct (nth_error l (s + i)) eqn:E; [eauto|]. apply nth_error_None in E. lia.
    - destruct H as [HA HB]. destruct (Nat.leb_spec (len a) i).
      + rewrite nth_error_app2 by (rewrite len_items; auto). rewrite len_items by auto. apply IHb; [auto|lia].
      + rewrite nth_error_app1 by (rewrite len_items; auto). apply IHa; auto.
    - destruct H as [H1 H2]. rewrite nth_firstn, nth_skipn by exact Hi. rewrite Nat.add_comm. apply IHa; [auto|].
      rewrite len_items in H2 by auto. lia.
    - destruct (Nat.ltb_spec i (len a)); [|lia]. rewrite nth_rev by (rewrite len_items; auto). rewrite len_items by auto. apply IHa; [auto|lia].
    - destruct (Nat.eqb_spec (len a) 0); [lia|]. rewrite nth_concat_repeat by (rewrite len_items; auto). rewrite len_items by auto.
      apply IHa; [auto|]. apply Nat.mod_upper_bound. auto.
  Qed.

  Lemma at_nth a i x : sound a -> nth_error (items a) i = Some x -> at_ a i = Ok x.
  Proof.
    intros H N. assert (L : i < length (items a)) by (apply nth_error_Some; congruence). rewrite len_items in L by auto.
    destruct (at_items a H i L) as (y & N2 & E). congruence.
  Qed.

    Lemma firstn_more l n k : n <= length l -> firstn (n + k) l = firstn n l ++ firstn k (skipn n l).
    Proof. revert l. induction n; intros [|x l] H; cbn in *; try lia; [reflexivity|reflexivity|]. rewrite IHn by lia. reflexivity. Qed.
    Lemma skip_skip l i j : skipn i (skipn j l) = skipn (j + i) l.
    Proof. revert l. induction j; intros [|x l]; cbn; auto. destruct i; reflexivity. Qed.

    Lemma skip_concat l q m : skipn (length l * q) (concat (repeat l (q + m))) = concat (repeat l m).
    Proof.
      induction q as [|q IH]; [rewrite Nat.mul_0_r; reflexivity|]. cbn [Nat.add repeat concat].
      replace (length l * S q) with (length l + length l * q) by lia. rewrite <- skip_skip, skipn_app, skipn_all, Nat.sub_diag. exact IH.
    Qed.

  (** ** Visiting *)
  Section Visit.
    Context {S : Type} (f : S -> T -> bool * S).

    Lemma visit_app l l2 : forall s, visit f (l ++ l2) s = (let (stop, s1) := visit f l s in if stop then (true, s1) else visit f l2 s1).
    Proof. induction l as [|x l IH]; intros s; cbn; [reflexivity|]. destruct (f s x) as [[|] s1]; [reflexivity|]. apply IH. Qed.

    Lemma eachAt_ok get l : (forall i x, nth_error l i = Some x -> get i = Ok x) ->
      forall n i s, i + n <= length l -> eachAt f get n i s = Ok (visit f (firstn n (skipn i l)) s).
    Proof.
      intros G. induction n as [|n IH]; intros i s H; [reflexivity|]. cbn [eachAt].
      destruct (nth_error l i) as [x|] eqn:E; [|apply nth_error_None in E; lia]. rewrite (G _ _ E). cbn [obind].
      assert (Z : skipn i l = x :: skipn (Datatypes.S i) l).
      { clear - E. revert l E. induction i; intros [|y l] E; cbn in *; try discriminate; [congruence|]. apply IHi. exact E. }
      rewrite Z. cbn [firstn visit]. destruct (f s x) as [[|] s1]; [reflexivity|]. apply IH. lia.
    Qed.

    Lemma repLoop_ok each l (ok : nat -> Prop) : ok 0 -> l <> [] ->
      (forall k c s, ok k -> k + c <= length l -> each k c s = Ok (visit f (firstn c (skipn k l)) s)) ->
      forall fuel m k count s, ok k -> k < length l -> count <= fuel -> k + count <= length l * m ->
        repLoop each (length l) fuel k count s = Ok (visit f (firstn count (skipn k (concat (repeat l m)))) s).
    Proof.
      intros O0 NE E. induction fuel as [|fu IH]; intros m k count s OK K C M; cbn [repLoop].
      - replace count with 0 by lia. destruct (Nat.ltb_spec (length l) (k + 0)); [lia|]. rewrite E by (auto; lia). reflexivity.
      - destruct (Nat.ltb_spec (length l) (k + count)) as [D|D].
        + rewrite E by (auto; lia). cbn [obind].
          destruct m as [|m]; [lia|]. cbn [repeat concat].
          assert (Z : firstn count (skipn k (l ++ concat (repeat l m))) =
            firstn (length l - k) (skipn k l) ++ firstn (count - (length l - k)) (concat (repeat l m))).
          { rewrite skipn_app. replace (k - length l) with 0 by lia. cbn [skipn]. rewrite firstn_app, skipn_length.
            rewrite (firstn_all2 (n := count)) by (rewrite skipn_length; lia).
            rewrite (firstn_all2 (n := length l - k)) by (rewrite skipn_length; lia). reflexivity. }
          rewrite Z, visit_app. destruct (visit f (firstn (length l - k) (skipn k l)) s) as [[|] s1]; [reflexivity|].
          rewrite (IH m 0); [reflexivity|exact O0|lia|lia|lia].
        + rewrite E by auto. destruct m as [|m].
          { destruct count; [|lia]. reflexivity. }
          cbn [repeat concat]. rewrite skipn_app. replace (k - length l) with 0 by lia. cbn [skipn].
          rewrite (firstn_app count), skipn_length. replace (count - (length l - k)) with 0 by lia. cbn [firstn]. rewrite app_nil_r. reflexivity.
    Qed.

    Lemma at_get a : sound a -> forall i x, nth_error (items a) i = Some x -> at_ a i = Ok x.
    Proof. intros H i x. apply at_nth. exact H. Qed.

    Lemma forEach_straight a : sound a -> straight a -> forall from count s, from + count <= len a ->
      forEach f a from count s = Ok (visit f (firstn count (skipn from (items a))) s).
    Proof.
      induction a as [l s n|a IHa b IHb|a IHa s n|a IHa|a IHa n]; intros SO ST from count s0 H.
      - cbn [forEach]. apply (eachAt_ok (at_ (Flat l s n)) (items (Flat l s n))); [apply at_get; exact SO|]. rewrite len_items by exact SO. exact H.
      - destruct ST.
      - cbn [sound straight len items forEach] in *. destruct SO as [SO1 SO2]. rewrite IHa; auto.
        2:{ rewrite len_items in SO2 by auto. lia. }
        do 2 f_equal. rewrite skipn_firstn_comm, firstn_firstn, skip_skip. rewrite Nat.min_l by lia. rewrite (Nat.add_comm s). reflexivity.
      - cbn [forEach]. apply (eachAt_ok (at_ (Rev a)) (items (Rev a))); [apply at_get; exact SO|]. rewrite len_items by exact SO. exact H.
      - cbn [sound straight len items forEach] in *. destruct ST as [ST NE].
        pose proof (len_items a SO) as L. rewrite <- L in *.
        assert (P : length (items a) <> 0) by (destruct (items a); [contradiction|cbn; lia]).
        destruct (Nat.eqb_spec (length (items a)) 0); [lia|].
        pose proof (Nat.div_mod from (length (items a)) P) as DM. pose proof (Nat.mod_upper_bound from (length (items a)) P) as MB.
        set (q := from / length (items a)) in *. set (k := from mod length (items a)) in *.
        destruct count as [|c].
        + cbn [repLoop]. destruct (Nat.ltb_spec (length (items a)) (k + 0)); [lia|]. rewrite IHa by (auto; lia). reflexivity.
        + assert (Q : q < n) by nia.
          rewrite (repLoop_ok (forEach f a) (items a) (fun _ => True)) with (m := n - q);
            [|exact I|exact NE|intros k1 c1 s1 _ H1; apply IHa; auto|exact I|exact MB|lia|nia].
          do 3 f_equal. replace n with (q + (n - q)) at 2 by lia. rewrite DM, <- skip_skip, skip_concat. reflexivity.
    Qed.

    Lemma forEach_prefix a : sound a -> easy a -> forall count s, count <= len a ->
      forEach f a 0 count s = Ok (visit f (firstn count (items a)) s).
    Proof.
      induction a as [l s n|a IHa b IHb|a IHa s n|a IHa|a IHa n]; intros SO ST count s0 H.
      - apply (forEach_straight (Flat l s n)); auto.
      - cbn [sound easy len items forEach] in *. destruct SO as [SA SB], ST as [EA EB].
        pose proof (len_items a SA) as LA. pose proof (len_items b SB) as LB.
        destruct (Nat.leb_spec (len a) 0) as [Z|Z].
        + rewrite IHb by (auto; lia). destruct (items a); [reflexivity|]. cbn in LA. lia.
        + cbn [Nat.add]. destruct (Nat.leb_spec count (len a)).
          * rewrite IHa by (auto; lia). rewrite firstn_app. replace (count - length (items a)) with 0 by lia. cbn [firstn]. rewrite app_nil_r. reflexivity.
          * rewrite Nat.sub_0_r, IHa by auto. cbn [obind]. rewrite firstn_app, visit_app, LA.
            rewrite (firstn_all2 (n := len a)) by lia. rewrite (firstn_all2 (n := count)) by lia.
            destruct (visit f (items a) s0) as [[|] s1]; [reflexivity|]. destruct (Nat.leb_spec (len a) count); [|lia]. apply IHb; auto. lia.
      - destruct ST as [ST|[-> ST]].
        + apply (forEach_straight (Mid a s n)); auto.
        + cbn [sound len items forEach skipn] in *. destruct SO as [SO1 SO2]. rewrite len_items in SO2 by auto. rewrite IHa by (auto; lia).
          rewrite firstn_firstn, Nat.min_l by lia. reflexivity.
      - apply (forEach_straight (Rev a)); cbn; auto.
      - cbn [sound easy len items forEach] in *. destruct ST as [ST NE].
        pose proof (len_items a SO) as L. rewrite <- L in *.
        assert (P : length (items a) <> 0) by (destruct (items a); [contradiction|cbn; lia]).
        destruct (Nat.eqb_spec (length (items a)) 0); [lia|]. rewrite Nat.mod_0_l by exact P.
        rewrite (repLoop_ok (forEach f a) (items a) (fun k => k = 0)) with (m := n);
          [reflexivity|reflexivity|exact NE|intros k1 c1 s1 -> H1; apply IHa; auto; lia|reflexivity|lia|lia|lia].
    Qed.

    Lemma forEach_whole a : sound a -> easy a -> forall s, forEach f a 0 (len a) s = Ok (visit f (items a) s).
    Proof. intros SO E s. rewrite forEach_prefix by auto. rewrite firstn_all2; [reflexivity|]. rewrite len_items; auto. Qed.
  End Visit.

  (** ** Parts *)
  Lemma mkMid_items a s n : items (mkMid a s n) = firstn n (skipn s (items a)) \/ length (items a) < s + n.
  Proof.
    destruct (Nat.lt_ge_cases (length (items a)) (s + n)) as [H|H]; [right; exact H|left].
    destruct a as [l s0 n0|a b|a s0 n0|a|a n0]; cbn [mkMid items] in *; try reflexivity.
    - rewrite firstn_length, skipn_length in H. rewrite skipn_firstn_comm, firstn_firstn, skip_skip. rewrite Nat.min_l by lia. reflexivity.
    - rewrite firstn_length, skipn_length in H. rewrite skipn_firstn_comm, firstn_firstn, skip_skip. rewrite Nat.min_l by lia.
      rewrite (Nat.add_comm s0). reflexivity.
  Qed.
  Lemma mkMid_ok a s n : sound a -> s + n <= len a ->
    sound (mkMid a s n) /\ items (mkMid a s n) = firstn n (skipn s (items a)) /\ len (mkMid a s n) = n.
  Proof.
    intros SO H. split; [|split].
    - destruct a as [l s0 n0|a b|a s0 n0|a|a n0]; cbn [mkMid sound len] in *; try lia.
      + change (sound (Sum a b) /\ s + n <= length (items (Sum a b))). rewrite len_items by exact SO. auto.
      + destruct SO. split; [auto|lia].
      + change (sound (Rev a) /\ s + n <= length (items (Rev a))). rewrite len_items by exact SO. auto.
      + change (sound (Rep a n0) /\ s + n <= length (items (Rep a n0))). rewrite len_items by exact SO. auto.
    - destruct (mkMid_items a s n) as [E|E]; [exact E|]. rewrite len_items in E by auto. lia.
    - destruct a; reflexivity.
  Qed.

  Lemma mid_ok a pos count : sound a -> (lenN a < W)%N -> (pos + count < W)%N ->
    sound (mid a pos count) /\ items (mid a pos count) = firstn (N.to_nat count) (skipn (N.to_nat pos) (items a)).
  Proof.
    intros SO L H. pose proof (len_items a SO) as LI. unfold mid, lenN in *. rewrite N.mod_small by exact H.
    destruct (N.leb_spec (N.of_nat (len a)) pos).
    - destruct (mkMid_ok a 0 0 SO) as (A & B & _); [lia|]. split; [exact A|]. rewrite B, (skipn_all2 (n := N.to_nat pos)) by lia.
      destruct (N.to_nat count); reflexivity.
    - destruct (N.ltb_spec (N.of_nat (len a)) (pos + count)).
      + destruct (mkMid_ok a (N.to_nat pos) (len a - N.to_nat pos) SO) as (A & B & _); [lia|]. split; [exact A|]. rewrite B.
        rewrite !firstn_all2 by (rewrite skipn_length; lia). reflexivity.
      + destruct (mkMid_ok a (N.to_nat pos) (N.to_nat count) SO) as (A & B & _); [lia|]. auto.
  Qed.

  Lemma clip_min a n : clip a n = Nat.min (len a) (N.to_nat n).
  Proof. unfold clip, lenN. destruct (N.ltb_spec (N.of_nat (len a)) n); lia. Qed.

  Lemma offset_ok a pos : sound a -> sound (offset a pos) /\ items (offset a pos) = skipn (N.to_nat pos) (items a) /\
    len (offset a pos) = len a - N.to_nat pos.
  Proof.
    intros SO. pose proof (len_items a SO) as LI. unfold offset. rewrite clip_min.
    destruct (mkMid_ok a (Nat.min (len a) (N.to_nat pos)) (len a - Nat.min (len a) (N.to_nat pos)) SO) as (A & B & C); [lia|].
    split; [exact A|]. rewrite B, C. split; [|lia]. rewrite firstn_all2 by (rewrite skipn_length; lia).
    destruct (Nat.le_ge_cases (len a) (N.to_nat pos)).
    - rewrite Nat.min_l by lia. rewrite !skipn_all2 by lia. reflexivity.
    - rewrite Nat.min_r by lia. reflexivity.
  Qed.
  Lemma head_ok a n : sound a -> sound (head a n) /\ items (head a n) = firstn (N.to_nat n) (items a).
  Proof.
    intros SO. pose proof (len_items a SO) as LI. unfold head. rewrite clip_min.
    destruct (mkMid_ok a 0 (Nat.min (len a) (N.to_nat n)) SO) as (A & B & C); [lia|]. split; [exact A|]. rewrite B. cbn [skipn].
    destruct (Nat.le_ge_cases (len a) (N.to_nat n)).
    - rewrite Nat.min_l by lia. rewrite !firstn_all2 by lia. reflexivity.
    - rewrite Nat.min_r by lia. reflexivity.
  Qed.
  Lemma tail_ok a n : sound a -> sound (tail a n) /\ items (tail a n) = skipn (length (items a) - N.to_nat n) (items a).
  Proof.
    intros SO. pose proof (len_items a SO) as LI. unfold tail. rewrite clip_min.
    destruct (mkMid_ok a (len a - Nat.min (len a) (N.to_nat n)) (Nat.min (len a) (N.to_nat n)) SO) as (A & B & C); [lia|].
    split; [exact A|]. rewrite B, LI. rewrite firstn_all2 by (rewrite skipn_length; lia). f_equal. lia.
  Qed.
  Lemma roffset_ok a n : sound a -> sound (roffset a n) /\ items (roffset a n) = firstn (length (items a) - N.to_nat n) (items a).
  Proof.
    intros SO. pose proof (len_items a SO) as LI. unfold roffset. rewrite clip_min.
    destruct (mkMid_ok a 0 (len a - Nat.min (len a) (N.to_nat n)) SO) as (A & B & C); [lia|].
    split; [exact A|]. rewrite B, LI. cbn [skipn]. f_equal. lia.
  Qed.
  Lemma crop_ok a left right : sound a -> (lenN a < W)%N -> (left + right < W)%N ->
    sound (crop a left right) /\
    items (crop a left right) = firstn (length (items a) - N.to_nat left - N.to_nat right) (skipn (N.to_nat left) (items a)).
  Proof.
    intros SO L H. pose proof (len_items a SO) as LI. unfold crop, lenN in *. rewrite N.mod_small by exact H.
    destruct (N.leb_spec (N.of_nat (len a)) (left + right)).
    - destruct (mkMid_ok a 0 0 SO) as (A & B & _); [lia|]. split; [exact A|]. rewrite B, LI.
      replace (len a - N.to_nat left - N.to_nat right) with 0 by lia. reflexivity.
    - replace (N.of_nat (len a) + 2 * W - right - left)%N with ((N.of_nat (len a) - right - left) + 2 * W)%N by lia.
      rewrite N.mod_add by (unfold W; discriminate). rewrite N.mod_small by lia.
      destruct (mkMid_ok a (N.to_nat left) (N.to_nat (N.of_nat (len a) - right - left)) SO) as (A & B & _); [lia|].
      split; [exact A|]. rewrite B, LI. f_equal. lia.
  Qed.

  (** ** Searching *)
  Lemma finder_ok (p : T -> bool) l : forall k,
    exists r, first_such (fun x => p x = true) l r /\
      visit (finder p) l k = (match r with Some i => (true, k + i) | None => (false, k + length l) end).
  Proof.
    induction l as [|x l IH]; intros k; cbn [visit length].
    - exists None. split; [constructor|]. rewrite Nat.add_0_r. reflexivity.
    - unfold finder at 1. destruct (p x) eqn:P.
      + exists (Some 0). split; [exists [], x, l; auto|]. rewrite Nat.add_0_r. reflexivity.
      + destruct (IH (S k)) as ([i|] & F & V).
        * exists (Some (S i)). split.
          { destruct F as (q & y & t & E & L & Y & N). exists (x :: q), y, t. cbn. subst. repeat split; auto. constructor; [congruence|auto]. }
          rewrite V. f_equal. lia.
        * exists None. split; [constructor; [congruence|exact F]|]. rewrite V. f_equal. lia.
  Qed.

  Lemma noPart_empty a : sound a -> noPart a -> empty a = (len a =? 0).
  Proof.
    induction a as [l s n|a IHa b IHb|a IHa s n|a IHa|a IHa n]; intros SO NP; cbn [empty]; try reflexivity; [|destruct NP].
    destruct SO, NP. rewrite IHa, IHb by auto. cbn [len]. destruct (Nat.eqb_spec (len a) 0), (Nat.eqb_spec (len b) 0); cbn; symmetry;
      [apply Nat.eqb_eq|apply Nat.eqb_neq|apply Nat.eqb_neq|apply Nat.eqb_neq]; lia.
  Qed.

  Lemma findP_ok a p : sound a -> easy a -> noPart a ->
    exists r, findP a p = Ok r /\ first_such (fun x => p x = true) (items a) r.
  Proof.
    intros SO E NP. unfold findP. rewrite noPart_empty by auto. destruct (Nat.eqb_spec (len a) 0).
    - exists None. split; [reflexivity|]. pose proof (len_items a SO). destruct (items a); [constructor|cbn in *; lia].
    - rewrite forEach_whole by auto. cbn [obind]. destruct (finder_ok p (items a) 0) as ([i|] & F & V); rewrite V; eauto.
  Qed.

  Variable icmp : T -> T -> comparison.
  Hypothesis icmp_eq : forall x y, icmp x y = Eq <-> x = y.

  Lemma isEq_eq x y : isEq icmp x y = true <-> x = y.
  Proof. unfold isEq. rewrite <- icmp_eq. destruct (icmp x y); split; congruence. Qed.

  Lemma first_such_ext (p q : T -> Prop) l r : (forall x, p x <-> q x) -> first_such p l r -> first_such q l r.
  Proof.
    intros E. assert (FA : forall l0, Forall (fun x => ~ p x) l0 -> Forall (fun x => ~ q x) l0).
    { intros l0 F. eapply Forall_impl; [|exact F]. intros x NP Q. apply NP. apply E. exact Q. }
    destruct r; cbn; [|apply FA]. intros (a & x & t & E1 & E2 & P & F). exists a, x, t. repeat split; auto. apply E. exact P.
  Qed.
  Lemma last_such_ext (p q : T -> Prop) l r : (forall x, p x <-> q x) -> last_such p l r -> last_such q l r.
  Proof.
    intros E. assert (FA : forall l0, Forall (fun x => ~ p x) l0 -> Forall (fun x => ~ q x) l0).
    { intros l0 F. eapply Forall_impl; [|exact F]. intros x NP Q. apply NP. apply E. exact Q. }
    destruct r; cbn; [|apply FA]. intros (a & x & t & E1 & E2 & P & F). exists a, x, t. repeat split; auto. apply E. exact P.
  Qed.

  Lemma find_ok a x : sound a -> easy a -> noPart a ->
    exists r, find icmp a x = Ok r /\ first_such (fun y => y = x) (items a) r.
  Proof.
    intros SO E NP. unfold find. destruct (findP_ok a (fun y => isEq icmp y x) SO E NP) as (r & F & S). exists r. split; [exact F|].
    eapply first_such_ext; [|exact S]. intros y. apply isEq_eq.
  Qed.
  Lemma findOneOf_ok a set : sound a -> easy a -> noPart a ->
    exists r, findOneOf icmp a set = Ok r /\ first_such (fun y => In y set) (items a) r.
  Proof.
    intros SO E NP. unfold findOneOf. destruct (findP_ok a (fun y => existsb (fun z => isEq icmp z y) set) SO E NP) as (r & F & S).
    exists r. split; [exact F|]. eapply first_such_ext; [|exact S]. intros y. cbn beta. rewrite existsb_exists. split.
    - intros (z & I & Z). apply isEq_eq in Z. subst. exact I.
    - intros I. exists y. split; [exact I|]. apply isEq_eq. reflexivity.
  Qed.

  Lemma first_such_rev (p : T -> Prop) l r : first_such p (rev l) r ->
    last_such p l (match r with Some i => Some (length l - i - 1) | None => None end).
  Proof.
    destruct r as [i|]; cbn.
    - intros (q & x & t & E & L & P & F). exists (rev t), x, (rev q).
      assert (E2 : l = rev t ++ x :: rev q).
      { rewrite <- (rev_involutive l), E, rev_app_distr. cbn. rewrite <- app_assoc. reflexivity. }
      split; [exact E2|]. split; [|split; [exact P|apply Forall_rev; exact F]].
      rewrite E2 at 1. rewrite app_length. cbn [length]. rewrite !rev_length. lia.
    - intros F. apply Forall_rev in F. rewrite rev_involutive in F. exact F.
  Qed.

  Lemma findLastP_ok a p : sound a -> noPart a ->
    exists r, findLastP a p = Ok r /\ last_such (fun x => p x = true) (items a) r.
  Proof.
    intros SO NP. pose proof (len_items a SO) as LI. unfold findLastP. rewrite noPart_empty by auto. destruct (Nat.eqb_spec (len a) 0).
    - exists None. split; [reflexivity|]. destruct (items a); [constructor|cbn in *; lia].
    - destruct (offset_ok a 0 SO) as (A & B & C). change (N.to_nat 0) with 0 in *. cbn [skipn] in B. rewrite Nat.sub_0_r in C.
      assert (SR : sound (Rev (offset a 0))) by exact A.
      pose proof (forEach_whole (finder p) (Rev (offset a 0)) SR I 0) as FW. cbn [len items] in FW. rewrite C, B in FW. rewrite FW. cbn [obind].
      destruct (finder_ok p (rev (items a)) 0) as (r & F & V). rewrite V. apply first_such_rev in F. rewrite LI in F.
      destruct r as [i|]; eexists; (split; [reflexivity|exact F]).
  Qed.

  (** ** Comparing *)
  Hypothesis icmp_opp : forall x y, icmp y x = CompOpp (icmp x y).

  Lemma lex_opp l : forall l2, lex icmp l2 l = CompOpp (lex icmp l l2).
  Proof. induction l as [|x l IH]; intros [|y l2]; cbn; auto. rewrite (icmp_opp x y). destruct (icmp x y); cbn; auto. Qed.

  Lemma lex_eq l : forall l2, lex icmp l l2 = Eq <-> l = l2.
  Proof.
    induction l as [|x l IH]; intros [|y l2]; cbn; try (split; congruence).
    destruct (icmp x y) eqn:E.
    - apply icmp_eq in E. subst. rewrite IH. split; [congruence|]. intros E. inversion E. reflexivity.
    - split; [discriminate|]. intros F. inversion F; subst. rewrite (proj2 (icmp_eq y y) eq_refl) in E. discriminate.
    - split; [discriminate|]. intros F. inversion F; subst. rewrite (proj2 (icmp_eq y y) eq_refl) in E. discriminate.
  Qed.

  Lemma cmpLoop_ok a b : sound a -> sound b -> len a <= len b -> forall n i, i + n = len a ->
    exists c, cmpLoop icmp a b n i = Ok c /\
      lex icmp (skipn i (items a)) (skipn i (items b)) = match c with Eq => if len a <? len b then Lt else Eq | c => c end.
  Proof.
    intros SA SB L. pose proof (len_items a SA) as LA. pose proof (len_items b SB) as LB.
    induction n as [|n IH]; intros i H; cbn [cmpLoop].
    - exists Eq. split; [reflexivity|]. rewrite (skipn_all2 (n := i) (items a)) by lia. destruct (Nat.ltb_spec (len a) (len b)).
      + destruct (skipn i (items b)) eqn:E; [|reflexivity]. apply (f_equal (@length T)) in E. rewrite skipn_length in E. cbn in E. lia.
      + rewrite skipn_all2 by lia. reflexivity.
    - assert (K : forall l i0, i0 < length l -> exists x, nth_error l i0 = Some x /\ skipn i0 l = x :: skipn (S i0) l).
      { clear. induction l as [|y l IH]; intros [|i0] H; cbn in H; try lia; [exists y; auto|]. apply IH. lia. }
      destruct (K (items a) i) as (x & NX & EX); [lia|]. destruct (K (items b) i) as (y & NY & EY); [lia|].
      rewrite (at_nth a i x SA NX), (at_nth b i y SB NY). cbn [obind]. rewrite EX, EY. cbn [lex].
      destruct (icmp x y); [apply IH; lia|eexists; split; reflexivity|eexists; split; reflexivity].
  Qed.

  Lemma compare_ok a b : sound a -> sound b -> compare icmp a b = Ok (lex icmp (items a) (items b)).
  Proof.
    assert (SH : forall a b, sound a -> sound b -> len a <= len b -> cmpShorter icmp a b = Ok (lex icmp (items a) (items b))).
    { clear a b. intros a b SA SB L. pose proof (len_items a SA) as LA. pose proof (len_items b SB) as LB. unfold cmpShorter.
      destruct (Nat.eqb_spec (len a) 0).
      - destruct (items a); [|cbn in *; lia]. destruct (Nat.eqb_spec (len b) 0); destruct (items b); cbn in *; try lia; reflexivity.
      - destruct (cmpLoop_ok a b SA SB L (len a) 0 eq_refl) as (c & E & X). rewrite E. cbn [obind skipn] in *. rewrite X.
        destruct c; auto. }
    intros SA SB. unfold compare. destruct (Nat.ltb_spec (len b) (len a)).
    - rewrite SH by (auto; lia). cbn [obind]. rewrite <- lex_opp. reflexivity.
    - apply SH; auto.
  Qed.

  (** ** Searching for an array *)
  Lemma findFrom_flat a x pos : sound a -> isFlat a ->
    exists r, findFrom icmp a x pos = Ok (match r with Some i => Some (i + N.to_nat pos) | None => None end) /\
      first_such (fun y => y = x) (skipn (N.to_nat pos) (items a)) r.
  Proof.
    intros SO FL. unfold findFrom. destruct (offset_ok a pos SO) as (A & B & _).
    assert (F2 : isFlat (offset a pos)) by (destruct a; [exact I|destruct FL..]).
    destruct (find_ok (offset a pos) x A) as (r & F & S); [destruct (offset a pos); [exact I|destruct F2..]|destruct (offset a pos); [exact I|destruct F2..]|].
    rewrite F. cbn [obind]. exists r. rewrite B in S. auto.
  Qed.

  Lemma stands_mid pat l i : stands pat l i <-> i + length pat <= length l /\ firstn (length pat) (skipn i l) = pat.
  Proof.
    split.
    - intros (q & t & -> & <-). rewrite !app_length. split; [lia|]. rewrite skipn_app, skipn_all, Nat.sub_diag. cbn [app skipn].
      rewrite firstn_app, Nat.sub_diag, firstn_all. cbn [firstn]. apply app_nil_r.
    - intros [L E]. exists (firstn i l), (skipn (length pat) (skipn i l)). split.
      + rewrite <- E at 1. rewrite firstn_skipn, firstn_skipn. reflexivity.
      + rewrite firstn_length. lia.
  Qed.

  Lemma stands_head x pat l i : stands (x :: pat) l i -> nth_error l i = Some x.
  Proof. intros (q & t & -> & <-). rewrite nth_error_app2, Nat.sub_diag by lia. reflexivity. Qed.

  Lemma findArrLoop_ok a b x rest : sound a -> isFlat a -> sound b -> (lenN a + lenN b < W)%N -> items b = x :: rest ->
    forall fuel r from, len a <= fuel + from ->
      first_such (fun y => y = x) (skipn from (items a)) r ->
      (forall j, j < from -> ~ stands (items b) (items a) j) ->
      exists r2, findArrLoop icmp fuel a b (match r with Some i => Some (i + from) | None => None end) = Ok r2 /\
        match r2 with
        | Some p => stands (items b) (items a) p /\ forall j, j < p -> ~ stands (items b) (items a) j
        | None => forall j, ~ stands (items b) (items a) j
        end.
  Proof.
    intros SA FL SB WW EB. pose proof (len_items a SA) as LA. pose proof (len_items b SB) as LB. unfold lenN in WW.
    assert (AT : at_ b 0 = Ok x) by (apply at_nth; [exact SB|rewrite EB; reflexivity]).
    assert (NXT : forall j y, stands (items b) (items a) j -> nth_error (items a) j = Some y -> y = x).
    { intros j y S N. rewrite EB in S. apply stands_head in S. congruence. }
    induction fuel as [|f IH]; intros [i|] from FU F NO.
    - exfalso. destruct F as (q & y & t & E & _). apply (f_equal (@length T)) in E. rewrite skipn_length, app_length in E. cbn in E. lia.
    - cbn [findArrLoop]. exists None. split; [reflexivity|]. intros j S. destruct (Nat.lt_ge_cases j from); [apply (NO j); auto|].
      pose proof S as S1. rewrite EB in S. apply stands_head in S.
      cbn in F. assert (In x (skipn from (items a))). { apply (nth_error_In _ (j - from)). rewrite nth_skipn. rewrite <- S. f_equal. lia. }
      rewrite Forall_forall in F. apply (F x); auto.
    - cbn [findArrLoop]. destruct F as (q & y & t & E & LQ & -> & FQ).
      assert (LI : i + from < len a). { pose proof (f_equal (@length T) E) as E1. rewrite skipn_length, app_length in E1. cbn in E1. lia. }
      assert (NO2 : forall j, j < i + from -> ~ stands (items b) (items a) j).
      { intros j J S. destruct (Nat.lt_ge_cases j from); [apply (NO j); auto|]. rewrite EB in S. apply stands_head in S.
        assert (In x q). { apply (nth_error_In _ (j - from)). rewrite <- (nth_error_app1 q (x :: t)) by lia. rewrite <- E, nth_skipn, <- S. f_equal. lia. }
        rewrite Forall_forall in FQ. apply (FQ x); auto. }
      destruct (mid_ok a (N.of_nat (i + from)) (lenN b) SA) as (SM & IM); [unfold lenN; lia|unfold lenN; lia|].
      set (M := mid a (N.of_nat (i + from)) (lenN b)) in *. unfold lenN in IM. rewrite !Nat2N.id, <- LB in IM.
      rewrite compare_ok by auto. cbn [obind].
      destruct (lex icmp (items M) (items b)) eqn:C.
      + apply lex_eq in C. eexists. split; [reflexivity|]. split; [|exact NO2]. apply stands_mid. rewrite <- IM. split; [|exact C].
        apply (f_equal (@length T)) in C. rewrite IM, firstn_length, skipn_length in C. lia.
      + assert (ND : ~ stands (items b) (items a) (i + from)).
        { intros S. apply stands_mid in S as [S1 S2]. rewrite IM, S2 in C. rewrite (proj2 (lex_eq _ _) eq_refl) in C. discriminate. }
        rewrite AT. cbn [obind]. destruct (findFrom_flat a x (N.of_nat (S (i + from))) SA FL) as (r & F & FS). rewrite F. cbn [obind].
        rewrite Nat2N.id in *. apply IH; [lia|exact FS|]. intros j J. destruct (Nat.eq_dec j (i + from)) as [->|]; [exact ND|]. apply NO2. lia.
      + assert (ND : ~ stands (items b) (items a) (i + from)).
        { intros S. apply stands_mid in S as [S1 S2]. rewrite IM, S2 in C. rewrite (proj2 (lex_eq _ _) eq_refl) in C. discriminate. }
        rewrite AT. cbn [obind]. destruct (findFrom_flat a x (N.of_nat (S (i + from))) SA FL) as (r & F & FS). rewrite F. cbn [obind].
        rewrite Nat2N.id in *. apply IH; [lia|exact FS|]. intros j J. destruct (Nat.eq_dec j (i + from)) as [->|]; [exact ND|]. apply NO2. lia.
    - cbn [findArrLoop]. exists None. split; [reflexivity|]. intros j S. destruct (Nat.lt_ge_cases j from); [apply (NO j); auto|].
      rewrite EB in S. apply stands_head in S.
      cbn in F. assert (In x (skipn from (items a))). { apply (nth_error_In _ (j - from)). rewrite nth_skipn. rewrite <- S. f_equal. lia. }
      rewrite Forall_forall in F. apply (F x); auto.
  Qed.

  Lemma findArr_ok a b : sound a -> isFlat a -> sound b -> items b <> [] -> (lenN a + lenN b < W)%N ->
    exists r, findArr icmp a b = Ok r /\
      match r with
      | Some p => stands (items b) (items a) p /\ forall j, j < p -> ~ stands (items b) (items a) j
      | None => forall j, ~ stands (items b) (items a) j
      end.
  Proof.
    intros SA FL SB NE WW. pose proof (len_items a SA) as LA. pose proof (len_items b SB) as LB. unfold findArr.
    destruct (items b) as [|x rest] eqn:EB; [contradiction|]. destruct (Nat.eqb_spec (len b) 0); [cbn in LB; lia|]. cbn [orb].
    destruct (Nat.ltb_spec (len a) (len b)).
    - exists None. split; [reflexivity|]. intros j S. apply stands_mid in S as [S _]. lia.
    - rewrite (at_nth b 0 x SB) by (rewrite EB; reflexivity). cbn [obind].
      assert (EA : easy a /\ noPart a) by (destruct a; [split; exact I|destruct FL..]). destruct EA as [EA NA].
      destruct (find_ok a x SA EA NA) as (r & F & FS). rewrite F. cbn [obind].
      destruct (findArrLoop_ok a b x rest SA FL SB WW EB (len a) r 0) as (r2 & E2 & H2); [lia|exact FS|lia|].
      exists r2. rewrite <- EB. split; [|exact H2]. rewrite <- E2. destruct r; [rewrite Nat.add_0_r|]; reflexivity.
  Qed.

  (** ** Splitting *)
  Lemma split_ok a sep : sound a -> isFlat a -> forall fuel pos, pos <= len a -> len a < fuel + pos ->
    exists parts, splitLoop icmp fuel a sep pos = Ok parts /\ parts <> [] /\
      join sep (map items parts) = skipn pos (items a) /\ Forall (fun q => ~ In sep (items q)) parts.
  Proof.
    intros SA FL. pose proof (len_items a SA) as LA. induction fuel as [|f IH]; intros pos H1 H2; [lia|]. cbn [splitLoop].
    destruct (Nat.leb_spec pos (len a)); [|lia].
    destruct (offset_ok a (N.of_nat pos) SA) as (SO & IO & _). rewrite Nat2N.id in IO.
    assert (FO : easy (offset a (N.of_nat pos)) /\ noPart (offset a (N.of_nat pos))) by (destruct a; [split; exact I|destruct FL..]).
    destruct (find_ok (offset a (N.of_nat pos)) sep SO (proj1 FO) (proj2 FO)) as (r & F & FS). rewrite F, IO in *. cbn [obind].
    destruct r as [i|].
    - destruct FS as (q & y & t & E & LQ & -> & FQ).
      assert (LE : len a = pos + i + S (length t)).
      { apply (f_equal (@length T)) in E. rewrite skipn_length, app_length in E. cbn in E. lia. }
      destruct (mkMid_ok a pos i SA) as (SM & IM & LM); [lia|]. rewrite LM.
      destruct (IH (pos + i + 1)) as (parts & EP & NE & J & FP); [lia|lia|]. rewrite EP. cbn [obind].
      assert (IQ : items (mkMid a pos i) = q) by (rewrite IM, E, firstn_app, <- LQ, Nat.sub_diag, firstn_all; cbn [firstn]; apply app_nil_r).
      assert (IT : skipn (pos + i + 1) (items a) = t).
      { replace (pos + i + 1) with (pos + (i + 1)) by lia. rewrite <- skip_skip, E. replace (i + 1) with (length (q ++ [sep])) by (rewrite app_length; cbn; lia).
        change (sep :: t) with ([sep] ++ t). rewrite app_assoc, skipn_app, skipn_all, Nat.sub_diag. reflexivity. }
      eexists. split; [reflexivity|]. split; [discriminate|]. split.
      + cbn [map]. rewrite IQ. destruct parts as [|p0 ps]; [contradiction|]. cbn [map join] in *. rewrite J, IT, E. reflexivity.
      + constructor; [|exact FP]. rewrite IQ. intros I1. rewrite Forall_forall in FQ. apply (FQ sep I1). reflexivity.
    - destruct (mkMid_ok a pos (len a - pos) SA) as (SM & IM & LM); [lia|]. rewrite LM.
      destruct f as [|f0]; cbn [splitLoop]; (destruct (Nat.leb_spec (pos + (len a - pos) + 1) (len a)); [lia|]); cbn [obind];
        (eexists; split; [reflexivity|]; split; [discriminate|]; cbn [map join]; rewrite IM, firstn_all2 by (rewrite skipn_length; lia);
         split; [reflexivity|]; constructor; [|constructor]; rewrite IM, firstn_all2 by (rewrite skipn_length; lia); intros I1;
         cbn in FS; rewrite Forall_forall in FS; apply (FS sep I1); reflexivity).
  Qed.
End Proof.

Section Trim.
  Context {T : Type} (a : aexp T) (p : T -> bool).
  Hypothesis SA : sound a.

  Lemma skipn_step (l : list T) i : i < length l -> exists x, nth_error l i = Some x /\ skipn i l = x :: skipn (S i) l.
  Proof. revert i. induction l as [|y l IH]; intros [|i0] H; cbn in H; try lia; [exists y; auto|]. apply IH. lia. Qed.

  Lemma trimLeft_ok : forall n beg, beg + n = len a ->
    exists k, trimLeft a p n beg = Ok (beg + k) /\ k <= n /\ Forall (fun x => p x = true) (firstn k (skipn beg (items a))) /\
      (k < n -> exists x, nth_error (items a) (beg + k) = Some x /\ p x = false).
  Proof.
    pose proof (len_items a SA) as LA.
    induction n as [|n IH]; intros beg H; cbn [trimLeft].
    - exists 0. rewrite Nat.add_0_r. split; [reflexivity|]. split; [lia|]. split; [constructor|lia].
    - destruct (skipn_step (items a) beg) as (x & N & E); [lia|]. rewrite (at_nth a beg x SA N). cbn [obind]. destruct (p x) eqn:P.
      + destruct (IH (S beg)) as (k & E1 & L & F & X); [lia|]. exists (S k). rewrite E1. split; [f_equal; lia|]. split; [lia|]. split.
        * rewrite E. cbn [firstn]. constructor; auto.
        * intros K. rewrite Nat.add_succ_r. apply X. lia.
      + exists 0. rewrite Nat.add_0_r. split; [reflexivity|]. split; [lia|]. split; [constructor|]. intros _. eauto.
  Qed.

  Lemma trimRight_ok : forall n e, n <= e -> e <= len a ->
    exists k, trimRight a p n e = Ok (e - k) /\ k <= n /\ Forall (fun x => p x = true) (firstn k (skipn (e - k) (items a))) /\
      (k < n -> exists x, nth_error (items a) (e - k - 1) = Some x /\ p x = false).
  Proof.
    pose proof (len_items a SA) as LA.
    induction n as [|n IH]; intros e H He; cbn [trimRight].
    - exists 0. rewrite Nat.sub_0_r. split; [reflexivity|]. split; [lia|]. split; [constructor|lia].
    - destruct (skipn_step (items a) (e - 1)) as (x & N & E); [lia|]. rewrite (at_nth a (e - 1) x SA N). cbn [obind]. destruct (p x) eqn:P.
      + destruct (IH (e - 1)) as (k & E1 & L & F & X); [lia|lia|]. exists (S k). rewrite E1. split; [f_equal; lia|]. split; [lia|]. split.
        * replace (e - S k) with (e - 1 - k) by lia. replace (S k) with (k + 1) by lia.
          rewrite (firstn_more (skipn (e - 1 - k) (items a)) k 1) by (rewrite skipn_length; lia). apply Forall_app. split; [exact F|].
          rewrite skip_skip. replace (e - 1 - k + k) with (e - 1) by lia. rewrite E. cbn [firstn]. constructor; auto.
        * intros K. replace (e - S k - 1) with (e - 1 - k - 1) by lia. apply X. lia.
      + exists 0. rewrite Nat.sub_0_r. split; [reflexivity|]. split; [lia|]. split; [constructor|]. intros _. eauto.
  Qed.

  Lemma drain_fwd : (lenN a < W)%N -> forall fuel i, i <= len a -> len a <= fuel + i ->
    drain fuel a (mkIter (N.of_nat i) true) = Ok (skipn i (items a)).
  Proof.
    pose proof (len_items a SA) as LA. intros WW. unfold lenN in WW. induction fuel as [|f IH]; intros i H1 H2; cbn [drain]; unfold hasItems, lenN; cbn [ipos].
    - destruct (N.ltb_spec (N.of_nat i) (N.of_nat (len a))); [lia|]. rewrite skipn_all2 by lia. reflexivity.
    - destruct (N.ltb_spec (N.of_nat i) (N.of_nat (len a))) as [H|H].
      + unfold getNext, hasItems, lenN. cbn [ipos ifwd]. destruct (N.ltb_spec (N.of_nat i) (N.of_nat (len a))); [|lia].
        destruct (skipn_step (items a) i) as (x & N & E); [lia|]. rewrite Nat2N.id, (at_nth a i x SA N). cbn [obind].
        rewrite N.mod_small by (unfold W in *; lia). replace (N.of_nat i + 1)%N with (N.of_nat (S i)) by lia. rewrite IH by lia. cbn [obind]. rewrite E. reflexivity.
      + rewrite skipn_all2 by lia. reflexivity.
  Qed.

  Lemma drain_end f : (lenN a < W)%N -> drain f a (mkIter (W - 1) false) = Ok [].
  Proof.
    intros WW. unfold lenN in WW. destruct f; cbn [drain]; unfold hasItems, lenN; cbn [ipos];
      (destruct (N.ltb_spec (W - 1) (N.of_nat (len a))); [unfold W in *; lia|reflexivity]).
  Qed.

  Lemma drain_bk : (lenN a < W)%N -> forall i fuel, i < len a -> i < fuel ->
    drain fuel a (mkIter (N.of_nat i) false) = Ok (rev (firstn (S i) (items a))).
  Proof.
    pose proof (len_items a SA) as LA. intros WW. unfold lenN in WW. induction i as [|i IH]; intros [|f] H1 H2; try lia; cbn [drain]; unfold hasItems, lenN; cbn [ipos].
    - destruct (N.ltb_spec (N.of_nat 0) (N.of_nat (len a))); [|lia]. unfold getNext, hasItems, lenN. cbn [ipos ifwd].
      destruct (N.ltb_spec (N.of_nat 0) (N.of_nat (len a))); [|lia].
      destruct (skipn_step (items a) 0) as (x & N & E); [lia|]. rewrite Nat2N.id, (at_nth a 0 x SA N). cbn [obind].
      replace ((N.of_nat 0 + W - 1) mod W)%N with (W - 1)%N by reflexivity. rewrite drain_end by exact WW. cbn [obind].
      cbn [skipn] in E. rewrite E. reflexivity.
    - destruct (N.ltb_spec (N.of_nat (S i)) (N.of_nat (len a))); [|lia]. unfold getNext, hasItems, lenN. cbn [ipos ifwd].
      destruct (N.ltb_spec (N.of_nat (S i)) (N.of_nat (len a))); [|lia].
      destruct (skipn_step (items a) (S i)) as (x & N & E); [lia|]. rewrite Nat2N.id, (at_nth a (S i) x SA N). cbn [obind].
      replace (N.of_nat (S i) + W - 1)%N with (N.of_nat i + 1 * W)%N by (unfold W; lia).
      rewrite N.mod_add by (unfold W; discriminate). rewrite N.mod_small by lia. rewrite IH by lia. cbn [obind].
      replace (S (S i)) with (S i + 1) by lia. rewrite (firstn_more (items a) (S i) 1) by lia. rewrite E. cbn [firstn].
      change (match items a with | [] => [] | a0 :: l => a0 :: firstn i l end) with (firstn (S i) (items a)). rewrite rev_app_distr. reflexivity.
  Qed.
End Trim.
