(** Lemmas about the stream buffer. *)
From Verif Require Import Common Deque_Proof IOBuffer_Spec IOBuffer_Model.

Section P.
  Context {A : Type}.
  Variable B : nat.

  Definition seg (b : list A) (i j : nat) : list A := firstn (j - i) (skipn i b).
  Definition blit (b : list A) (p : nat) (d : list A) : list A :=
    firstn p b ++ d ++ skipn (p + length d) b.

  Lemma nth_error_firstn' (l : list A) n k :
    nth_error (firstn n l) k = if k <? n then nth_error l k else None.
  Proof.
    revert l k; induction n; intros l k; simpl.
    - destruct k; reflexivity.
    - destruct l; simpl.
      + destruct k; simpl; auto. destruct (S k <? S n); auto.
      + destruct k; simpl; auto. rewrite IHn. reflexivity.
  Qed.

  Lemma nth_error_skipn' (l : list A) n k : nth_error (skipn n l) k = nth_error l (n + k).
  Proof. revert l; induction n; intros [|x l]; simpl; auto. destruct k; auto. Qed.

  Lemma nth_error_app' (l m : list A) k :
    nth_error (l ++ m) k = if k <? length l then nth_error l k else nth_error m (k - length l).
  Proof.
    destruct (Nat.ltb_spec k (length l)).
    - apply nth_error_app1; auto.
    - apply nth_error_app2; auto.
  Qed.

  Lemma nth_seg b i j k :
    nth_error (seg b i j) k = if k <? j - i then nth_error b (i + k) else None.
  Proof. unfold seg. rewrite nth_error_firstn', nth_error_skipn'. auto. Qed.

  Lemma nth_blit b p d k :
    p + length d <= length b ->
    nth_error (blit b p d) k =
    if k <? p then nth_error b k
    else if k <? p + length d then nth_error d (k - p) else nth_error b k.
  Proof.
    intros H. unfold blit. rewrite !nth_error_app', firstn_length, nth_error_firstn', nth_error_skipn'.
    replace (Nat.min p (length b)) with p by lia.
    destruct (Nat.ltb_spec k p); auto.
    destruct (Nat.ltb_spec (k - p) (length d)), (Nat.ltb_spec k (p + length d)); try lia; auto.
    f_equal. lia.
  Qed.

  Lemma blit_length b p d : p + length d <= length b -> length (blit b p d) = length b.
  Proof.
    intros H. unfold blit. rewrite !app_length, firstn_length, skipn_length. lia.
  Qed.

  Lemma seg_length b i j : j <= length b -> length (seg b i j) = j - i.
  Proof. intros. unfold seg. rewrite firstn_length, skipn_length. lia. Qed.

  Lemma seg_blit_disj b p d i j :
    p + length d <= length b -> j <= p \/ p + length d <= i ->
    seg (blit b p d) i j = seg b i j.
  Proof.
    intros H Hd. apply nth_error_ext. intros k. rewrite !nth_seg, nth_blit by auto.
    destruct (Nat.ltb_spec k (j - i)); auto.
    destruct (Nat.ltb_spec (i + k) p); auto.
    destruct (Nat.ltb_spec (i + k) (p + length d)); auto. lia.
  Qed.

  Lemma nth_error_none (l : list A) k : length l <= k -> nth_error l k = None.
  Proof. apply nth_error_None. Qed.

  Lemma seg_blit_app b p d i :
    p + length d <= length b -> i <= p ->
    seg (blit b p d) i (p + length d) = seg b i p ++ d.
  Proof.
    intros H Hi. apply nth_error_ext. intros k.
    rewrite nth_error_app', seg_length by lia. rewrite !nth_seg, nth_blit by auto.
    destruct (Nat.ltb_spec k (p + length d - i)), (Nat.ltb_spec (i + k) p),
      (Nat.ltb_spec k (p - i)), (Nat.ltb_spec (i + k) (p + length d)); try lia; auto.
    - f_equal. lia.
    - symmetry. apply nth_error_none. lia.
  Qed.

  Lemma seg_empty b i j : j <= i -> seg b i j = [].
  Proof. intros. unfold seg. replace (j - i) with 0 by lia. auto. Qed.

  Lemma seg_split b i k j :
    i <= k -> k <= j -> j <= length b -> seg b i j = seg b i k ++ seg b k j.
  Proof.
    intros. apply nth_error_ext. intros x. rewrite nth_error_app', seg_length, !nth_seg by lia.
    destruct (Nat.ltb_spec x (j - i)), (Nat.ltb_spec x (k - i)),
      (Nat.ltb_spec (x - (k - i)) (j - k)); try lia; auto.
    f_equal. lia.
  Qed.

  Lemma copyOut_ok b p n : p + n <= length b -> copyOut b p n = Ok (seg b p (p + n)).
  Proof.
    intros H. unfold copyOut, seg. destruct (Nat.leb_spec (p + n) (length b)); [|lia].
    do 3 f_equal. lia.
  Qed.

  Lemma copyIn_ok b p d : p + length d <= length b -> copyIn b p d = Ok (blit b p d).
  Proof.
    intros H. unfold copyIn. destruct (Nat.leb_spec (p + length d) (length b)); [|lia]. auto.
  Qed.

  (** source and sink *)
  Lemma limit_le sched n : limit sched n <= n.
  Proof. destruct sched; simpl; lia. Qed.

  Lemma limit_pos sched n : 0 < n -> 0 < limit sched n.
  Proof. destruct sched; simpl; lia. Qed.

  Lemma srcRead_ok (s : source A) n :
    0 < n ->
    exists d s', srcRead s n = (d, s') /\ rest s = d ++ rest s' /\ length d <= n /\
      (length d = 0 -> rest s = []).
  Proof.
    intros Hn. unfold srcRead. set (k := limit (chunks s) n).
    do 2 eexists. split; [reflexivity|]. cbn [rest].
    split; [symmetry; apply firstn_skipn|].
    pose proof (limit_le (chunks s) n). pose proof (limit_pos (chunks s) n Hn).
    fold k in H, H0. rewrite firstn_length. split; [lia|].
    intros Hz. destruct (rest s); auto. simpl in Hz. lia.
  Qed.

  Lemma writeAll_ok fuel (o : sink A) d done :
    length d <= fuel ->
    exists o', writeAll fuel o d done = Ok (done + length d, o') /\
      received o' = received o ++ d.
  Proof.
    revert o d done; induction fuel as [|fuel IH]; intros o d done H.
    - destruct d; [|simpl in H; lia]. exists o. simpl. rewrite app_nil_r, Nat.add_0_r. auto.
    - destruct d as [|x d].
      + exists o. simpl. rewrite app_nil_r, Nat.add_0_r. auto.
      + cbn [writeAll]. unfold snkWrite.
        set (k := limit (accepts o) (length (x :: d))).
        assert (Hk : 0 < k <= length (x :: d)).
        { split; [apply limit_pos; simpl; lia|apply limit_le]. }
        destruct (Nat.eqb_spec k 0); [lia|].
        destruct (IH (Snk (received o ++ firstn k (x :: d)) (tl (accepts o))) (skipn k (x :: d))
                     (done + k)) as (o' & E & R).
        { rewrite skipn_length. cbn [length] in *. lia. }
        exists o'. rewrite E. cbn [received] in R. split.
        * rewrite skipn_length. do 2 f_equal. clearbody k. lia.
        * rewrite R, <- app_assoc, firstn_skipn. auto.
  Qed.

  (** The invariant: [inp] is what the reader will still get, [out] what was accepted. *)
  Definition Inv (s : iobuf A) (inp out : list A) : Prop :=
    length (buff s) = B /\ 0 < B /\ rdpos s <= rdend s /\ rdend s <= B /\
    wrbeg s <= wrpos s /\ (wrpos s <= B /\ wrbeg s < B) /\ writeReserve s < B /\
    (rdpos s < rdend s -> wrpos s <= rdpos s \/ rdend s <= wrbeg s) /\
    (wrbeg s = 0 \/ wrbeg s = rdend s) /\
    (wrbeg s = 0 -> rdpos s = 0 -> 0 < rdend s -> rdend s = B) /\
    inp = seg (buff s) (rdpos s) (rdend s) ++ rest (targetIn s) /\
    out = received (targetOut s) ++ seg (buff s) (wrbeg s) (wrpos s) /\
    (eof s = true -> rest (targetIn s) = []).

  Lemma adjust_ok (s : iobuf A) inp out :
    length (buff s) = B -> 0 < B -> rdpos s <= rdend s -> rdend s <= B -> writeReserve s < B ->
    inp = seg (buff s) (rdpos s) (rdend s) ++ rest (targetIn s) ->
    out = received (targetOut s) -> (eof s = true -> rest (targetIn s) = []) ->
    Inv (adjustWritePos B s) inp out /\
    wrpos (adjustWritePos B s) = wrbeg (adjustWritePos B s).
  Proof.
    destruct s as [b rp wp re wb e c r i o]. unfold Inv, adjustWritePos.
    cbn [buff rdpos wrpos rdend wrbeg eof outputClosed writeReserve targetIn targetOut].
    intros H1 H2 H3 H4 H5 H6 H7 H8.
    assert (Hw : (if (rp <? re) && (rp <? B - re) then re else 0) = 0 /\ (rp < re -> B - re <= rp) \/
      (if (rp <? re) && (rp <? B - re) then re else 0) = re /\ rp < re /\ rp < B - re).
    { destruct (Nat.ltb_spec rp re), (Nat.ltb_spec rp (B - re)); simpl; lia. }
    set (w := if (rp <? re) && (rp <? B - re) then re else 0) in *. clearbody w.
    split; [|auto].
    repeat (split; [solve [auto | lia]|]).
    rewrite (seg_empty b w w) by lia. rewrite app_nil_r. auto.
  Qed.

  Lemma intFlush_ok (s : iobuf A) inp out :
    Inv s inp out ->
    exists s', intFlush B s = Ok s' /\ Inv s' inp out /\ wrpos s' = wrbeg s' /\
      received (targetOut s') = out /\ buff s' = buff s /\ rdpos s' = rdpos s /\
      rdend s' = rdend s /\ eof s' = eof s /\ writeReserve s' = writeReserve s /\
      targetIn s' = targetIn s.
  Proof.
    intros I. pose proof I as (H1 & H2 & H3 & H4 & H5 & H6 & H7 & H8 & H9 & H10 & H11 & H12 & H13).
    unfold intFlush. destruct (Nat.ltb_spec (wrbeg s) (wrpos s)).
    - rewrite copyOut_ok by lia. cbn [obind].
      destruct (writeAll_ok (wrpos s - wrbeg s) (targetOut s)
                 (seg (buff s) (wrbeg s) (wrbeg s + (wrpos s - wrbeg s))) 0) as (o' & E & R).
      { rewrite seg_length by lia. lia. }
      rewrite E. cbn [obind].
      replace (wrbeg s + (wrpos s - wrbeg s)) with (wrpos s) in * by lia.
      eexists. split; [reflexivity|].
      match goal with |- Inv (adjustWritePos B ?t) _ _ /\ _ =>
        destruct (adjust_ok t inp out) as [I' Hw] end;
        cbn [buff rdpos wrpos rdend wrbeg eof outputClosed writeReserve targetIn targetOut]; auto.
      { rewrite R. auto. }
      split; [exact I'|]. split; [exact Hw|].
      unfold adjustWritePos.
      cbn [buff rdpos wrpos rdend wrbeg eof outputClosed writeReserve targetIn targetOut].
      rewrite R. repeat split; auto.
    - exists s. split; [auto|]. split; [auto|]. split; [lia|].
      split; [|repeat split; auto].
      rewrite H12, (seg_empty (buff s)) by lia. rewrite app_nil_r. auto.
  Qed.

  Lemma intFetch_ok (s : iobuf A) inp out :
    Inv s inp out -> rdpos s = rdend s -> eof s = false ->
    exists s', intFetch B s = Ok s' /\ Inv s' inp out /\
      (rdpos s' < rdend s' \/ rdpos s' = rdend s' /\ eof s' = true) /\ (eof s' = true -> inp = []) /\
      rdend s' - rdpos s' <= B - writeReserve s' /\ writeReserve s' = writeReserve s /\
      (eof s' = false -> inp <> []).
  Proof.
    intros I He Ee. unfold intFetch. rewrite Ee.
    destruct (intFlush_ok _ _ _ I) as (s1 & -> & I1 & W1 & R1 & B1 & P1 & D1 & E1 & Q1 & T1).
    cbn [obind].
    pose proof I1 as (H1 & H2 & H3 & H4 & H5 & H6 & H7 & H8 & H9 & H10 & H11 & H12 & H13).
    destruct (srcRead_ok (targetIn s1) (B - writeReserve s1)) as (d & i & -> & Hd & Hl & Hz); [lia|].
    rewrite copyIn_ok by lia. cbn [obind].
    assert (Hin : inp = d ++ rest i).
    { rewrite H11, (seg_empty (buff s1)) by lia. simpl. auto. }
    eexists. split; [reflexivity|].
    match goal with |- Inv (adjustWritePos B ?t) _ _ /\ _ =>
      destruct (adjust_ok t inp out) as [I' Hw] end;
      cbn [buff rdpos wrpos rdend wrbeg eof outputClosed writeReserve targetIn targetOut];
      try solve [auto | lia].
    - rewrite blit_length by lia. auto.
    - rewrite seg_blit_app by lia. rewrite (seg_empty (buff s1)) by lia. simpl. auto.
    - intros Hz'. apply Nat.eqb_eq in Hz'. specialize (Hz Hz').
      rewrite Hd in Hz. apply app_eq_nil in Hz. tauto.
    - split; [exact I'|]. unfold adjustWritePos.
      cbn [buff rdpos wrpos rdend wrbeg eof outputClosed writeReserve targetIn targetOut].
      split; [|split; [|split; [lia|split; [auto|]]]].
      + destruct (Nat.eqb_spec (length d) 0); [right; split; [lia|auto]|left; lia].
      + intros Hz'. apply Nat.eqb_eq in Hz'. specialize (Hz Hz'). rewrite Hin, <- Hd. auto.
      + intros Hz'. apply Nat.eqb_neq in Hz'. rewrite Hin. destruct d; [simpl in Hz'; lia|discriminate].
  Qed.

  Lemma read_data (s : iobuf A) inp out n :
    Inv s inp out -> rdpos s < rdend s ->
    exists d s', read B 1 s n = Ok (d, s') /\ portion inp n d /\
      Inv s' (skipn (length d) inp) out /\ writeReserve s' = writeReserve s /\
      rdend s' - rdpos s' <= rdend s - rdpos s.
  Proof.
    intros I Hlt. pose proof I as (H1 & H2 & H3 & H4 & H5 & H6 & H7 & H8 & H9 & H10 & H11 & H12 & H13).
    cbn [read]. destruct (Nat.ltb_spec (rdpos s) (rdend s)); [|lia].
    set (k := if n <? rdend s - rdpos s then n else rdend s - rdpos s).
    assert (Hk : k <= n /\ k <= rdend s - rdpos s /\ (k = n \/ k = rdend s - rdpos s)).
    { unfold k. destruct (Nat.ltb_spec n (rdend s - rdpos s)); lia. }
    clearbody k. rewrite copyOut_ok by lia. cbn [obind].
    do 2 eexists. split; [reflexivity|].
    assert (Hs : inp = seg (buff s) (rdpos s) (rdpos s + k) ++
                   seg (buff s) (rdpos s + k) (rdend s) ++ rest (targetIn s)).
    { rewrite app_assoc, <- seg_split by lia. auto. }
    assert (Hlen : length (seg (buff s) (rdpos s) (rdpos s + k)) = k).
    { rewrite seg_length by lia. lia. }
    split; [|split].
    - split; [eauto|]. split; [lia|]. intros _ Hn Hb.
      rewrite Hb in Hlen. simpl in Hlen. lia.
    - rewrite Hs at 1. rewrite skipn_app, skipn_all2 by lia.
      replace (length _ - length _) with 0 by lia. cbn [skipn app].
      unfold Inv.
      cbn [buff rdpos wrpos rdend wrbeg eof outputClosed writeReserve targetIn targetOut].
      repeat (split; [solve [auto | lia]|]). auto.
    - cbn [buff rdpos wrpos rdend wrbeg eof outputClosed writeReserve targetIn targetOut].
      split; [auto|lia].
  Qed.

  Lemma read_fuel_mono (s : iobuf A) n d s' :
    rdpos s < rdend s -> read B 1 s n = Ok (d, s') -> read B 2 s n = Ok (d, s').
  Proof.
    intros H. cbn [read]. destruct (Nat.ltb_spec (rdpos s) (rdend s)); [auto|lia].
  Qed.

  Lemma read_ok (s : iobuf A) inp out n :
    Inv s inp out ->
    exists d s', read B 2 s n = Ok (d, s') /\ portion inp n d /\
      Inv s' (skipn (length d) inp) out /\ writeReserve s' = writeReserve s /\
      (rdend s' - rdpos s' <= B - writeReserve s \/ rdend s' - rdpos s' <= rdend s - rdpos s).
  Proof.
    intros I. pose proof I as (H1 & H2 & H3 & H4 & H5 & H6 & H7 & H8 & H9 & H10 & H11 & H12 & H13).
    destruct (Nat.lt_ge_cases (rdpos s) (rdend s)).
    - destruct (read_data _ _ _ n I) as (d & s' & E & P & I' & Wr & Hl); auto.
      exists d, s'. split; [apply read_fuel_mono; auto|]. repeat (split; [solve [auto]|]). auto.
    - cbn [read]. destruct (Nat.ltb_spec (rdpos s) (rdend s)); [lia|].
      destruct (eof s) eqn:Ee.
      + exists [], s. split; [auto|].
        assert (Hi : inp = []).
        { rewrite H11, (seg_empty (buff s)) by lia. simpl. auto. }
        split; [|split; [auto|split; [auto|right; lia]]].
        split; [exists inp; auto|]. split; [simpl; lia|]. intros Hc; congruence.
      + destruct (intFetch_ok _ _ _ I) as (s1 & -> & I1 & Hd & Hz & Hr & Wr & _); auto; [lia|].
        cbn [obind]. destruct Hd as [Hd|[Hd1 Hd2]].
        * destruct (read_data _ _ _ n I1) as (d & s' & E & P & I' & Wr' & Hl); auto.
          exists d, s'. split; [exact E|]. split; [auto|]. split; [auto|]. split; [congruence|].
          left. rewrite <- Wr. lia.
        * destruct (Nat.ltb_spec (rdpos s1) (rdend s1)); [lia|]. rewrite Hd2.
          exists [], s1. split; [auto|]. rewrite (Hz Hd2) in *.
          split; [|split; [auto|split; [auto|left; rewrite <- Wr; lia]]].
          split; [exists []; auto|]. split; [simpl; lia|]. intros Hc; congruence.
  Qed.

  Lemma canRead_ok (s : iobuf A) inp out :
    Inv s inp out ->
    exists c s', canRead B s = Ok (c, s') /\ (c = true <-> inp <> []) /\ Inv s' inp out /\
      writeReserve s' = writeReserve s /\ (c = true -> rdpos s' < rdend s') /\
      (rdend s' - rdpos s' <= B - writeReserve s \/ rdend s' - rdpos s' <= rdend s - rdpos s).
  Proof.
    intros I. pose proof I as (H1 & H2 & H3 & H4 & H5 & H6 & H7 & H8 & H9 & H10 & H11 & H12 & H13).
    unfold canRead. destruct (Nat.ltb_spec (rdpos s) (rdend s)).
    - exists true, s. split; [auto|]. split; [|repeat (split; [solve [auto]|]); auto].
      split; auto. intros _ Hi. apply (f_equal (@length A)) in Hi.
      rewrite H11, app_length, seg_length in Hi by lia. simpl in Hi. lia.
    - destruct (eof s) eqn:Ee.
      + exists false, s. split; [auto|].
        assert (Hi : inp = []).
        { rewrite H11, (seg_empty (buff s)) by lia. simpl. auto. }
        split; [|split; [auto|split; [auto|split; [discriminate|auto]]]].
        split; [discriminate|congruence].
      + destruct (intFetch_ok _ _ _ I) as (s1 & -> & I1 & Hd & Hz & Hr & Wr & Hn); auto; [lia|].
        cbn [obind]. exists (negb (eof s1)), s1. split; [auto|].
        split; [|split; [auto|split; [auto|split; [|left; rewrite <- Wr; lia]]]].
        * destruct (eof s1); simpl; split; intros Hc; auto; try discriminate.
        * destruct (eof s1); simpl; intros Hc; [discriminate|]. destruct Hd as [Hd|[_ Hd]]; auto. discriminate.
  Qed.

  Lemma fetch_ok (s : iobuf A) inp out :
    Inv s inp out ->
    exists k s', fetch B s = Ok (k, s') /\ Inv s' inp out /\
      rdend s' - rdpos s' = rdend s - rdpos s + k /\
      (k = 0 -> rest (targetIn s') = [] \/ rdend s' - rdpos s' = B).
  Proof.
    intros I. pose proof I as (H1 & H2 & H3 & H4 & H5 & H6 & H7 & H8 & H9 & H10 & H11 & H12 & H13).
    unfold fetch. destruct (eof s) eqn:Ee.
    - exists 0, s. split; [auto|]. split; [auto|]. split; [lia|]. auto.
    - destruct (intFlush_ok _ _ _ I) as (s1 & -> & I1 & W1 & R1 & B1 & P1 & D1 & E1 & Q1 & T1).
      cbn [obind]. rewrite <- P1, <- D1 in *.
      pose proof I1 as (J1 & _ & _ & _ & J5 & J6 & J7 & J8 & J9 & J10 & J11 & J12 & J13).
      destruct (Nat.eqb_spec (rdend s1) B) as [Eb|Nb].
      + destruct (Nat.eqb_spec (rdpos s1) 0) as [Ez|Nz]; simpl andb; cbv iota.
        * exists 0, s1. split; [auto|]. split; [auto|]. split; [lia|]. intros _. right. lia.
        * rewrite copyOut_ok by lia. cbn [obind].
          set (dat := seg (buff s1) (rdpos s1) _).
          assert (Hdl : length dat = rdend s1 - rdpos s1) by (unfold dat; rewrite seg_length; lia).
          rewrite copyIn_ok by lia. cbn [obind].
          cbn [buff rdpos wrpos rdend wrbeg eof outputClosed writeReserve targetIn targetOut].
          destruct (srcRead_ok (targetIn s1) (B - (rdend s1 - rdpos s1))) as (d & i & -> & Hd & Hl & Hz); [lia|].
          rewrite copyIn_ok by (rewrite blit_length by lia; lia). cbn [obind].
          match goal with |- context [adjustWritePos B ?t] =>
            destruct (adjust_ok t inp out) as [I' Hw] end;
            cbn [buff rdpos wrpos rdend wrbeg eof outputClosed writeReserve targetIn targetOut];
            try solve [auto | lia].
          -- rewrite !blit_length; rewrite ?blit_length; lia.
          -- rewrite seg_blit_app by (rewrite ?blit_length by lia; lia).
             rewrite <- Hdl. change (length dat) with (0 + length dat) at 1.
             rewrite seg_blit_app by lia. rewrite (seg_empty _ 0 0) by lia. simpl app.
             rewrite <- app_assoc, <- Hd. rewrite J11. f_equal. unfold dat. f_equal. lia.
          -- do 2 eexists. split; [reflexivity|].
             split; [|split].
             ++ unfold adjustWritePos in I'.
                unfold Inv in *.
                cbn [buff rdpos wrpos rdend wrbeg eof outputClosed writeReserve targetIn targetOut adjustWritePos] in *.
                destruct I' as (G1 & G2 & G3 & G4 & G5 & G6 & G7 & G8 & G9 & G10 & G11 & G12 & G13).
                repeat (split; [solve [auto]|]).
                intros Hc. destruct (Nat.eqb_spec (length d) 0) as [Hz0|]; auto.
                specialize (Hz Hz0). rewrite Hd in Hz. apply app_eq_nil in Hz. tauto.
             ++ cbn. lia.
             ++ cbn. intros Hz0. left. specialize (Hz Hz0). rewrite Hd in Hz.
                apply app_eq_nil in Hz. tauto.
      + simpl andb. cbv iota. cbn [obind].
        destruct (srcRead_ok (targetIn s1) (B - rdend s1)) as (d & i & -> & Hd & Hl & Hz); [lia|].
        rewrite copyIn_ok by lia. cbn [obind].
        match goal with |- context [adjustWritePos B ?t] =>
          destruct (adjust_ok t inp out) as [I' Hw] end;
          cbn [buff rdpos wrpos rdend wrbeg eof outputClosed writeReserve targetIn targetOut];
          try solve [auto | lia].
        * rewrite blit_length; lia.
        * rewrite seg_blit_app by lia. rewrite <- app_assoc, <- Hd. auto.
        * do 2 eexists. split; [reflexivity|].
          split; [|split].
          -- unfold Inv in *.
             cbn [buff rdpos wrpos rdend wrbeg eof outputClosed writeReserve targetIn targetOut adjustWritePos] in *.
             destruct I' as (G1 & G2 & G3 & G4 & G5 & G6 & G7 & G8 & G9 & G10 & G11 & G12 & G13).
             repeat (split; [solve [auto]|]).
             intros Hc. destruct (Nat.eqb_spec (length d) 0) as [Hz0|]; auto.
             specialize (Hz Hz0). rewrite Hd in Hz. apply app_eq_nil in Hz. tauto.
          -- cbn. lia.
          -- cbn. intros Hz0. left. specialize (Hz Hz0). rewrite Hd in Hz.
             apply app_eq_nil in Hz. tauto.
  Qed.

  Lemma with_ready_inv (s : iobuf A) inp out i :
    Inv s inp out -> rest i = rest (targetIn s) ->
    Inv (IO (buff s) (rdpos s) (wrpos s) (rdend s) (wrbeg s) (eof s) (outputClosed s)
            (writeReserve s) i (targetOut s)) inp out.
  Proof.
    intros I E. unfold Inv in *.
    cbn [buff rdpos wrpos rdend wrbeg eof outputClosed writeReserve targetIn targetOut] in *.
    rewrite E. exact I.
  Qed.

  Lemma peek_loop_ok fuel (s : iobuf A) inp out n size :
    Inv s inp out -> n = rdend s - rdpos s -> B < n + fuel ->
    exists n' s', peek_loop B fuel s n size = Ok (n', s') /\ Inv s' inp out /\
      n' = rdend s' - rdpos s' /\ (n' = 0 -> 0 < size -> inp = []).
  Proof.
    revert s n; induction fuel as [|fuel IH]; intros s n I Hn Hf.
    - destruct I as (_ & _ & _ & H & _). lia.
    - cbn [peek_loop]. destruct (Nat.ltb_spec n size).
      + assert (Hi : exists r i, (if n =? 0 then (true, targetIn s) else srcReady (targetIn s)) = (r, i) /\
          rest i = rest (targetIn s) /\ (n = 0 -> r = true)).
        { destruct (Nat.eqb_spec n 0).
          - do 2 eexists. split; [reflexivity|]. auto.
          - unfold srcReady. do 2 eexists. split; [reflexivity|]. split; [auto|lia]. }
        destruct Hi as (r & i & -> & Hr & Hr0).
        pose proof (with_ready_inv _ _ _ _ I Hr) as I0.
        set (s0 := IO (buff s) _ _ _ _ _ _ _ i _) in *.
        destruct r.
        * destruct (fetch_ok _ _ _ I0) as (k & s1 & -> & I1 & Hk & Hz). cbn [obind].
          assert (Hd0 : rdend s0 - rdpos s0 = n) by (unfold s0; cbn; lia).
          destruct (Nat.eqb_spec k 0) as [->|Nk].
          -- exists n, s1. split; [auto|]. split; [auto|]. split; [lia|].
             intros -> _. destruct (Hz eq_refl) as [Hz'|Hz'].
             ++ destruct I1 as (_ & _ & _ & _ & _ & _ & _ & _ & _ & _ & -> & _).
                rewrite Hz', seg_empty by lia. auto.
             ++ destruct I as (_ & H2 & _). lia.
          -- destruct (IH s1 (n + k) I1) as (n' & s' & E & I' & Hn' & Hz'); [lia|lia|].
             exists n', s'. auto.
        * exists n, s0. split; [auto|]. split; [auto|]. split; [unfold s0; cbn; lia|].
          intros Hz0 _. specialize (Hr0 Hz0). discriminate.
      + exists n, s. split; [auto|]. split; [auto|]. split; [auto|]. lia.
  Qed.

  Lemma peek_ok (s : iobuf A) inp out size :
    Inv s inp out ->
    exists d s', peek B s size = Ok (d, s') /\ portion inp size d /\ Inv s' inp out.
  Proof.
    intros I. unfold peek.
    destruct (peek_loop_ok (S (S B)) s inp out (rdend s - rdpos s) size I eq_refl)
      as (n & s' & -> & I' & Hn & Hz); [lia|].
    cbn [obind].
    pose proof I' as (H1 & H2 & H3 & H4 & H5 & H6 & H7 & H8 & H9 & H10 & H11 & H12 & H13).
    set (k := if size <? n then size else n).
    assert (Hk : k <= size /\ k <= n /\ (k = size \/ k = n)).
    { unfold k. destruct (Nat.ltb_spec size n); lia. }
    clearbody k. rewrite copyOut_ok by lia. cbn [obind].
    do 2 eexists. split; [reflexivity|]. split; [|exact I'].
    split; [|split].
    - exists (seg (buff s') (rdpos s' + k) (rdend s') ++ rest (targetIn s')).
      rewrite app_assoc, <- seg_split by lia. auto.
    - rewrite seg_length by lia. lia.
    - intros Hi Hs Hc. apply (f_equal (@length A)) in Hc. rewrite seg_length in Hc by lia.
      simpl in Hc. apply Hi. apply Hz; lia.
  Qed.

  Lemma snk_out (o : sink A) d :
    exists k o', snkWrite o d = (k, o') /\ received o' = received o ++ firstn k d /\
      k <= length d /\ (d <> [] -> k <> 0).
  Proof.
    unfold snkWrite. do 2 eexists. split; [reflexivity|]. cbn [received].
    split; [auto|]. split; [apply limit_le|]. intros Hd Hz.
    destruct d; [congruence|].
    pose proof (limit_pos (accepts o) (length (a :: d))) as Hp. simpl length in Hp, Hz. lia.
  Qed.

  (** one round of write that does not flush *)
  Lemma write_round fuel (s : iobuf A) inp out d :
    Inv s inp out -> rdend s - rdpos s < B ->
    (exists sp, getWriteSpace B s = Ok sp /\ (sp = 0 -> wrbeg s = wrpos s)) ->
    exists k s', write B (S fuel) s d = Ok (k, s') /\ k <= length d /\ (d <> [] -> k <> 0) /\
      Inv s' inp (out ++ firstn k d) /\ writeReserve s' = writeReserve s /\
      rdend s' = rdend s /\ rdpos s' = rdpos s.
  Proof.
    intros I Hfull (sp & Esp & Hsp).
    pose proof I as (H1 & H2 & H3 & H4 & H5 & H6 & H7 & H8 & H9 & H10 & H11 & H12 & H13).
    cbn [write]. rewrite Esp. cbn [obind].
    assert (Direct : wrbeg s = wrpos s -> exists k s',
      (let (x, o) := snkWrite (targetOut s) d in Ok (x, setOut s o)) = Ok (k, s') /\
      k <= length d /\ (d <> [] -> k <> 0) /\ Inv s' inp (out ++ firstn k d) /\
      writeReserve s' = writeReserve s /\ rdend s' = rdend s /\ rdpos s' = rdpos s).
    { intros Ew. destruct (snk_out (targetOut s) d) as (k & o' & -> & Ho & Hk1 & Hk2).
      exists k, (setOut s o'). split; [auto|]. split; [auto|]. split; [auto|].
      split; [|auto]. unfold Inv, setOut.
      cbn [buff rdpos wrpos rdend wrbeg eof outputClosed writeReserve targetIn targetOut].
      repeat (split; [solve [auto]|]). split; [|auto].
      rewrite Ho, H12. rewrite (seg_empty (buff s)) by lia. rewrite !app_nil_r. auto. }
    destruct (Nat.eqb_spec sp 0) as [Ez|Nz].
    - specialize (Hsp Ez). destruct (Nat.ltb_spec (wrbeg s) (wrpos s)); [lia|]. apply Direct; auto.
    - destruct ((wrpos s =? wrbeg s) && (sp <=? length d)) eqn:Ed.
      + apply andb_true_iff in Ed. destruct Ed as [Ed _]. apply Nat.eqb_eq in Ed. apply Direct; auto.
      + set (n := if length d <? sp then length d else sp).
        assert (Hn : n <= length d /\ n <= sp /\ (n = length d \/ n = sp)).
        { unfold n. destruct (Nat.ltb_spec (length d) sp); lia. }
        clearbody n.
        assert (Hfl : length (firstn n d) = n) by (rewrite firstn_length; lia).
        unfold getWriteSpace in Esp.
        set (l := if (wrbeg s <? rdpos s) && (rdpos s <? rdend s) then rdpos s else B) in *.
        destruct (Nat.ltb_spec l (wrpos s)) as [|Hle]; [discriminate|]. injection Esp as <-.
        assert (Hl : l <= B /\ (rdpos s < rdend s -> l <= rdpos s \/ rdend s <= wrbeg s)).
        { unfold l. destruct (Nat.ltb_spec (wrbeg s) (rdpos s)), (Nat.ltb_spec (rdpos s) (rdend s));
            simpl; split; try lia; intros Hr; try lia. }
        clearbody l.
        rewrite copyIn_ok by lia. cbn [obind].
        do 2 eexists. split; [reflexivity|]. split; [lia|].
        split; [intros Hd; destruct d; [congruence|simpl in *; lia]|].
        split; [|auto]. unfold Inv.
        cbn [buff rdpos wrpos rdend wrbeg eof outputClosed writeReserve targetIn targetOut].
        rewrite blit_length by lia.
        repeat (split; [solve [auto | lia]|]).
        split; [|split; [|auto]].
        * destruct (Nat.lt_ge_cases (rdpos s) (rdend s)) as [Hr|Hr].
          -- rewrite seg_blit_disj; auto; [lia|]. rewrite Hfl. destruct Hl as [_ Hl].
             destruct (Hl Hr) as [|]; [|left; lia]. right. lia.
          -- rewrite seg_empty by lia. rewrite H11, seg_empty by lia. auto.
        * replace (wrpos s + n) with (wrpos s + length (firstn n d)) by lia.
          rewrite seg_blit_app by lia. rewrite H12, <- app_assoc. auto.
  Qed.

  Lemma space_ok (s : iobuf A) inp out :
    Inv s inp out -> exists sp, getWriteSpace B s = Ok sp /\ (wrbeg s = wrpos s -> rdend s - rdpos s < B -> sp <> 0).
  Proof.
    intros (H1 & H2 & H3 & H4 & H5 & H6 & H7 & H8 & H9 & H10 & H11 & H12 & H13).
    unfold getWriteSpace.
    destruct (Nat.ltb_spec (wrbeg s) (rdpos s)), (Nat.ltb_spec (rdpos s) (rdend s)); cbn [andb];
    match goal with |- context [if ?a <? ?b then _ else _] => destruct (Nat.ltb_spec a b) end;
    try lia; eexists; (split; [reflexivity|]); lia.
  Qed.

  Lemma write_ok (s : iobuf A) inp out d :
    Inv s inp out -> rdend s - rdpos s < B ->
    exists k s', write B 2 s d = Ok (k, s') /\ k <= length d /\ (d <> [] -> k <> 0) /\
      Inv s' inp (out ++ firstn k d) /\ writeReserve s' = writeReserve s /\
      rdend s' = rdend s /\ rdpos s' = rdpos s.
  Proof.
    intros I Hfull. destruct (space_ok _ _ _ I) as (sp & Esp & Hsp).
    destruct (Nat.eq_dec sp 0) as [Ez|Nz].
    - destruct (Nat.lt_ge_cases (wrbeg s) (wrpos s)) as [Hw|Hw].
      + remember 1 as one eqn:E1. cbn [write]. rewrite Esp. cbn [obind].
        destruct (Nat.eqb_spec sp 0); [|lia]. destruct (Nat.ltb_spec (wrbeg s) (wrpos s)); [|lia].
        destruct (intFlush_ok _ _ _ I) as (s1 & -> & I1 & W1 & R1 & B1 & P1 & D1 & E1' & Q1 & T1).
        cbn [obind]. subst one.
        destruct (write_round 0 s1 inp out d I1) as (k & s' & E & Hk & Hd & I' & Wr & D' & P').
        * lia.
        * destruct (space_ok _ _ _ I1) as (sp1 & Esp1 & Hsp1). exists sp1. split; [auto|].
          intros Hz. exfalso. apply Hsp1; auto. lia.
        * exists k, s'. split; [exact E|]. repeat (split; [solve [auto | congruence]|]). congruence.
      + apply write_round; auto. exists sp. split; [auto|]. intros _.
        destruct I as (_ & _ & _ & _ & H & _). lia.
    - apply write_round; auto. exists sp. split; [auto|]. intros; lia.
  Qed.

  Lemma discard_ok (s : iobuf A) inp out n :
    Inv s inp out ->
    exists k, k <= n /\ Inv (discardInput s n) (skipn k inp) out /\
      writeReserve (discardInput s n) = writeReserve s /\
      rdend (discardInput s n) - rdpos (discardInput s n) <= rdend s - rdpos s.
  Proof.
    intros I. pose proof I as (H1 & H2 & H3 & H4 & H5 & H6 & H7 & H8 & H9 & H10 & H11 & H12 & H13).
    unfold discardInput.
    set (k := if rdend s - rdpos s <? n then rdend s - rdpos s else n).
    assert (Hk : k <= n /\ k <= rdend s - rdpos s).
    { unfold k. destruct (Nat.ltb_spec (rdend s - rdpos s) n); lia. }
    clearbody k. exists k. split; [lia|].
    unfold Inv.
    cbn [buff rdpos wrpos rdend wrbeg eof outputClosed writeReserve targetIn targetOut].
    split; [|lia].
    repeat (split; [solve [auto | lia]|]). split; [|auto].
    rewrite H11, (seg_split (buff s) (rdpos s) (rdpos s + k)) by lia.
    rewrite <- app_assoc. rewrite skipn_app, skipn_all2 by (rewrite seg_length; lia).
    rewrite seg_length by lia. replace (k - _) with 0 by lia. auto.
  Qed.

  Lemma step_ok (s : iobuf A) inp out o :
    Inv s inp out -> leaves_room_step B s o ->
    exists a s' inp' out', step B s o = Ok (a, s') /\
      io_step (inp, out) o a (inp', out') /\ Inv s' inp' out'.
  Proof.
    intros I L. destruct o; cbn [step io_step].
    - destruct (read_ok _ _ _ n I) as (d & s' & -> & P & I' & _). cbn [obind].
      do 4 eexists. split; [reflexivity|]. split; [split; [exact P|reflexivity]|exact I'].
    - destruct (peek_ok _ _ _ n I) as (d & s' & -> & P & I'). cbn [obind].
      do 4 eexists. split; [reflexivity|]. split; [split; [exact P|reflexivity]|exact I'].
    - destruct (canRead_ok _ _ _ I) as (c & s' & -> & P & I' & _). cbn [obind].
      do 4 eexists. split; [reflexivity|]. split; [split; [exact P|reflexivity]|exact I'].
    - destruct (fetch_ok _ _ _ I) as (k & s' & -> & I' & _). cbn [obind].
      do 4 eexists. split; [reflexivity|]. split; [reflexivity|exact I'].
    - destruct (discard_ok _ _ _ n I) as (k & Hk & I' & _).
      do 4 eexists. split; [reflexivity|]. split; [|exact I']. exists k. auto.
    - destruct (write_ok _ _ _ d I L) as (k & s' & -> & Hk & Hd & I' & _). cbn [obind].
      do 4 eexists. split; [reflexivity|]. split; [split; [exact Hk|split; [exact Hd|reflexivity]]|exact I'].
    - unfold flush. destruct (intFlush_ok _ _ _ I) as (s' & -> & I' & _). cbn [obind].
      do 4 eexists. split; [reflexivity|]. split; [reflexivity|exact I'].
  Qed.

  Lemma run_ok os (s : iobuf A) inp out :
    Inv s inp out -> leaves_room B s os ->
    exists r s' inp' out', run B s os = Ok (r, s') /\
      io_run (inp, out) os r (inp', out') /\ Inv s' inp' out'.
  Proof.
    revert s inp out; induction os as [|o os IH]; intros s inp out I L.
    - do 4 eexists. split; [reflexivity|]. split; [reflexivity|exact I].
    - cbn [leaves_room] in L. destruct L as [L1 L2].
      destruct (step_ok _ _ _ _ I L1) as (a & s1 & inp1 & out1 & E & S1 & I1).
      rewrite E in L2. destruct (IH _ _ _ I1 L2) as (r & s' & inp' & out' & E' & S' & I').
      cbn [run]. rewrite E. cbn [obind]. rewrite E'. cbn [obind].
      do 4 eexists. split; [reflexivity|]. split; [|exact I'].
      cbn [io_run]. exists (inp1, out1). auto.
  Qed.

  Lemma new_inv content (i : source A) (o : sink A) :
    length content = B -> 0 < B -> Inv (newBuf B content i o) (rest i) (received o).
  Proof.
    intros H1 H2. unfold Inv, newBuf.
    cbn [buff rdpos wrpos rdend wrbeg eof outputClosed writeReserve targetIn targetOut].
    repeat (split; [solve [auto | lia]|]).
    rewrite !seg_empty by lia. rewrite app_nil_r. repeat split; auto. discriminate.
  Qed.

  Lemma reserve_inv (s : iobuf A) inp out n :
    Inv s inp out -> Inv (reserveWrite B s n) inp out.
  Proof.
    unfold Inv, reserveWrite.
    cbn [buff rdpos wrpos rdend wrbeg eof outputClosed writeReserve targetIn targetOut].
    intros (H1 & H2 & H3 & H4 & H5 & H6 & H7 & H8 & H9 & H10 & H11 & H12 & H13).
    repeat (split; [solve [auto | lia]|]).
    split; [|repeat (split; [solve [auto | lia]|]); auto].
    pose proof (Nat.div_lt B 2). destruct (Nat.ltb_spec (B / 2) n); lia.
  Qed.

  (** without fetch and peek, a reserve keeps the buffer from filling up *)
  Lemma room_kept os (s : iobuf A) inp out :
    Inv s inp out -> 1 <= writeReserve s -> rdend s - rdpos s <= B - writeReserve s ->
    Forall (fun o => match o with IFetch | IPeek _ => False | _ => True end) os ->
    leaves_room B s os.
  Proof.
    revert s inp out; induction os as [|o os IH]; intros s inp out I Hr Hl F; [exact Logic.I|].
    inversion F as [|? ? Fo F']; subst. cbn [leaves_room].
    assert (HB : 0 < B) by (destruct I as (_ & H & _); auto).
    destruct o; try contradiction; cbn [leaves_room_step step].
    - split; [exact Logic.I|].
      destruct (read_ok _ _ _ n I) as (d & s' & -> & P & I' & Wr & Hd). cbn [obind].
      eapply IH; eauto; [lia|]. rewrite Wr. lia.
    - split; [exact Logic.I|].
      destruct (canRead_ok _ _ _ I) as (c & s' & -> & P & I' & Wr & _ & Hd). cbn [obind].
      eapply IH; eauto; [lia|]. rewrite Wr. lia.
    - split; [exact Logic.I|].
      destruct (discard_ok _ _ _ n I) as (k & Hk & I' & Wr & Hd).
      eapply IH; eauto; lia.
    - unfold getInputLength. split; [lia|].
      destruct (write_ok _ _ _ d I) as (k & s' & -> & Hk & Hd & I' & Wr & D' & P'); [lia|]. cbn [obind].
      eapply IH; eauto; rewrite ?Wr, ?D', ?P'; auto.
    - split; [exact Logic.I|]. unfold flush.
      destruct (intFlush_ok _ _ _ I) as (s' & -> & I' & _ & _ & _ & P' & D' & _ & Wr & _). cbn [obind].
      eapply IH; eauto; rewrite ?Wr, ?D', ?P'; auto.
  Qed.

  Lemma putBack_ok (s : iobuf A) inp out seq :
    Inv s inp out -> wrpos s = wrbeg s ->
    length seq < rdpos s ->
    exists s', putBack B s seq = Ok s' /\ Inv s' (seq ++ inp) out.
  Proof.
    intros I Hw Hs. pose proof I as (H1 & H2 & H3 & H4 & H5 & H6 & H7 & H8 & H9 & H10 & H11 & H12 & H13).
    unfold putBack. destruct (Nat.ltb_spec (B - (rdend s - rdpos s)) (length seq)); [lia|].
    destruct (Nat.ltb_spec (length seq) (rdpos s)); [|lia].
    set (c := (wrpos s <? rdpos s) && _).
    assert (E : (if c then intFlush B s else Ok s) = Ok s).
    { destruct c; auto. unfold intFlush. destruct (Nat.ltb_spec (wrbeg s) (wrpos s)); [lia|auto]. }
    rewrite E. cbn [obind]. rewrite copyIn_ok by lia. cbn [obind].
    eexists. split; [reflexivity|]. unfold Inv.
    cbn [buff rdpos wrpos rdend wrbeg eof outputClosed writeReserve targetIn targetOut].
    rewrite blit_length by lia.
    repeat (split; [solve [auto | lia]|]). split; [|split; [|auto]].
    - rewrite (seg_split _ _ (rdpos s)) by (rewrite ?blit_length by lia; lia).
      rewrite <- app_assoc.
      rewrite (seg_blit_disj _ _ _ (rdpos s) (rdend s)) by lia. rewrite <- H11. f_equal.
      replace (rdpos s) with (rdpos s - length seq + length seq) at 3 by lia.
      rewrite seg_blit_app by lia. rewrite seg_empty by lia. auto.
    - rewrite H12. rewrite !seg_empty by lia. auto.
  Qed.
End P.
