(** Lemmas about the item buffers. *)
From Verif Require Import Common Deque_Proof IOBuffer_Proof RWBuffer_Spec RWBuffer_Model.

Section P.
  Context {A : Type}.
  Implicit Types (s : rbuf A) (w : wbuf A).

  Lemma limit_le' sched n : limit sched n <= n.
  Proof. destruct sched; simpl; lia. Qed.

  Lemma limit_pos' sched n : 0 < n -> 0 < limit sched n.
  Proof. destruct sched; simpl; lia. Qed.

  Lemma set_blit (b : list A) i x : i < length b -> setItem b i x = Ok (blit b i [x]).
  Proof.
    intros H. unfold setItem, blit. destruct (Nat.ltb_spec i (length b)); [|lia].
    simpl. do 3 f_equal. rewrite Nat.add_1_r. auto.
  Qed.

  Lemma get_seg (b : list A) i j : i < j -> j <= length b ->
    exists x, getItem b i = Ok x /\ seg b i j = x :: seg b (S i) j.
  Proof.
    intros H1 H2. unfold getItem. destruct (nth_error b i) as [x|] eqn:E.
    - exists x. split; auto. rewrite (seg_split b i (S i) j) by lia.
      change (x :: seg b (S i) j) with ([x] ++ seg b (S i) j). f_equal.
      assert (Hl : length (seg b i (S i)) = 1) by (rewrite seg_length; lia).
      pose proof (nth_seg b i (S i) 0) as Hn. rewrite Nat.add_0_r, E in Hn.
      destruct (Nat.ltb_spec 0 (S i - i)); [|lia].
      destruct (seg b i (S i)) as [|y [|? ?]]; try discriminate. simpl in Hn. congruence.
    - apply nth_error_None in E. lia.
  Qed.

  Lemma seg_0 (b : list A) j : seg b 0 j = firstn j b.
  Proof. unfold seg. rewrite Nat.sub_0_r. auto. Qed.

  (** * reading *)
  Definition RInv s (t : rstate A) : Prop :=
    0 < length (rarr s) /\ rrd s <= rwr s /\ rwr s <= length (rarr s) /\
    future t = seg (rarr s) (rrd s) (rwr s) ++ rest (rsrc s) /\
    (exists older, past t = rev (seg (rarr s) 0 (rrd s)) ++ older) /\
    (noItems s = true -> rest (rsrc s) = []) /\
    (fresh t = true -> 0 < rrd s).

  Lemma loadTail_ok s t :
    RInv s t -> rrd s = rwr s -> rwr s < length (rarr s) ->
    exists ok s', loadTail s = Ok (ok, s') /\ RInv s' (RS (past t) (future t) false) /\
      throws (rsrc s') = throws (rsrc s) /\
      (ok = true -> future t <> [] -> rrd s' < rwr s') /\
      (ok = false -> future t = [] /\ rest (rsrc s') = []) /\
      (future t = [] -> throws (rsrc s) = true -> ok = false) /\
      (future t = [] -> rrd s' = rwr s').
  Proof.
    intros (H1 & H2 & H3 & H4 & H5 & H6 & H7) He Hsp.
    rewrite seg_empty in H4 by lia. simpl in H4.
    unfold loadTail, blockRead. destruct (rest (rsrc s)) as [|x l] eqn:Er.
    - assert (Hf : future t = []) by auto.
      destruct (throws (rsrc s)) eqn:Et.
      + do 2 eexists. split; [reflexivity|].
        unfold rempty. cbn [rarr rrd rwr noItems rsrc rest throws].
        destruct (Nat.leb_spec (rwr s) (rrd s)); [|lia]. cbn [negb].
        split; [|split; [auto|repeat split; auto; try discriminate; congruence]].
        unfold RInv. cbn [rarr rrd rwr noItems rsrc past future fresh rest].
        repeat (split; [solve [auto]|]).
        split; [rewrite Hf, seg_empty by lia; auto|]. split; [auto|]. split; [auto|discriminate].
      + cbn [length]. rewrite Nat.add_0_r. destruct (Nat.leb_spec (rwr s) (length (rarr s))); [|lia].
        do 2 eexists. split; [reflexivity|]. cbn [app]. rewrite firstn_skipn.
        split; [|split; [auto|repeat split; auto; try discriminate; try congruence]].
        unfold RInv. cbn [rarr rrd rwr noItems rsrc past future fresh rest].
        repeat (split; [solve [auto]|]).
        split; [rewrite Hf, seg_empty by lia; auto|]. split; [auto|]. split; discriminate.
    - set (d := firstn (limit (chunks (rsrc s)) (length (rarr s) - rwr s)) (x :: l)).
      set (l' := skipn (limit (chunks (rsrc s)) (length (rarr s) - rwr s)) (x :: l)).
      assert (Hd : future t = d ++ l') by (rewrite H4; symmetry; apply firstn_skipn).
      assert (Hl : 0 < length d /\ length d <= length (rarr s) - rwr s).
      { unfold d. rewrite firstn_length.
        pose proof (limit_le' (chunks (rsrc s)) (length (rarr s) - rwr s)).
        pose proof (limit_pos' (chunks (rsrc s)) (length (rarr s) - rwr s)).
        cbn [length]. lia. }
      clearbody d l'.
      destruct (Nat.leb_spec (rwr s + length d) (length (rarr s))); [|lia].
      change (firstn (rwr s) (rarr s) ++ d ++ skipn (rwr s + length d) (rarr s))
        with (blit (rarr s) (rwr s) d).
      do 2 eexists. split; [reflexivity|].
      assert (Hn : future t <> []) by (rewrite H4; discriminate).
      split; [|split; [auto|split; [|split; [discriminate|split; congruence]]]].
      + unfold RInv. cbn [rarr rrd rwr noItems rsrc past future fresh rest].
        rewrite blit_length by lia.
        split; [lia|]. split; [lia|]. split; [lia|].
        split; [rewrite seg_blit_app, seg_empty by lia; auto|].
        split; [|split; discriminate].
        destruct H5 as [o Ho]. exists o. rewrite seg_blit_disj by lia. auto.
      + cbn. lia.
  Qed.

  Lemma load_ok s t :
    RInv s t -> rrd s = rwr s ->
    exists ok s', load s = Ok (ok, s') /\ RInv s' (RS (past t) (future t) false) /\
      throws (rsrc s') = throws (rsrc s) /\
      (ok = true -> future t <> [] -> rrd s' < rwr s') /\
      (ok = false -> future t = [] /\ rest (rsrc s') = []) /\
      (future t = [] -> throws (rsrc s) = true -> ok = false) /\
      (future t = [] -> rrd s' = rwr s').
  Proof.
    intros I He. pose proof I as (H1 & H2 & H3 & H4 & H5 & H6 & H7).
    unfold load. destruct (Nat.eqb_spec (length (rarr s) - rwr s) 0) as [E|E].
    - destruct (Nat.eqb_spec (rrd s) 0); [lia|].
      replace (rwr s - rrd s) with 0 by lia. cbn [shift obind].
      destruct (loadTail_ok (RB (rarr s) 0 0 (noItems s) (rsrc s)) (RS (past t) (future t) false))
        as (ok & s' & E' & R).
      + unfold RInv. cbn [rarr rrd rwr noItems rsrc past future fresh].
        repeat (split; [solve [auto | lia]|]).
        split; [rewrite H4, !seg_empty by lia; auto|].
        split; [exists (past t); rewrite seg_empty by lia; auto|]. split; [auto|discriminate].
      + reflexivity.
      + cbn. lia.
      + exists ok, s'. split; [exact E'|]. exact R.
    - apply loadTail_ok; auto. lia.
  Qed.

  Lemma unfresh s t : RInv s t -> RInv s (RS (past t) (future t) false).
  Proof.
    unfold RInv. cbn [past future fresh]. intros (H1 & H2 & H3 & H4 & H5 & H6 & H7).
    repeat (split; [solve [auto]|]). discriminate.
  Qed.

  Lemma rstep_ok s t o :
    RInv s t -> throws (rsrc s) = true \/ ~ asks_too_much t [o] ->
    exists a s' t', rstep s o = Ok (a, s') /\ r_step t o a t' /\ RInv s' t' /\
      throws (rsrc s') = throws (rsrc s).
  Proof.
    intros I Hask. pose proof I as (H1 & H2 & H3 & H4 & H5 & H6 & H7).
    (* loading before an access *)
    assert (L : exists ok s', (if rempty s then load s else Ok (true, s)) = Ok (ok, s') /\
      RInv s' (RS (past t) (future t) false) /\ throws (rsrc s') = throws (rsrc s) /\
      (ok = true -> future t <> [] -> rrd s' < rwr s') /\ (ok = false -> future t = []) /\
      (future t = [] -> throws (rsrc s) = true -> ok = false)).
    { unfold rempty. destruct (Nat.leb_spec (rwr s) (rrd s)) as [Hle|Hlt].
      - destruct (load_ok s t I) as (ok & s' & E & I' & Ht & Ha & Hb & Hc & _); [lia|].
        exists ok, s'. split; [exact E|]. split; [exact I'|]. split; [exact Ht|].
        split; [exact Ha|]. split; [|exact Hc]. intros Hk. apply Hb; auto.
      - exists true, s. split; [auto|]. split; [apply unfresh; auto|]. split; [auto|].
        split; [auto|]. split; [discriminate|].
        intros Hf. exfalso. apply (f_equal (@length A)) in Hf.
        rewrite H4, app_length, seg_length in Hf by lia. simpl in Hf. lia. }
    destruct o; cbn [rstep r_step].
    - (* hasItems *)
      unfold hasItems, rempty. destruct (Nat.leb_spec (rwr s) (rrd s)) as [Hle|Hlt].
      + destruct (noItems s) eqn:En.
        * do 3 eexists. split; [reflexivity|]. split; [split; [|reflexivity]|].
          -- rewrite H4, seg_empty, H6 by (auto; lia). auto.
          -- split; [apply unfresh; auto|auto].
        * destruct (load_ok s t I) as (ok & s' & E & I' & Ht & Ha & Hb & Hc & Hd); [lia|].
          rewrite E. cbn [obind].
          assert (Hm : (if rwr s' <=? rrd s' then false else true) =
            match future t with [] => false | _ => true end).
          { pose proof I' as (_ & G2 & _ & G4 & _). cbn [future] in G4.
            destruct (future t) as [|x f] eqn:Ef.
            - rewrite (Hd eq_refl). rewrite Nat.leb_refl. auto.
            - destruct ok; [|destruct (Hb eq_refl); discriminate].
              specialize (Ha eq_refl). assert (rrd s' < rwr s') by (apply Ha; discriminate).
              destruct (Nat.leb_spec (rwr s') (rrd s')); [lia|auto]. }
          destruct ok.
          -- do 3 eexists. split; [reflexivity|]. split; [split; [|reflexivity]|auto].
             rewrite <- Hm. destruct (rwr s' <=? rrd s'); auto.
          -- do 3 eexists. split; [reflexivity|]. split; [split; [|reflexivity]|].
             ++ rewrite <- Hm. cbn [rwr rrd]. destruct (rwr s' <=? rrd s'); auto.
             ++ split; [|auto]. destruct I' as (G1 & G2 & G3 & G4 & G5 & G6 & G7).
                unfold RInv. cbn [rarr rrd rwr noItems rsrc past future fresh] in *.
                repeat (split; [solve [auto]|]). split; [|discriminate]. intros _. apply Hb; auto.
      + do 3 eexists. split; [reflexivity|]. split; [split; [|reflexivity]|].
        * destruct (future t) eqn:Ef; auto. exfalso. symmetry in H4. apply (f_equal (@length A)) in H4.
          rewrite app_length, seg_length in H4 by lia. simpl in H4. lia.
        * split; [apply unfresh; auto|auto].
    - (* getNext *)
      unfold getNext. destruct L as (ok & s' & -> & I' & Ht & Ha & Hb & Hc). cbn [obind].
      destruct (future t) as [|x f] eqn:Ef.
      + assert (Hth : throws (rsrc s) = true).
        { destruct Hask as [|Hask]; auto. exfalso. apply Hask. split; auto. }
        rewrite (Hc eq_refl Hth). do 3 eexists. split; [reflexivity|]. split; [split; reflexivity|].
        auto.
      + destruct ok; [|specialize (Hb eq_refl); discriminate].
        assert (Hlt : rrd s' < rwr s') by (apply Ha; [auto|discriminate]).
        destruct I' as (G1 & G2 & G3 & G4 & G5 & G6 & G7). cbn [past future fresh] in *.
        destruct (get_seg (rarr s') (rrd s') (rwr s')) as (y & Ey & Es); [auto|auto|].
        rewrite Ey. cbn [obind]. rewrite Es in G4. injection G4 as <- G4.
        do 3 eexists. split; [reflexivity|]. split; [split; reflexivity|].
        split; [|auto]. unfold RInv. cbn [rarr rrd rwr noItems rsrc past future fresh].
        repeat (split; [solve [auto | lia]|]). split; [|split; [auto|lia]].
        destruct G5 as [o Ho]. exists o. rewrite Ho.
        rewrite (seg_split (rarr s') 0 (rrd s') (S (rrd s'))) by lia.
        rewrite rev_app_distr.
        destruct (get_seg (rarr s') (rrd s') (S (rrd s'))) as (z & Ez & Ezs); [lia|lia|].
        rewrite Ey in Ez. injection Ez as <-. rewrite Ezs, (seg_empty _ (S (rrd s'))) by lia. auto.
    - (* peek *)
      unfold peek. destruct L as (ok & s' & -> & I' & Ht & Ha & Hb & Hc). cbn [obind].
      destruct (future t) as [|x f] eqn:Ef.
      + assert (Hth : throws (rsrc s) = true).
        { destruct Hask as [|Hask]; auto. exfalso. apply Hask. split; auto. }
        rewrite (Hc eq_refl Hth). do 3 eexists. split; [reflexivity|]. split; [split; reflexivity|].
        auto.
      + destruct ok; [|specialize (Hb eq_refl); discriminate].
        assert (Hlt : rrd s' < rwr s') by (apply Ha; [auto|discriminate]).
        pose proof I' as (G1 & G2 & G3 & G4 & G5 & G6 & G7). cbn [past future fresh] in *.
        destruct (get_seg (rarr s') (rrd s') (rwr s')) as (y & Ey & Es); [auto|auto|].
        rewrite Ey. cbn [obind]. rewrite Es in G4. injection G4 as <- G4.
        do 3 eexists. split; [reflexivity|]. split; [split; reflexivity|]. auto.
    - (* unget item *)
      unfold unget. destruct (Nat.ltb_spec 0 (rrd s)) as [Hp|Hz].
      + rewrite set_blit by lia. cbn [obind].
        destruct H5 as [o Ho].
        rewrite (seg_split (rarr s) 0 (rrd s - 1) (rrd s)), rev_app_distr in Ho by lia.
        destruct (get_seg (rarr s) (rrd s - 1) (rrd s)) as (y & Ey & Es); [lia|lia|].
        rewrite Es, (seg_empty _ (S (rrd s - 1))) in Ho by lia. simpl in Ho.
        do 3 eexists. split; [reflexivity|].
        split; [left; rewrite Ho; split; reflexivity|].
        split; [|auto]. unfold RInv. cbn [rarr rrd rwr noItems rsrc past future fresh].
        rewrite blit_length by (simpl; lia).
        repeat (split; [solve [auto | lia]|]).
        split; [|split; [|split; [auto|discriminate]]].
        * rewrite (seg_split _ (rrd s - 1) (rrd s)) by (rewrite ?blit_length by (simpl; lia); lia).
          rewrite (seg_blit_disj _ _ _ (rrd s)) by (simpl; lia).
          replace (rrd s) with (rrd s - 1 + length [x]) at 3 by (simpl; lia).
          rewrite seg_blit_app by (simpl; lia). rewrite seg_empty by lia. simpl. rewrite H4. auto.
        * exists o. rewrite seg_blit_disj by (simpl; lia). auto.
      + do 3 eexists. split; [reflexivity|]. split.
        * right. split; [reflexivity|]. split; [|reflexivity].
          destruct (fresh t) eqn:Ef; auto. specialize (H7 eq_refl). lia.
        * split; [apply unfresh; auto|auto].
    - (* unget *)
      unfold back. destruct (Nat.ltb_spec 0 (rrd s)) as [Hp|Hz].
      + destruct H5 as [o Ho].
        rewrite (seg_split (rarr s) 0 (rrd s - 1) (rrd s)), rev_app_distr in Ho by lia.
        destruct (get_seg (rarr s) (rrd s - 1) (rrd s)) as (y & Ey & Es); [lia|lia|].
        rewrite Es, (seg_empty _ (S (rrd s - 1))) in Ho by lia. simpl in Ho.
        do 3 eexists. split; [reflexivity|].
        split; [left; rewrite Ho; split; reflexivity|].
        split; [|auto]. unfold RInv. cbn [rarr rrd rwr noItems rsrc past future fresh].
        repeat (split; [solve [auto | lia]|]).
        split; [|split; [exists o; auto|split; [auto|discriminate]]].
        rewrite (seg_split _ (rrd s - 1) (rrd s)) by lia. rewrite Es, (seg_empty _ (S (rrd s - 1))) by lia.
        simpl. rewrite H4. auto.
      + do 3 eexists. split; [reflexivity|]. split.
        * right. split; [reflexivity|]. split; [|reflexivity].
          destruct (fresh t) eqn:Ef; auto. specialize (H7 eq_refl). lia.
        * split; [apply unfresh; auto|auto].
  Qed.

  Lemma rrun_throws os s t :
    RInv s t -> throws (rsrc s) = true ->
    exists r s' t', rrun s os = Ok (r, s') /\ r_run t os r t' /\ RInv s' t'.
  Proof.
    revert s t; induction os as [|o os IH]; intros s t I Ht.
    - do 3 eexists. split; [reflexivity|]. split; [reflexivity|auto].
    - destruct (rstep_ok s t o I) as (a & s1 & t1 & E & S1 & I1 & Ht1); auto.
      destruct (IH s1 t1 I1) as (r & s' & t' & E' & R' & I'); [congruence|].
      cbn [rrun]. rewrite E. cbn [obind]. rewrite E'. cbn [obind].
      do 3 eexists. split; [reflexivity|]. split; [|exact I'].
      cbn [r_run]. exists t1. auto.
  Qed.

  Lemma ask_dec (t : rstate A) os : asks_too_much t os \/ ~ asks_too_much t os.
  Proof.
    unfold asks_too_much. destruct (future t); [|right; intros [Hc _]; discriminate Hc].
    destruct os as [|[]]; try (right; intros [_ Hc]; exact Hc); left; auto.
  Qed.

  Lemma ask_hd (t : rstate A) o os : asks_too_much t (o :: os) <-> asks_too_much t [o].
  Proof. unfold asks_too_much. destruct o; tauto. Qed.

  Lemma rrun_any os s t :
    RInv s t ->
    exists os1 os2 r s' t', os = os1 ++ os2 /\ rrun s os1 = Ok (r, s') /\ r_run t os1 r t' /\
      RInv s' t' /\ (os2 = [] \/ asks_too_much t' os2).
  Proof.
    revert s t; induction os as [|o os IH]; intros s t I.
    - exists [], []. do 3 eexists. split; [auto|]. split; [reflexivity|]. split; [reflexivity|]. auto.
    - destruct (ask_dec t (o :: os)) as [Ha|Ha].
      + exists [], (o :: os). do 3 eexists. split; [auto|]. split; [reflexivity|].
        split; [reflexivity|]. auto.
      + destruct (rstep_ok s t o I) as (a & s1 & t1 & E & S1 & I1 & _).
        { right. rewrite <- (ask_hd t o os). auto. }
        destruct (IH s1 t1 I1) as (os1 & os2 & r & s' & t' & -> & E' & R' & I' & Hc).
        exists (o :: os1), os2, (a :: r), s', t'. split; [auto|].
        cbn [rrun]. rewrite E. cbn [obind]. rewrite E'. cbn [obind]. split; [auto|].
        split; [|auto]. cbn [r_run]. exists t1. auto.
  Qed.

  Lemma newR_inv content (i : source A) :
    0 < length content -> RInv (newR content i) (RS [] (rest i) false).
  Proof.
    intros H. unfold RInv, newR. cbn [rarr rrd rwr noItems rsrc past future fresh].
    repeat (split; [solve [auto | lia]|]).
    split; [exists []; auto|]. split; discriminate.
  Qed.

  (** * writing *)
  Definition WInv w (t : list A * bool) : Prop :=
    0 < length (warr w) /\ wrd w = 0 /\ wwr w <= length (warr w) /\
    fst t = received (wsnk w) ++ seg (warr w) 0 (wwr w) /\
    (snd t = true -> 0 < wwr w).

  Lemma fast_round w :
    wrd w < wwr w -> wwr w <= length (warr w) ->
    exists w', fastflush w true = Ok w' /\
      received (wsnk w') ++ seg (warr w') (wrd w') (wwr w') =
      received (wsnk w) ++ seg (warr w) (wrd w) (wwr w) /\
      warr w' = warr w /\ wrd w' <= wwr w' /\ wwr w' <= length (warr w') /\
      wwr w' - wrd w' < wwr w - wrd w /\
      (forall b, accepts (wsnk w) = [] -> fastflush w b = Ok w' /\ wrd w' = 0 /\ wwr w' = 0 /\
        accepts (wsnk w') = []).
  Proof.
    intros H1 H2. unfold fastflush, wempty. destruct (Nat.leb_spec (wwr w) (wrd w)); [lia|].
    destruct (Nat.leb_spec (wwr w) (length (warr w))); [|lia].
    fold (seg (warr w) (wrd w) (wwr w)). unfold blockWrite.
    rewrite seg_length by auto.
    set (k := limit (accepts (wsnk w)) (wwr w - wrd w)).
    assert (Hk : 0 < k <= wwr w - wrd w).
    { unfold k. split; [apply limit_pos'; lia|apply limit_le']. }
    assert (Hka : accepts (wsnk w) = [] -> k = wwr w - wrd w).
    { unfold k. intros ->. auto. }
    clearbody k.
    assert (Hs : seg (warr w) (wrd w) (wwr w) =
      firstn k (seg (warr w) (wrd w) (wwr w)) ++ seg (warr w) (wrd w + k) (wwr w)).
    { rewrite (seg_split (warr w) (wrd w) (wrd w + k) (wwr w)) by lia. f_equal.
      rewrite firstn_app, seg_length by lia.
      replace (k - (wrd w + k - wrd w)) with 0 by lia. rewrite app_nil_r.
      rewrite firstn_all2; auto. rewrite seg_length; lia. }
    destruct (Nat.eqb_spec (wrd w + k) (wwr w)) as [E|E].
    - eexists. split; [reflexivity|]. cbn [warr wrd wwr wsnk received accepts].
      split; [|do 4 (split; [solve [auto | lia]|]); intros b ->; auto].
      rewrite (seg_empty _ 0 0), app_nil_r by lia. f_equal.
      rewrite Hs at 2. rewrite (seg_empty _ (wrd w + k)), app_nil_r by lia. auto.
    - eexists. split; [reflexivity|]. cbn [warr wrd wwr wsnk received accepts].
      split; [|do 4 (split; [solve [auto | lia]|]); intros b Hb; specialize (Hka Hb); lia].
      rewrite <- app_assoc, <- Hs. auto.
  Qed.

  Lemma flushLoop_ok fuel w :
    wwr w - wrd w <= fuel -> wrd w <= wwr w -> wwr w <= length (warr w) ->
    exists w', flushLoop fuel w = Ok w' /\
      received (wsnk w') = received (wsnk w) ++ seg (warr w) (wrd w) (wwr w) /\
      warr w' = warr w /\ wrd w' = wwr w' /\ (accepts (wsnk w) = [] -> accepts (wsnk w') = []).
  Proof.
    revert w; induction fuel as [|fuel IH]; intros w H1 H2 H3; cbn [flushLoop];
      unfold wempty; destruct (Nat.leb_spec (wwr w) (wrd w)) as [He|He].
    - exists w. split; [auto|]. rewrite seg_empty by lia. rewrite app_nil_r. repeat split; auto. lia.
    - lia.
    - exists w. split; [auto|]. rewrite seg_empty by lia. rewrite app_nil_r. repeat split; auto. lia.
    - destruct (fast_round w He H3) as (w1 & -> & Hr & Ha & Hb & Hc & Hd & He'). cbn [obind].
      destruct (IH w1) as (w' & E & R & Ra & Rb & Rc); [lia|lia|lia|].
      exists w'. split; [exact E|]. split; [congruence|]. split; [congruence|]. split; [auto|].
      intros Hac. apply Rc. apply (He' true); auto.
  Qed.

  Lemma flush_ok w t :
    WInv w t ->
    exists w', flush w = Ok w' /\ WInv w' (fst t, false) /\ received (wsnk w') = fst t /\
      (accepts (wsnk w) = [] -> accepts (wsnk w') = []).
  Proof.
    intros (H1 & H2 & H3 & H4 & H5). unfold flush.
    destruct (flushLoop_ok (wwr w - wrd w) w) as (w1 & -> & R & Ra & Rb & Rc); [lia|lia|lia|].
    cbn [obind]. unfold fastflush, wempty. rewrite Rb, Nat.leb_refl.
    eexists. split; [reflexivity|]. cbn [warr wrd wwr wsnk received accepts].
    assert (Hr : received (wsnk w1) = fst t) by (rewrite R, H4, H2; auto).
    split; [|auto]. unfold WInv. cbn [warr wrd wwr wsnk fst snd].
    split; [congruence|]. split; [auto|]. split; [lia|].
    split; [rewrite seg_empty, app_nil_r by lia; auto|discriminate].
  Qed.

  Lemma write_ok' w t x :
    WInv w t -> wfull w = false \/ accepts (wsnk w) = [] ->
    exists w', write w x = Ok w' /\ WInv w' (fst t ++ [x], true) /\
      (accepts (wsnk w) = [] -> accepts (wsnk w') = []).
  Proof.
    intros I Hc. unfold write.
    assert (L : exists w1, (if wfull w then fastflush w false else Ok w) = Ok w1 /\
      0 < length (warr w1) /\ wrd w1 = 0 /\ wwr w1 < length (warr w1) /\
      fst t = received (wsnk w1) ++ seg (warr w1) 0 (wwr w1) /\
      (accepts (wsnk w) = [] -> accepts (wsnk w1) = [])).
    { destruct I as (H1 & H2 & H3 & H4 & H5). destruct (wfull w) eqn:Ef.
      - destruct Hc as [|Hc]; [discriminate|].
        unfold wfull in Ef. apply Nat.leb_le in Ef.
        destruct (fast_round w) as (w1 & _ & Hr & Ha & Hb & Hd & He & Hf); [lia|lia|].
        destruct (Hf false Hc) as (Hf1 & Hf2 & Hf3 & Hf4).
        exists w1. split; [exact Hf1|]. rewrite Ha in *. split; [lia|]. split; [lia|]. split; [lia|].
        split; [|auto]. rewrite Hf2, Hf3 in Hr. rewrite Hf3, H4. rewrite Hr. rewrite H2. auto.
      - exists w. split; [auto|]. unfold wfull in Ef. apply Nat.leb_gt in Ef.
        repeat (split; [solve [auto]|]). auto. }
    destruct L as (w1 & -> & G1 & G2 & G3 & G4 & G5). cbn [obind].
    rewrite set_blit by lia. cbn [obind].
    eexists. split; [reflexivity|]. cbn [wsnk]. split; [|auto].
    unfold WInv. cbn [warr wrd wwr wsnk fst snd]. rewrite blit_length by (simpl; lia).
    split; [auto|]. split; [auto|]. split; [lia|]. split; [|lia].
    replace (S (wwr w1)) with (wwr w1 + length [x]) by (simpl; lia).
    rewrite seg_blit_app by (simpl; lia). rewrite G4, app_assoc. auto.
  Qed.

  Lemma wstep_ok w t o :
    WInv w t ->
    match o with WWrite _ => wfull w = false \/ accepts (wsnk w) = [] | _ => True end ->
    exists a w' t', wstep w o = Ok (a, w') /\ w_step t o a t' /\ WInv w' t' /\
      (accepts (wsnk w) = [] -> accepts (wsnk w') = []).
  Proof.
    intros I Hc. destruct o; cbn [wstep w_step].
    - destruct (write_ok' w t x I Hc) as (w' & -> & I' & Ha). cbn [obind].
      do 3 eexists. split; [reflexivity|]. split; [split; reflexivity|]. auto.
    - destruct (flush_ok w t I) as (w' & -> & I' & _ & Ha). cbn [obind].
      do 3 eexists. split; [reflexivity|]. split; [split; reflexivity|]. auto.
    - destruct I as (H1 & H2 & H3 & H4 & H5). unfold unwrite.
      destruct (Nat.ltb_spec (wrd w) (wwr w)) as [Hl|Hl].
      + destruct (get_seg (warr w) (wwr w - 1) (wwr w)) as (y & Ey & Es); [lia|lia|].
        rewrite Ey. cbn [obind].
        rewrite (seg_split (warr w) 0 (wwr w - 1) (wwr w)), Es, (seg_empty _ (S (wwr w - 1))) in H4 by lia.
        do 3 eexists. split; [reflexivity|].
        split; [left; do 2 eexists; split; [rewrite H4, app_assoc; reflexivity|split; reflexivity]|].
        split; [|auto]. unfold WInv. cbn [warr wrd wwr wsnk fst snd].
        repeat (split; [solve [auto | lia]|]). discriminate.
      + do 3 eexists. split; [reflexivity|]. split.
        * right. split; [reflexivity|]. split; [|reflexivity].
          destruct (snd t); auto. specialize (H5 eq_refl). lia.
        * split; [|auto]. unfold WInv. cbn [fst snd]. repeat (split; [solve [auto]|]). discriminate.
  Qed.

  Lemma wrun_ok os w t :
    WInv w t -> whole_blocks w os ->
    exists r w' t', wrun w os = Ok (r, w') /\ w_run t os r t' /\ WInv w' t'.
  Proof.
    revert w t; induction os as [|o os IH]; intros w t I L.
    - do 3 eexists. split; [reflexivity|]. split; [reflexivity|auto].
    - cbn [whole_blocks] in L. destruct L as [L1 L2].
      destruct (wstep_ok w t o I L1) as (a & w1 & t1 & E & S1 & I1 & _).
      rewrite E in L2. destruct (IH w1 t1 I1 L2) as (r & w' & t' & E' & R' & I').
      cbn [wrun]. rewrite E. cbn [obind]. rewrite E'. cbn [obind].
      do 3 eexists. split; [reflexivity|]. split; [|exact I'].
      cbn [w_run]. exists t1. auto.
  Qed.

  Lemma whole_all os w t : WInv w t -> accepts (wsnk w) = [] -> whole_blocks w os.
  Proof.
    revert w t; induction os as [|o os IH]; intros w t I Ha; [exact Logic.I|].
    cbn [whole_blocks].
    assert (Hc : match o with WWrite _ => wfull w = false \/ accepts (wsnk w) = [] | _ => True end)
      by (destruct o; auto).
    split; [exact Hc|].
    destruct (wstep_ok w t o I Hc) as (a & w1 & t1 & E & S1 & I1 & Ha1). rewrite E. eauto.
  Qed.

  Lemma newW_inv content (o : sink A) :
    0 < length content -> WInv (newW content o) (received o, false).
  Proof.
    intros H. unfold WInv, newW. cbn [warr wrd wwr wsnk fst snd].
    repeat (split; [solve [auto | lia]|]). rewrite seg_empty, app_nil_r by lia.
    split; [auto|discriminate].
  Qed.

  (** filling an empty buffer *)
  Lemma fill l w :
    wwr w + length l <= length (warr w) ->
    exists w', wrun w (map WWrite l) = Ok (map (fun _ => WUnit) l, w') /\
      warr w' = blit (warr w) (wwr w) l /\ wrd w' = wrd w /\ wwr w' = wwr w + length l /\
      wsnk w' = wsnk w.
  Proof.
    revert w; induction l as [|x l IH]; intros w H; cbn [map wrun length] in *.
    - exists w. split; [auto|]. split; [|repeat split; auto; lia].
      unfold blit. simpl. rewrite Nat.add_0_r, firstn_skipn. auto.
    - cbn [wstep]. unfold write. unfold wfull.
      destruct (Nat.leb_spec (length (warr w)) (wwr w)); [lia|]. cbn [obind].
      rewrite set_blit by lia. cbn [obind].
      destruct (IH (WB (blit (warr w) (wwr w) [x]) (wrd w) (S (wwr w)) (wsnk w))) as (w' & E & E1 & E2 & E3 & E4).
      { cbn [warr wwr]. rewrite blit_length by (simpl; lia). lia. }
      cbn [warr wrd wwr wsnk] in *.
      exists w'. rewrite E. cbn [obind]. split; [auto|]. split; [|repeat split; auto; lia].
      rewrite E1. apply nth_error_ext. intros k.
      rewrite !nth_blit; cbn [length]; rewrite ?blit_length by (simpl; lia); try lia.
      destruct (Nat.ltb_spec k (S (wwr w))), (Nat.ltb_spec k (S (wwr w) + length l)),
        (Nat.ltb_spec k (wwr w)), (Nat.ltb_spec k (wwr w + S (length l))),
        (Nat.ltb_spec k (wwr w + 1)); try lia; auto.
      + replace (k - wwr w) with 0 by lia. auto.
      + replace (k - wwr w) with (S (k - S (wwr w))) by lia. auto.
  Qed.

  Lemma shift_ok n (b : list A) x rd :
    x < rd -> rd + n <= length b -> shift n b x rd = Ok (blit b x (seg b rd (rd + n))).
  Proof.
    revert b x rd; induction n as [|n IH]; intros b x rd H1 H2; cbn [shift].
    - rewrite seg_empty by lia. f_equal. unfold blit. simpl. rewrite Nat.add_0_r, firstn_skipn. auto.
    - destruct (get_seg b rd (rd + S n)) as (v & Ev & Es); [lia|lia|]. rewrite Ev. cbn [obind].
      rewrite set_blit by lia. cbn [obind].
      rewrite IH; [|lia|rewrite blit_length by (simpl; lia); lia].
      f_equal. rewrite Es, seg_blit_disj by (simpl; lia).
      replace (S rd + n) with (rd + S n) by lia.
      assert (Hl : length (seg b (S rd) (rd + S n)) = n) by (rewrite seg_length; lia).
      apply nth_error_ext. intros k.
      rewrite !nth_blit; cbn [length]; rewrite ?blit_length by (simpl; lia); try lia.
      rewrite Hl.
      destruct (Nat.ltb_spec k (S x)), (Nat.ltb_spec k (S x + n)),
        (Nat.ltb_spec k x), (Nat.ltb_spec k (x + S n)),
        (Nat.ltb_spec k (x + 1)); try lia; auto.
      + replace (k - x) with 0 by lia. auto.
      + replace (k - x) with (S (k - S x)) by lia. auto.
  Qed.

  Lemma blit_all (c l : list A) : length c = length l -> blit c 0 l = l.
  Proof.
    intros H. unfold blit. simpl. rewrite skipn_all2 by lia. apply app_nil_r.
  Qed.

  Lemma partial_write (x0 x1 x2 y : A) l content :
    length content = length (x0 :: x1 :: x2 :: l) ->
    exists r w, wrun (newW content (Snk [] [0])) (map WWrite (x0 :: x1 :: x2 :: l) ++ [WWrite y; WFlush]) =
      Ok (r, w) /\ received (wsnk w) = [x0; x1; y].
  Proof.
    intros H. set (L := x0 :: x1 :: x2 :: l) in *.
    destruct (fill L (newW content (Snk [] [0]))) as (w & E & E1 & E2 & E3 & E4); [cbn [newW warr wwr]; lia|].
    cbn [newW warr wrd wwr wsnk] in *. rewrite blit_all in E1 by auto.
    assert (Happ : forall a b (u : wbuf A), wrun u (a ++ b) =
      let! (r1, u) := wrun u a in let! (r2, u) := wrun u b in Ok (r1 ++ r2, u)).
    { induction a as [|o a IH]; intros b u; cbn [app wrun obind].
      - destruct (wrun u b) as [[? ?]| | |]; auto.
      - destruct (wstep u o) as [[a0 u0]| | |]; cbn [obind]; auto. rewrite IH.
        destruct (wrun u0 a) as [[a1 u1]| | |]; cbn [obind]; auto.
        destruct (wrun u1 b) as [[a2 u2]| | |]; cbn [obind]; auto. }
    rewrite Happ, E. cbn [obind wrun wstep].
    assert (Hw : write w y = Ok (WB (blit (blit L 0 (seg L 1 (length L))) 1 [y]) 0 2 (Snk [x0] []))).
    { unfold write, wfull. rewrite E1, E3. cbn [Nat.add]. rewrite Nat.leb_refl.
      unfold fastflush, wempty. rewrite E1, E2, E3, E4. cbn [Nat.add].
      replace (length L <=? 0) with false by reflexivity. rewrite Nat.leb_refl.
      unfold blockWrite. cbn [accepts limit skipn received tl].
      rewrite Nat.sub_0_r. rewrite (firstn_all L).
      replace (Nat.min (length L) 1) with 1 by (unfold L; cbn [length]; lia).
      replace (1 =? length L) with false by reflexivity.
      rewrite shift_ok by (unfold L; cbn [length]; lia). cbn [obind].
      replace (1 + (length L - 1)) with (length L) by (unfold L; cbn [length]; lia).
      replace (length L - (length L - 1)) with 1 by (unfold L; cbn [length]; lia).
      cbn [warr wwr wrd wsnk].
      rewrite set_blit by (rewrite blit_length by (rewrite seg_length by lia; lia); unfold L; cbn [length]; lia).
      reflexivity. }
    rewrite Hw. cbn [obind].
    set (w2 := WB _ 0 2 _).
    assert (Hb : length (blit L 0 (seg L 1 (length L))) = length L)
      by (rewrite blit_length; rewrite ?seg_length; unfold L; cbn [length]; lia).
    assert (I2 : WInv w2 ([x0; x1; y], true)).
    { unfold WInv, w2. cbn [warr wrd wwr wsnk fst snd received].
      rewrite blit_length by (rewrite Hb; unfold L; cbn [length]; lia). rewrite Hb.
      split; [unfold L; cbn [length]; lia|]. split; [auto|]. split; [unfold L; cbn [length]; lia|]. split; [|lia].
      change 2 with (1 + length [y]).
      rewrite seg_blit_app by (rewrite ?Hb; unfold L; cbn [length]; lia). reflexivity. }
    destruct (flush_ok _ _ I2) as (w3 & -> & _ & R & _). cbn [obind].
    do 2 eexists. split; [reflexivity|]. exact R.
  Qed.

  Lemma peek_hang fuel s n :
    rest (rsrc s) = [] -> throws (rsrc s) = false -> rwr s - rrd s <= n -> rwr s < length (rarr s) ->
    peekLoop fuel s n = NoFuel.
  Proof.
    revert s; induction fuel as [|fuel IH]; intros s H1 H2 H3 H4; cbn [peekLoop]; auto.
    destruct (Nat.leb_spec (rwr s - rrd s) n); [|lia].
    unfold load. destruct (Nat.eqb_spec (length (rarr s) - rwr s) 0); [lia|].
    unfold loadTail, blockRead. rewrite H1, H2. cbn [length app]. rewrite Nat.add_0_r.
    destruct (Nat.leb_spec (rwr s) (length (rarr s))); [|lia]. cbn [obind].
    apply IH; cbn [rarr rrd rwr rsrc rest throws]; auto. rewrite firstn_skipn. auto.
  Qed.
End P.
