(** Properties of the journal *)
From Verif Require Import Common EvLog_Spec EvLog_Model EvLog_Proof.
Open Scope Z_scope.

Lemma open_go : forall f, open_ f = go f 0 initialChecksum 0. Proof. reflexivity. Qed.
Lemma fresh_ok : wok fresh. Proof. unfold wok, fresh, initialChecksum. cbn. lia. Qed.

(** C430: what is written is read back, and the reader ends in the state of the writer *)
Theorem evlog_roundtrip : forall l, Forall padok (map snd l) -> goods 0 (map fst l) ->
  exists f w ds, writes l fresh = Ok (f, w) /\ open_ f = (ds, Fin (len f) (cs w) (last w)) /\ Forall2 shows (map fst l) ds.
Proof.
  intros l P G. destruct (writes_go l fresh 0 fresh_ok P G) as (f & w & E & _ & _ & R). destruct (R 0) as (ds & D & F).
  exists f, w, ds. split; [exact E|]. rewrite open_go. rewrite !Z.add_0_l, Z.add_0_r in D. split; [exact D|]. rewrite later0 in F. exact F.
Qed.

(** C431: a crash at any byte: the events that were written completely are there, in order, and nothing else; when the file
    can be opened, new events can be added *)
Theorem evlog_crash : forall l f w, Forall padok (map snd l) -> goods 0 (map fst l) -> writes l fresh = Ok (f, w) ->
  forall n, (n <= length f)%nat ->
  exists k ds r fk wk, (k <= length l)%nat /\ writes (firstn k l) fresh = Ok (fk, wk) /\ (length fk <= n)%nat
    /\ (k < length l -> exists fk1 wk1, writes (firstn (S k) l) fresh = Ok (fk1, wk1) /\ n < length fk1)%nat
    /\ open_ (firstn n f) = (ds, r) /\ Forall2 shows (firstn k (map fst l)) ds
    /\ (n = length fk -> r = Fin (Z.of_nat n) (cs wk) (last wk))
    /\ (r = Short \/ exists c t, r = Fin (Z.of_nat n) c t /\ last wk <= t /\ (forall e, nth_error (map fst l) k = Some e -> t <= etime e)
         /\ forall l2, Forall padok (map snd l2) -> goods t (map fst l2) ->
            exists f2 w2 ds2, writes l2 (mkW c t) = Ok (f2, w2)
              /\ open_ (firstn n f ++ f2) = (ds ++ ds2, Fin (len (firstn n f ++ f2)) (cs w2) (last w2)) /\ Forall2 shows (map fst l2) ds2).
Proof.
  intros l f w P G E n L.
  destruct (writes_cut l fresh fresh_ok P G f w E n 0 L) as (k & ds & r & fk & wk & K1 & K2 & K3 & K4 & K5 & K6 & K7 & K8).
  rewrite Z.add_0_l in *. exists k, ds, r, fk, wk. repeat (split; [assumption|]). destruct K7 as [K7|(c & t & -> & C & T1 & T2)]; [auto|]. right.
  exists c, t. split; [reflexivity|]. split; [assumption|]. split; [assumption|]. intros l2 P2 G2.
  destruct (writes_go l2 (mkW c t) 0 C P2 G2) as (f2 & w2 & E2 & _ & B2 & R). destruct (R (Z.of_nat n)) as (ds2 & D & F). cbn [cs last] in D. rewrite !Z.add_0_r in D.
  exists f2, w2, ds2. split; [exact E2|]. rewrite later0 in F. split; [|exact F].
  destruct (writes_go l fresh 0 fresh_ok P G) as (f' & w' & E' & _ & B & _). rewrite E in E'. injection E' as <- <-.
  destruct (go_app _ _ _ _ _ _ _ _ f2 (firstn_bs n f B) B2 K5) as (_ & GA). rewrite open_go.
  change (cs fresh) with initialChecksum in GA. change (last fresh) with 0 in GA. rewrite GA, D. rewrite len_app. f_equal. f_equal.
  unfold len. rewrite firstn_length. lia.
Qed.

(** C432: a changed byte in the data of an event is found when there is an event behind it, and the events before it are read *)
Theorem evlog_corrupt : forall l1 e pad l2 f1 w1 out w2 o f2 w3,
  Forall padok (map snd (l1 ++ (e, pad) :: l2)) -> goods 0 (map fst (l1 ++ (e, pad) :: l2)) -> l2 <> [] ->
  writes l1 fresh = Ok (f1, w1) -> writeBlock (etype e) (edata e) (etime e) pad w1 = Ok (out, w2, o) -> writes l2 w2 = Ok (f2, w3) ->
  forall i b, (length out - 8 * ((length (edata e) + 7) / 8) <= i < length out)%nat -> 0 <= b < 256 -> b <> nth i out 0 ->
  exists ds x, open_ (f1 ++ upd out i b ++ f2) = (ds ++ [x], BadSum) /\ Forall2 shows (map fst l1) ds.
Proof.
  intros l1 e pad l2 f1 w1 out w2 o f2 w3 P G N E1 EB E2 i b I B D.
  rewrite map_app in P, G. apply Forall_app in P as (P1 & P2). cbn [map fst snd] in P2, G. inversion P2 as [|? ? PE PL]; subst.
  destruct (goods_app _ _ _ G) as (G1 & G2). destruct (writes_go l1 fresh 0 fresh_ok P1 G1) as (f1' & w1' & E1' & W1 & B1 & R). rewrite E1 in E1'. injection E1' as <- <-.
  pose proof (writes_last _ _ _ _ E1) as LW. change (last fresh) with 0 in LW. rewrite <- LW in G2. cbn [goods] in G2. destruct G2 as (GE & GL).
  destruct (wb_good w1 e pad W1 PE GE) as (pre & h & dat & EB' & S). rewrite EB in EB'.
  assert (EO : out = pre ++ put_header h ++ dat) by congruence. assert (EW : w2 = mkW (csum h dat) (etime e)) by congruence. clear EB'. subst out w2.
  destruct (writes_head l2 (mkW (csum h dat) (etime e)) f2 w3 (csum_range h dat) PL GL N E2) as (h2 & rest & -> & H2 & C2).
  destruct (writes_go l2 (mkW (csum h dat) (etime e)) 0 (csum_range h dat) PL GL) as (f2' & w3' & E2' & _ & B2 & _). rewrite E2 in E2'.
  assert (put_header h2 ++ rest = f2') as <- by congruence. clear E2'.
  assert (DL : length dat = (8 * ((length (edata e) + 7) / 8))%nat) by (eapply shape_len; exact S).
  rewrite <- DL in I. rewrite !app_length in I. rewrite put_length in I.
  rewrite !upd_app_r by (rewrite ?put_length; lia).
  assert (NI : nth i (pre ++ put_header h ++ dat) 0 = nth (i - length pre - length (put_header h)) dat 0).
  { rewrite app_nth2 by lia. rewrite app_nth2 by (rewrite put_length; lia). reflexivity. }
  rewrite NI in D. rewrite put_length in *.
  destruct (R 0) as (ds & RG & F). rewrite later0 in F. change (cs fresh) with initialChecksum in RG. change (last fresh + 0) with 0 in RG. rewrite Z.add_0_r in RG.
  destruct (go_event_bad w1 e pre h dat _ rest (0 + len f1) (last w1) (i - length pre - 8) b h2 S ltac:(lia) B D H2 C2) as (x & GX).
  { intros y Hy. apply B2. apply in_or_app. auto. }
  assert (BU : bs ((pre ++ put_header h ++ upd dat (i - length pre - 8) b) ++ put_header h2 ++ rest)).
  { apply bs_app; [|assumption]. intros y Hy. apply in_app_or in Hy as [Hy|Hy]; [apply (bs_out _ _ _ _ _ _ S); apply in_or_app; auto|].
    apply in_app_or in Hy as [Hy|Hy]; [apply (bs_out _ _ _ _ _ _ S); apply in_or_app; right; apply in_or_app; auto|].
    revert Hy. apply bs_upd; [apply S|lia]. }
  destruct (go_app f1 0 initialChecksum 0 _ _ _ _ _ B1 BU RG) as (_ & GA). rewrite open_go, GA, GX. exists ds, x. auto.
Qed.

(** C433: the result of sendUpdate is the place where the event is found later; the listeners get the time, the type and the data *)
Theorem evlog_offset : forall l f w e pad, Forall padok (map snd l) -> padok pad -> goods 0 (map fst l ++ [e]) -> writes l fresh = Ok (f, w) ->
  exists f' w' x o ds y, sendUpdate f w e pad = Ok (f', w', x, o) /\ x = (place x, etime e, etype e, edata e)
    /\ open_ f' = (ds ++ [y], Fin (len f') (cs w') (last w')) /\ Forall2 shows (map fst l) ds /\ shows e y /\ place y = o
    /\ (etime e - last w <= 65535 -> place x = o).
Proof.
  intros l f w e pad P PE G E. destruct (goods_app _ _ _ G) as (G1 & G2 & _).
  destruct (writes_go l fresh 0 fresh_ok P G1) as (f1 & w1 & E1 & W1 & B1 & R). rewrite E in E1. injection E1 as <- <-.
  pose proof (writes_last _ _ _ _ E) as LW. change (last fresh) with 0 in LW. rewrite <- LW in G2.
  destruct (wb_good w e pad W1 PE G2) as (pre & h & dat & EB & S).
  destruct (R 0) as (ds & RG & F). rewrite later0 in F. change (cs fresh) with initialChecksum in RG. change (last fresh + 0) with 0 in RG. rewrite Z.add_0_r, Z.add_0_l in RG.
  pose proof (go_event _ _ _ _ _ _ [] (len f) (last w) S ltac:(intros b [])) as GE. rewrite app_nil_r, go_nil in GE.
  destruct (go_app f 0 initialChecksum 0 _ _ _ _ _ B1 (bs_out _ _ _ _ _ _ S) RG) as (_ & GA). rewrite GE in GA.
  replace (last w + (etime e - last w)) with (etime e) in GA by lia.
  unfold sendUpdate. rewrite EB. cbn [obind last]. unfold blockSize. do 6 eexists. split; [reflexivity|]. split; [reflexivity|].
  split; [rewrite open_go, len_app; exact GA|]. split; [exact F|]. split; [eapply shape_shows; [exact S|reflexivity]|].
  assert (M : len f mod 8 = 0) by exact (writes_mod l fresh f w fresh_ok P G1 E).
  cbn [place fst snd]. replace (len f + len (pre ++ put_header h ++ dat) - len (pre ++ put_header h ++ dat)) with (len f) by lia.
  assert (Q : len pre = 0 \/ len pre = 8). { unfold len. destruct (pre_len _ _ _ _ _ _ S) as [->| ->]; auto. }
  split.
  - destruct Q as [-> | ->]; [rewrite !Z.add_0_r; reflexivity|]. change (8 / 8) with 1. replace (len f + 8) with (len f + 1 * 8) by lia. rewrite Z.div_add by lia. reflexivity.
  - intros LT. assert (Q0 : len pre = 0).
    { destruct S as [? ? ? ? ? ? ? [(-> & _)|(h1 & H1 & HP & C1 & R1 & Z1 & C & TT)]]; [reflexivity|]. exfalso. revert EB. unfold writeBlock.
      destruct (65535 <? etype e); [discriminate|]. destruct (65535 * blockSize <? len (edata e)); [discriminate|].
      destruct G2 as (_ & _ & _ & G2). rewrite Z.mod_small by lia. replace (65535 <? etime e - last w) with false by lia. intros EB.
      apply (f_equal (fun r => match r with Ok x => snd x | _ => 0 end)) in EB. cbn [snd] in EB. rewrite HP in EB. discriminate EB. }
    rewrite Q0. change (0 / 8) with 0. rewrite !Z.add_0_r. reflexivity.
Qed.

(** C434: the listeners should get the place where the event is in the file.  When there is a longer pause before the event (more
    than 65535 seconds; also the first event of each file), they get the place of the block before it *)
Theorem evlog_live_offset_refuted : forall l f w e pad, Forall padok (map snd l) -> padok pad -> goods 0 (map fst l ++ [e]) -> writes l fresh = Ok (f, w) ->
  65535 < etime e - last w ->
  exists f' w' x o, sendUpdate f w e pad = Ok (f', w', x, o) /\ place x = o - 1.
Proof.
  intros l f w e pad P PE G E LT. destruct (goods_app _ _ _ G) as (G1 & G2 & _).
  pose proof (writes_last _ _ _ _ E) as LW. change (last fresh) with 0 in LW. rewrite <- LW in G2.
  assert (M : len f mod 8 = 0) by exact (writes_mod l fresh f w fresh_ok P G1 E).
  destruct G2 as (T & _ & LL & TT). unfold sendUpdate, writeBlock, blockSize.
  replace (65535 <? etype e) with false by lia. replace (65535 * 8 <? len (edata e)) with false by lia.
  rewrite (Z.mod_small (etime e - last w)) by lia. replace (65535 <? etime e - last w) with true by lia.
  cbn [obind]. do 4 eexists. split; [reflexivity|]. cbn [place fst snd]. rewrite Z.add_simpl_r.
  change (len (put_header _) / 8) with 1. pose proof (Z.div_mod (len f) 8). pose proof (Z.div_mod (len f + 1) 8). pose proof (Z.mod_pos_bound (len f + 1) 8). lia.
Qed.

(** C435: readRecord should give the data of the event and its size.  It gives one byte for each block of 8 *)
Theorem evlog_read_refuted : forall l f w e pad n, Forall padok (map snd l) -> padok pad -> goods 0 (map fst l ++ [e]) -> writes l fresh = Ok (f, w) ->
  exists f' w' x o, sendUpdate f w e pad = Ok (f', w', x, o)
    /\ (len (edata e) <= n -> exists d, readRecord f' o n (etype e) = Ok (d, (len (edata e) + 7) / 8) /\ d = firstn (Z.to_nat ((len (edata e) + 7) / 8)) (edata e)).
Proof.
  intros l f w e pad n P PE G E. destruct (goods_app _ _ _ G) as (G1 & G2 & _).
  destruct (writes_go l fresh 0 fresh_ok P G1) as (f1 & w1 & E1 & W1 & B1 & R). rewrite E in E1. injection E1 as <- <-.
  pose proof (writes_last _ _ _ _ E) as LW. change (last fresh) with 0 in LW. rewrite <- LW in G2.
  assert (M : len f mod 8 = 0) by exact (writes_mod l fresh f w fresh_ok P G1 E).
  destruct (wb_good w e pad W1 PE G2) as (pre & h & dat & EB & S).
  unfold sendUpdate. rewrite EB. cbn [obind last]. do 4 eexists. split; [reflexivity|]. intros L.
  replace (len f + len (pre ++ put_header h ++ dat) - len (pre ++ put_header h ++ dat)) with (len f) by lia.
  assert (Q : len pre = 0 \/ len pre = 8). { unfold len. destruct (pre_len _ _ _ _ _ _ S) as [->| ->]; auto. }
  assert (SK : skipn (Z.to_nat ((len f / blockSize + len pre / 8) * blockSize)) (f ++ pre ++ put_header h ++ dat) = put_header h ++ dat).
  { replace (Z.to_nat ((len f / blockSize + len pre / 8) * blockSize)) with (length (f ++ pre)).
    - rewrite app_assoc, skipn_app, skipn_all, Nat.sub_diag. reflexivity.
    - rewrite app_length. unfold blockSize. pose proof (Z.div_mod (len f) 8). unfold len in *. destruct Q as [Q|Q]; rewrite Q; [change (0 / 8) with 0|change (8 / 8) with 1]; lia. }
  unfold readRecord. rewrite SK. pose proof (s_hok _ _ _ _ _ _ S) as (H1 & H2 & H3 & H4).
  pose proof (s_ty _ _ _ _ _ _ S) as ST. pose proof (s_len _ _ _ _ _ _ S) as SL. pose proof (shape_len _ _ _ _ _ _ S) as DL. destruct (s_data _ _ _ _ _ _ S) as (p & ED & LP).
  destruct h as [c ty sz tm]. unfold put_header. cbn [checksum recordType recordSize timeadv le16 app] in *. rewrite !un_le by assumption.
  rewrite ST, Z.eqb_refl. cbn [negb]. assert (SZ : sz = (len (edata e) + 7) / 8).
  { pose proof (Z.div_mod (len (edata e) + 7) 8). pose proof (Z.mod_pos_bound (len (edata e) + 7) 8). subst dat. rewrite len_app in SL. pose proof (len_nonneg _ p). lia. }
  rewrite <- SZ. assert (LL : sz <= len (edata e)).
  { pose proof (len_nonneg _ (edata e)). rewrite SZ. apply Z.lt_succ_r. apply Z.div_lt_upper_bound; lia. }
  eexists. split; [reflexivity|]. destruct (sz <? n) eqn:EN.
  - subst dat. rewrite firstn_app. replace (_ - length (edata e))%nat with O by (unfold len in *; lia). rewrite firstn_O, app_nil_r. reflexivity.
  - assert (n = sz) as -> by lia. subst dat. rewrite firstn_app. replace (_ - length (edata e))%nat with O by (unfold len in *; lia). rewrite firstn_O, app_nil_r. reflexivity.
Qed.

(** C436: "when timestamp is less than timestamp of the previous event, exception is thrown": it is written, and it is read back
    2^32 seconds later *)
Theorem evlog_back_refuted : forall l f w e pad, Forall padok (map snd l) -> padok pad -> goods 0 (map fst l) -> writes l fresh = Ok (f, w) ->
  0 <= etype e < 65535 -> bytes (edata e) -> len (edata e) <= 524280 -> etime e < last w <= etime e + 2 ^ 32 ->
  exists f' w' x o ds y, sendUpdate f w e pad = Ok (f', w', x, o)
    /\ fst (open_ f') = ds ++ [y] /\ Forall2 shows (map fst l) ds /\ shows (later (2 ^ 32) e) y.
Proof.
  intros l f w e pad P PE G1 E HT HB HL TT.
  destruct (writes_go l fresh 0 fresh_ok P G1) as (f1 & w1 & E1 & W1 & B1 & R). rewrite E in E1. injection E1 as <- <-.
  destruct (wb_shape w (etype e) (edata e) (etime e) pad W1 PE HT HB HL) as (pre & h & dat & EB & S).
  replace ((etime e - last w) mod 2 ^ 32) with (etime e - last w + 2 ^ 32) in S.
  2:{ replace (etime e - last w) with (etime e - last w + 2 ^ 32 + (-1) * 2 ^ 32) at 2 by lia. rewrite Z_mod_plus_full, Z.mod_small by lia. reflexivity. }
  destruct (R 0) as (ds & RG & F). rewrite later0 in F. change (cs fresh) with initialChecksum in RG. change (last fresh + 0) with 0 in RG. rewrite Z.add_0_r, Z.add_0_l in RG.
  pose proof (go_event _ _ _ _ _ _ [] (len f) (last w) S ltac:(intros b [])) as GE. rewrite app_nil_r, go_nil in GE.
  destruct (go_app f 0 initialChecksum 0 _ _ _ _ _ B1 (bs_out _ _ _ _ _ _ S) RG) as (_ & GA). rewrite GE in GA.
  replace (last w + (etime e - last w + 2 ^ 32)) with (etime e + 2 ^ 32) in GA by lia.
  unfold sendUpdate. rewrite EB. cbn [obind last]. do 6 eexists. split; [reflexivity|].
  split; [rewrite open_go, GA; reflexivity|]. split; [exact F|]. eapply (shape_shows w (later (2 ^ 32) e)); [|reflexivity].
  apply (shape_later _ (mkE (etype e) (edata e) (etime e))). exact S.
Qed.

(** C437: a listener that is added while events are written gets every event once and in order (the times: C438) *)
Lemma sync_later : forall l1 l2 l3 f1 w1 f2 w2 f3 w3 junk, Forall padok (map snd (l1 ++ l2 ++ l3)) -> goods 0 (map fst (l1 ++ l2 ++ l3)) ->
  writes l1 fresh = Ok (f1, w1) -> writes l2 w1 = Ok (f2, w2) -> writes l3 w2 = Ok (f3, w3) ->
  exists ds, addListenerAndSync f1 f2 f3 junk = (ds, Fin (len (f1 ++ f2 ++ f3)) (cs w3) (last w3 + junk)) /\ Forall2 shows (map (later junk) (map fst (l1 ++ l2 ++ l3))) ds.
Proof.
  intros l1 l2 l3 f1 w1 f2 w2 f3 w3 junk P G E1 E2 E3. rewrite !map_app in *. apply Forall_app in P as (P1 & P). apply Forall_app in P as (P2 & P3).
  destruct (goods_app _ _ _ G) as (G1 & G'). destruct (goods_app _ _ _ G') as (G2 & G3).
  pose proof (writes_last _ _ _ _ E1) as L1. change (last fresh) with 0 in L1. rewrite <- L1 in *.
  pose proof (writes_last _ _ _ _ E2) as L2. rewrite <- L2 in *.
  destruct (writes_go l1 fresh junk fresh_ok P1 G1) as (x & y & Q & W1 & B1 & R1). rewrite E1 in Q. injection Q as <- <-.
  destruct (writes_go l2 w1 junk W1 P2 G2) as (x & y & Q & W2 & B2 & R2). rewrite E2 in Q. injection Q as <- <-.
  destruct (writes_go l3 w2 junk W2 P3 G3) as (x & y & Q & W3 & B3 & R3). rewrite E3 in Q. injection Q as <- <-.
  destruct (R1 0) as (d1 & D1 & F1). destruct (R2 (len f1)) as (d2 & D2 & F2). destruct (R3 (len f1 + len f2)) as (d3 & D3 & F3).
  unfold addListenerAndSync. unfold go in D1. rewrite !Z.add_0_l in D1. change (cs fresh) with initialChecksum in D1. change (last fresh + junk) with junk in D1. rewrite D1.
  replace (skipn (Z.to_nat (len f1)) (f1 ++ f2)) with f2.
  2:{ unfold len. rewrite Nat2Z.id, skipn_app, skipn_all, Nat.sub_diag. reflexivity. }
  rewrite len_app. unfold go in D2. rewrite D2.
  replace (skipn (Z.to_nat (len f1 + len f2)) (f1 ++ f2 ++ f3)) with f3.
  2:{ unfold len. replace (Z.to_nat (Z.of_nat (length f1) + Z.of_nat (length f2))) with (length (f1 ++ f2)) by (rewrite app_length; lia). rewrite app_assoc, skipn_app, skipn_all, Nat.sub_diag. reflexivity. }
  rewrite !len_app, !Z.add_assoc. unfold go in D3. rewrite D3. eexists. split; [reflexivity|]. rewrite ?map_app. apply Forall2_app; [exact F1|]. apply Forall2_app; assumption.
Qed.
Theorem evlog_sync : forall l1 l2 l3 f1 w1 f2 w2 f3 w3 junk, Forall padok (map snd (l1 ++ l2 ++ l3)) -> goods 0 (map fst (l1 ++ l2 ++ l3)) ->
  writes l1 fresh = Ok (f1, w1) -> writes l2 w1 = Ok (f2, w2) -> writes l3 w2 = Ok (f3, w3) ->
  exists ds c t, addListenerAndSync f1 f2 f3 junk = (ds, Fin (len (f1 ++ f2 ++ f3)) c t)
    /\ Forall2 (fun e x => exists d, shows (later d e) x) (map fst (l1 ++ l2 ++ l3)) ds.
Proof.
  intros. destruct (sync_later l1 l2 l3 f1 w1 f2 w2 f3 w3 junk) as (ds & D & F); auto. exists ds. do 2 eexists. split; [exact D|].
  clear - F. revert ds F. generalize (map fst (l1 ++ l2 ++ l3)). induction l as [|e l IH]; intros ds F; inversion F; subst; constructor; eauto.
Qed.
(** C438: the times it gets are right only when the memory of the local variable happened to be zero *)
Theorem evlog_sync_time_refuted : forall l f w junk, Forall padok (map snd l) -> goods 0 (map fst l) -> writes l fresh = Ok (f, w) ->
  exists ds, fst (addListenerAndSync f [] [] junk) = ds /\ Forall2 shows (map (later junk) (map fst l)) ds.
Proof.
  intros l f w junk P G E. destruct (sync_later l [] [] f w [] w [] w junk) as (ds & D & F); try rewrite !app_nil_r in *; auto. exists ds. rewrite D. auto.
Qed.

(** C439: an old log should give the same events as the file gave.  The blocks that advance the time are given as events of the
    type 0xFFFF, too: each log begins with one *)
Theorem evlog_other_refuted : forall e pad, padok pad -> good 0 e -> 65535 < etime e ->
  exists f w, writes [(e, pad)] fresh = Ok (f, w)
    /\ (exists ds, fst (open_ f) = ds /\ Forall2 shows [e] ds)
    /\ (exists x y, fst (rescanOther (length f) f initialChecksum 0) = [x; y] /\ snd x = [] /\ snd (fst x) = 65535 /\ shows e y).
Proof.
  intros e pad P G T. destruct (evlog_roundtrip [(e, pad)]) as (f & w & ds & E & D & F); [cbn; constructor; [exact P|constructor]|split; [exact G|exact I]|].
  exists f, w. split; [exact E|]. split; [exists ds; rewrite D; auto|].
  destruct (wb_good fresh e pad fresh_ok P G) as (pre & h & dat & EB & S). cbn [writes] in E. rewrite EB in E. cbn [obind fst snd] in E.
  assert (EF : f = (pre ++ put_header h ++ dat) ++ []) by congruence. rewrite app_nil_r in EF. subst f.
  change (last fresh) with 0 in S. rewrite Z.sub_0_r in S.
  pose proof (s_hok _ _ _ _ _ _ S) as HH. pose proof (s_rec _ _ _ _ _ _ S) as HR. pose proof (s_ty _ _ _ _ _ _ S) as HT. pose proof (s_len _ _ _ _ _ _ S) as HL.
  destruct (s_pre _ _ _ _ _ _ S) as [(-> & C & TT)|(h1 & H1 & -> & C1 & R1 & Z1 & C & TT)].
  - exfalso. unfold tadv in TT. rewrite HR in TT. unfold hok in HH. lia.
  - replace (length (put_header h1 ++ put_header h ++ dat)) with (Datatypes.S (Datatypes.S (14 + length dat)))%nat by (rewrite !app_length, !put_length; lia).
    change initialChecksum with (cs fresh). rewrite <- C1.
    pose proof (parse_put h1 [] (put_header h ++ dat) 0 H1) as G1. cbn [app] in G1. specialize (G1 ltac:(rewrite Z1; reflexivity)).
    pose proof (parse_put h dat [] (0 + tadv h1) HH HL) as G2. rewrite app_nil_r in G2. rewrite C in G2.
    assert (NE : forall (A : Type) (a b : A), match put_header h1 ++ put_header h ++ dat with [] => a | _ => b end = b) by reflexivity.
    assert (NE2 : forall (A : Type) (a b : A), match put_header h ++ dat with [] => a | _ => b end = b) by reflexivity.
    cbn [rescanOther]. rewrite NE, G1. rewrite NE2, G2. cbn [rescanOther fst]. do 2 eexists. split; [destruct (14 + length dat)%nat; reflexivity|]. cbn [snd fst].
    split; [reflexivity|]. split; [unfold isrec in R1; lia|]. rewrite HT. rewrite <- (Z.add_0_l (etime e)) in TT. eapply shape_shows; [exact S|]. lia.
Qed.

(** C440: a scan that begins where an event was written, with the time of the event before it, gives the events from there *)
Theorem evlog_range : forall l1 l2 f1 w1 f2 w2 junk, Forall padok (map snd (l1 ++ l2)) -> goods 0 (map fst (l1 ++ l2)) -> l2 <> [] ->
  writes l1 fresh = Ok (f1, w1) -> writes l2 w1 = Ok (f2, w2) ->
  forall f3, bs f3 ->
  exists ds, rescanRange (f1 ++ f2 ++ f3) (len f1 / 8) ((len f1 + len f2) / 8) (last w1) junk = (ds, Fin (len f1 + len f2) (cs w2) (last w2))
    /\ Forall2 shows (map fst l2) ds.
Proof.
  intros l1 l2 f1 w1 f2 w2 junk P G N E1 E2 f3 B3. rewrite !map_app in *. apply Forall_app in P as (P1 & P2). destruct (goods_app _ _ _ G) as (G1 & G2).
  pose proof (writes_last _ _ _ _ E1) as L1. change (last fresh) with 0 in L1. rewrite <- L1 in *.
  destruct (writes_go l1 fresh 0 fresh_ok P1 G1) as (x & y & Q & W1 & B1 & _). rewrite E1 in Q. injection Q as <- <-.
  destruct (writes_go l2 w1 0 W1 P2 G2) as (x & y & Q & W2 & B2 & R2). rewrite E2 in Q. injection Q as <- <-.
  destruct (R2 (len f1)) as (ds & D & F). rewrite later0 in F. rewrite !Z.add_0_r in D. exists ds. split; [|exact F].
  pose proof (writes_mod l1 fresh f1 w1 fresh_ok P1 G1 E1) as M1. pose proof (writes_mod l2 w1 f2 w2 W1 P2 G2 E2) as M2.
  pose proof (Z.div_mod (len f1) 8). pose proof (Z.div_mod (len f1 + len f2) 8). rewrite Z.add_mod, M1, M2 in * by lia. change ((0 + 0) mod 8) with 0 in *.
  unfold rescanRange, blockSize. replace (len f1 / 8 * 8) with (len f1) by lia. replace ((len f1 + len f2) / 8 * 8) with (len f1 + len f2) by lia.
  unfold len at 1. rewrite Nat2Z.id, skipn_app, skipn_all, Nat.sub_diag. cbn [app skipn].
  destruct (writes_head l2 w1 f2 w2 W1 P2 G2 N E2) as (h & rest & EF & HH & C).
  assert (0 < len f2). { subst f2. rewrite len_app. pose proof (len_nonneg _ rest). assert (LP : len (put_header h) = 8) by reflexivity. lia. }
  pose proof (len_nonneg _ f1). replace (len f1 + len f2 =? 0) with false by lia.
  subst f2. rewrite <- (app_assoc (put_header h)). rewrite rescan_noinit by (auto; lia). rewrite C.
  rewrite (app_assoc (put_header h) rest f3).
  apply go_to; [rewrite !app_length; lia|assumption|exact D].
Qed.
Print Assumptions evlog_roundtrip.
Print Assumptions evlog_crash.
Print Assumptions evlog_corrupt.
Print Assumptions evlog_offset.
Print Assumptions evlog_live_offset_refuted.
Print Assumptions evlog_read_refuted.
Print Assumptions evlog_back_refuted.
Print Assumptions evlog_sync.
Print Assumptions evlog_sync_time_refuted.
Print Assumptions evlog_other_refuted.
Print Assumptions evlog_range.

(** *** Examples *)
Definition pd : nat -> Z := fun i => 170 + Z.of_nat (Nat.min i 9).
Definition ev1 := mkE 7 [1; 2; 3] 1700000000.
Definition ev2 := mkE 9 [] 1700000005.
Definition ev3 := mkE 7 [9; 8; 7; 6; 5; 4; 3; 2; 1] 1700100000.
Definition evs := [(ev1, pd); (ev2, pd); (ev3, pd)].
Lemma pd_ok : padok pd.
Proof. intros i. unfold pd. lia. Qed.
Example evs_good : Forall padok (map snd evs) /\ goods 0 (map fst evs).
Proof.
  split; [repeat constructor; apply pd_ok|]. unfold evs, goods, good, bytes, ev1, ev2, ev3, len. cbn [map fst etype edata etime length].
  repeat split; try lia; repeat constructor; lia.
Qed.
Definition evfile : list Z := match writes evs fresh with Ok (f, _) => f | _ => [] end.
Example evs_file : length evfile = 64%nat /\ map place (fst (open_ evfile)) = [1; 3; 5] /\ map (fun x => snd (fst (fst x))) (fst (open_ evfile)) = [1700000000; 1700000005; 1700100000].
Proof. vm_compute. repeat split. Qed.
(** cut in the data of the last record; cut behind the time block of the last record *)
Example evs_cut : map (fun x => snd (fst x)) (fst (open_ (firstn 60 evfile))) = [7; 9] /\ snd (open_ (firstn 60 evfile)) = Short
  /\ snd (open_ (firstn 40 evfile)) = Fin 40 44300 1700065541.
Proof. vm_compute. repeat split. Qed.
Example evs_bad : open_ (upd evfile 17 99) = (firstn 0 (fst (open_ evfile)) ++ [(1, 1700000000, 7, [1; 99; 3; 170; 171; 172; 173; 174])], BadSum).
Proof. vm_compute. reflexivity. Qed.
(** the listener gets place 0 and not 1; reading the record gives one byte of three, and the size 1 *)
Example ev1_live : match sendUpdate [] fresh ev1 pd with Ok (f, _, x, o) => place x = 0 /\ o = 1 /\ readRecord f o 100 7 = Ok ([1], 1) | _ => False end.
Proof. vm_compute. repeat split. Qed.
