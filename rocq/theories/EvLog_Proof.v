(** Lemmas about the journal *)
From Verif Require Import Common EvLog_Spec EvLog_Model.
From Coq Require Import ZifyBool.
Open Scope Z_scope.

Lemma len_app : forall A (a b : list A), len (a ++ b) = len a + len b.
Proof. intros. unfold len. rewrite app_length. lia. Qed.
Lemma len_nonneg : forall A (a : list A), 0 <= len a.
Proof. intros. unfold len. lia. Qed.
Lemma len_nil : forall A, len (@nil A) = 0. Proof. reflexivity. Qed.
Lemma un_le : forall v, 0 <= v < 65536 -> un16 (v mod 256) (v / 256 mod 256) = v.
Proof. intros v H. unfold un16. rewrite (Z.mod_small (v / 256)) by (split; [apply Z.div_pos|apply Z.div_lt_upper_bound]; lia).
  pose proof (Z.div_mod v 256). lia. Qed.
Lemma add16_range : forall a b, 0 <= add16 a b < 65536.
Proof. intros. unfold add16. apply Z.mod_pos_bound. lia. Qed.
Lemma upd_sum : forall l c, 0 <= c < 65536 -> updateChecksum l c = (c + fold_right Z.add 0 l) mod 65536.
Proof. unfold updateChecksum. induction l as [|b l IH]; intros c H; cbn [fold_left fold_right]. { rewrite Z.add_0_r, Z.mod_small; lia. }
  rewrite IH by (apply Z.mod_pos_bound; lia). rewrite Zplus_mod_idemp_l. f_equal. lia. Qed.
Lemma upd_range : forall l c, 0 <= c < 65536 -> 0 <= updateChecksum l c < 65536.
Proof. intros. rewrite upd_sum by assumption. apply Z.mod_pos_bound. lia. Qed.
Lemma upd_app : forall a b c, updateChecksum (a ++ b) c = updateChecksum b (updateChecksum a c).
Proof. intros. unfold updateChecksum. apply fold_left_app. Qed.

(** *** One block *)
Definition hok (h : header) : Prop := 0 <= checksum h < 65536 /\ 0 <= recordType h < 65536 /\ 0 <= recordSize h < 65536 /\ 0 <= timeadv h < 65536.
Definition isrec (h : header) : bool := negb (recordType h =? 65535) || negb (recordSize h =? 0).
Definition csum (h : header) (data : list Z) : Z := add16 (add16 (updateChecksum data (checksum h)) (timeadv h)) (recordType h).
Definition tadv (h : header) : Z := if isrec h then timeadv h else timeadv h * 65536.

Lemma parse_put : forall h data rest time, hok h -> len data = recordSize h * 8 ->
  parseBlock (put_header h ++ data ++ rest) (checksum h) time false
  = Block h data (csum h data) (time + tadv h) (8 + recordSize h * 8) rest.
Proof.
  intros [c ty sz tm] data rest time (Hc & Ht & Hs & Hm) Hd. cbn [checksum recordType recordSize timeadv] in *.
  unfold parseBlock, put_header, csum, tadv, isrec. cbn [le16 app checksum recordType recordSize timeadv].
  rewrite !un_le by assumption. rewrite Z.eqb_refl. cbn [negb andb].
  unfold blockSize. pose proof (len_nonneg _ rest).
  destruct ((ty =? 65535) && (sz =? 0)) eqn:E.
  - assert (ty = 65535 /\ sz = 0) as (-> & ->) by lia. change (0 * 8) with 0 in *. destruct data; [|unfold len in Hd; cbn in Hd; lia].
    cbn [app]. rewrite Z.shiftl_mul_pow2 by lia. reflexivity.
  - replace (negb (ty =? 65535) || negb (sz =? 0))%bool with true by lia.
    rewrite len_app. replace (len data + len rest <? sz * 8) with false by lia.
    replace (Z.to_nat (sz * 8)) with (length data) by (unfold len in Hd; lia).
    rewrite firstn_app, Nat.sub_diag, firstn_O, app_nil_r, firstn_all, skipn_app, skipn_all, Nat.sub_diag. reflexivity.
Qed.
Lemma parse_bad : forall h rest c time, hok h -> checksum h <> c -> parseBlock (put_header h ++ rest) c time false = PBadSum.
Proof.
  intros [c0 ty sz tm] rest c time (Hc & Ht & Hs & Hm) Hd. cbn [checksum recordType recordSize timeadv] in *.
  unfold parseBlock, put_header. cbn [le16 app checksum recordType recordSize timeadv].
  rewrite !un_le by assumption. replace (c0 =? c) with false by lia. reflexivity.
Qed.
(** the input ends inside of the block *)
Lemma parse_cut : forall h data n time, hok h -> len data = recordSize h * 8 -> (n < 8 + length data)%nat ->
  parseBlock (firstn n (put_header h ++ data)) (checksum h) time false = PShort.
Proof.
  intros [c ty sz tm] data n time (Hc & Ht & Hs & Hm) Hd Hn. cbn [checksum recordType recordSize timeadv] in *.
  unfold put_header. cbn [le16 app checksum recordType recordSize timeadv].
  do 8 (destruct n as [|n]; [reflexivity|]). cbn [firstn]. unfold parseBlock. rewrite !un_le by assumption.
  cbn [checksum recordType recordSize timeadv]. rewrite Z.eqb_refl. cbn [negb andb].
  destruct ((ty =? 65535) && (sz =? 0)) eqn:E. { unfold len in Hd. lia. }
  unfold blockSize, len. rewrite firstn_length. replace (Z.of_nat (Nat.min n (length data)) <? sz * 8) with true; [reflexivity|].
  unfold len in Hd. lia.
Qed.
Lemma put_length : forall h, length (put_header h) = 8%nat. Proof. reflexivity. Qed.

Lemma Block_inj : forall h d c t a r h' d' c' t' a' r', Block h d c t a r = Block h' d' c' t' a' r' ->
  h = h' /\ d = d' /\ c = c' /\ t = t' /\ a = a' /\ r = r'.
Proof. intros. injection H as -> -> -> -> -> ->. auto 10. Qed.
(** *** rescan *)
Lemma parse_adv : forall input c t n h data c1 t1 adv rest, parseBlock input c t n = Block h data c1 t1 adv rest ->
  (forall b, In b input -> 0 <= b) -> adv = len input - len rest /\ 8 <= adv /\ (forall b, In b rest -> 0 <= b).
Proof.
  intros input c t n h data c1 t1 adv rest H P.
  do 8 (destruct input as [|?x input]; [discriminate H|]). unfold parseBlock in H.
  set (hh := mkH _ _ _ _) in H.
  destruct (negb (checksum hh =? c) && negb n); [discriminate|].
  destruct ((recordType hh =? 65535) && (recordSize hh =? 0)) eqn:E.
  - apply Block_inj in H as (<- & <- & <- & <- & <- & <-). split; [unfold len; cbn [length]; lia|split; [lia|]]. intros b Hb. apply P. do 8 right. exact Hb.
  - destruct (len input <? recordSize hh * blockSize) eqn:L; [discriminate|]. apply Block_inj in H as (<- & <- & <- & <- & <- & <-).
    assert (0 <= recordSize hh).
    { assert (0 <= x3) by (apply P; cbn; tauto). assert (0 <= x4) by (apply P; cbn; tauto). subst hh. cbn [recordSize]. unfold un16. lia. }
    unfold blockSize in *. split; [|split].
    + unfold len in *. rewrite skipn_length. cbn [length]. lia.
    + lia.
    + intros b Hb. apply P. do 8 right. revert Hb. generalize (Z.to_nat (recordSize hh * 8)). clear. intros n. revert input.
      induction n; intros [|y l]; cbn; auto.
Qed.
(** enough fuel: one step for each block that is left *)
Lemma rescan_fuel : forall fuel input ofs to c t n fuel', (forall b, In b input -> 0 <= b) -> to - ofs <= Z.of_nat fuel -> (fuel <= fuel')%nat ->
  rescan fuel' input ofs to c t n = rescan fuel input ofs to c t n.
Proof.
  induction fuel as [|fuel IH]; intros input ofs to c t n fuel' P L LE.
  - destruct fuel'; cbn [rescan]; replace (ofs <? to) with false by lia; reflexivity.
  - destruct fuel' as [|fuel']; [lia|]. cbn [rescan]. destruct (ofs <? to); [|reflexivity].
    destruct (parseBlock input c t n) eqn:E; try reflexivity. destruct (parse_adv _ _ _ _ _ _ _ _ _ _ E P) as (-> & A & Q).
    rewrite (IH rest _ to _ _ false fuel') by (auto; lia). reflexivity.
Qed.
Definition shift (k : Z) (r : fin) := match r with Fin o c t => Fin (o + k) c t | x => x end.

(** the part of the file before the place only matters by the state *)
Definition go (input : list Z) (ofs c t : Z) : list delivery * fin := rescan (length input) input ofs (ofs + len input) c t false.
Definition bs (l : list Z) : Prop := forall b, In b l -> 0 <= b.
Lemma go_fuel : forall input ofs c t fuel, bs input -> (length input <= fuel)%nat ->
  rescan fuel input ofs (ofs + len input) c t false = go input ofs c t.
Proof. intros. unfold go. apply rescan_fuel; auto. unfold len. lia. Qed.
Lemma go_nil : forall ofs c t, go [] ofs c t = ([], Fin ofs c t).
Proof. intros. unfold go. rewrite len_nil, Z.add_0_r. cbn [length rescan]. rewrite Z.ltb_irrefl. reflexivity. Qed.
Lemma bs_app : forall a b, bs a -> bs b -> bs (a ++ b).
Proof. intros a b A B x Hx. apply in_app_or in Hx as [Hx|Hx]; auto. Qed.
Lemma bs_put : forall h, hok h -> bs (put_header h).
Proof. intros h _ b Hb. unfold put_header, le16 in Hb. cbn in Hb. repeat destruct Hb as [<-|Hb]; try apply Z.mod_pos_bound; lia. Qed.

Lemma go_block : forall h data rest ofs t, hok h -> len data = recordSize h * 8 -> bs data -> bs rest ->
  go (put_header h ++ data ++ rest) ofs (checksum h) t
  = let '(ds, r) := go rest (ofs + 8 + len data) (csum h data) (t + tadv h) in
    (if isrec h then (ofs / 8, t + tadv h, recordType h, data) :: ds else ds, r).
Proof.
  intros h data rest ofs t H Hd B1 B2. unfold go at 1.
  replace (length (put_header h ++ data ++ rest)) with (S (7 + length data + length rest)) by (rewrite !app_length, put_length; lia).
  cbn [rescan]. pose proof (len_nonneg _ data). pose proof (len_nonneg _ rest).
  assert (LP : len (put_header h) = 8) by reflexivity.
  replace (ofs <? ofs + len (put_header h ++ data ++ rest)) with true by (rewrite !len_app; lia).
  rewrite parse_put by assumption.
  replace (ofs + len (put_header h ++ data ++ rest)) with ((ofs + 8 + len data) + len rest) by (rewrite !len_app; lia).
  replace (ofs + (8 + recordSize h * 8)) with (ofs + 8 + len data) by lia.
  rewrite go_fuel by (auto; lia). reflexivity.
Qed.
Lemma go_bad : forall h rest ofs c t, hok h -> checksum h <> c -> go (put_header h ++ rest) ofs c t = ([], BadSum).
Proof.
  intros h rest ofs c t H Hc. unfold go. rewrite app_length, put_length. cbn [Nat.add rescan].
  assert (LP : len (put_header h) = 8) by reflexivity. pose proof (len_nonneg _ rest).
  replace (ofs <? ofs + len (put_header h ++ rest)) with true by (rewrite !len_app; lia). rewrite parse_bad by assumption. reflexivity.
Qed.
Lemma go_cut : forall h data n ofs t, hok h -> len data = recordSize h * 8 -> (0 < n < 8 + length data)%nat ->
  go (firstn n (put_header h ++ data)) ofs (checksum h) t = ([], Short).
Proof.
  intros h data n ofs t H Hd Hn. unfold go.
  assert (L : length (firstn n (put_header h ++ data)) = n) by (rewrite firstn_length, app_length, put_length; lia).
  unfold len at 1. rewrite L. destruct n as [|n]; [lia|]. cbn [rescan]. replace (ofs <? ofs + Z.of_nat (S n)) with true by lia.
  rewrite parse_cut by (auto; lia). reflexivity.
Qed.
(** a part that is read up to its end, then the rest *)
Lemma parse_app : forall a c t n h data c1 t1 adv rest b, parseBlock a c t n = Block h data c1 t1 adv rest -> bs a ->
  parseBlock (a ++ b) c t n = Block h data c1 t1 adv (rest ++ b).
Proof.
  intros a c t n h data c1 t1 adv rest b H P.
  do 8 (destruct a as [|?x a]; [discriminate H|]). cbn [app]. unfold parseBlock in *.
  set (hh := mkH _ _ _ _) in *.
  destruct (negb (checksum hh =? c) && negb n); [discriminate|].
  destruct ((recordType hh =? 65535) && (recordSize hh =? 0)) eqn:E; [apply Block_inj in H as (<- & <- & <- & <- & <- & <-); reflexivity|].
  destruct (len a <? recordSize hh * blockSize) eqn:L; [discriminate|]. apply Block_inj in H as (<- & <- & <- & <- & <- & <-).
  rewrite len_app. pose proof (len_nonneg _ b). replace (len a + len b <? _) with false by lia.
  assert ((Z.to_nat (recordSize hh * blockSize) <= length a)%nat) by (unfold len in L; lia).
  rewrite firstn_app, skipn_app. replace (_ - length a)%nat with O by lia. rewrite firstn_O, app_nil_r. reflexivity.
Qed.
Lemma go_app_n : forall n a ofs c t ds o1 c1 t1 b, (length a <= n)%nat -> bs a -> bs b -> go a ofs c t = (ds, Fin o1 c1 t1) ->
  o1 = ofs + len a /\ go (a ++ b) ofs c t = let '(d2, r) := go b o1 c1 t1 in (ds ++ d2, r).
Proof.
  induction n as [|n IH]; intros a ofs c t ds o1 c1 t1 b L A B H.
  - destruct a; [|cbn in L; lia]. rewrite go_nil in H. injection H as <- <- <- <-. rewrite len_nil. split; [lia|]. cbn [app]. destruct (go b ofs c t). reflexivity.
  - destruct a as [|x a]. { rewrite go_nil in H. injection H as <- <- <- <-. rewrite len_nil. split; [lia|]. cbn [app]. destruct (go b ofs c t). reflexivity. }
    unfold go in H. cbn [length rescan] in H. replace (ofs <? ofs + len (x :: a)) with true in H by (unfold len; cbn [length]; lia).
    destruct (parseBlock (x :: a) c t false) as [h data c2 t2 adv rest| |] eqn:E; try discriminate H.
    destruct (parse_adv _ _ _ _ _ _ _ _ _ _ E A) as (EA & AV & R). pose proof (len_nonneg _ rest).
    replace (ofs + len (x :: a)) with ((ofs + adv) + len rest) in H by lia.
    assert (LR : (length rest <= length a)%nat) by (unfold len in EA; cbn [length] in EA; lia).
    rewrite go_fuel in H by (auto; lia).
    destruct (go rest (ofs + adv) c2 t2) as [d1 r1] eqn:G. injection H as H1 ->.
    destruct (IH rest _ _ _ _ _ _ _ b ltac:(cbn in L; lia) R B G) as (-> & GA). split; [lia|].
    unfold go at 1. cbn [app length rescan]. rewrite app_comm_cons.
    replace (ofs <? ofs + len ((x :: a) ++ b)) with true by (rewrite len_app; pose proof (len_nonneg _ b); unfold len at 1; cbn [length]; lia).
    rewrite (parse_app _ _ _ _ _ _ _ _ _ _ b E A).
    replace (ofs + len ((x :: a) ++ b)) with ((ofs + adv) + len (rest ++ b)) by (rewrite !len_app; lia).
    rewrite go_fuel; [|apply bs_app; auto|rewrite !app_length; lia].
    rewrite GA. replace (ofs + adv + len rest) with (ofs + len (x :: a)) by lia.
    destruct (go b (ofs + len (x :: a)) c1 t1) as [d2 r2]. subst ds. destruct (_ || _); reflexivity.
Qed.
Lemma go_app : forall a ofs c t ds o1 c1 t1 b, bs a -> bs b -> go a ofs c t = (ds, Fin o1 c1 t1) ->
  o1 = ofs + len a /\ go (a ++ b) ofs c t = let '(d2, r) := go b o1 c1 t1 in (ds ++ d2, r).
Proof. intros. eapply go_app_n; eauto. Qed.

(** *** One event *)
Definition wok (w : wst) : Prop := 0 <= cs w < 65536.
Lemma bytes_bs : forall l, bytes l -> bs l.
Proof. intros l H b Hb. unfold bytes in H. rewrite Forall_forall in H. specialize (H b Hb). lia. Qed.
Record shape (w : wst) (e : event) (pre : list Z) (h : header) (data : list Z) (d : Z) : Prop := mkS {
  s_hok : hok h;
  s_rec : isrec h = true;
  s_ty : recordType h = etype e;
  s_len : len data = recordSize h * 8;
  s_bs : bs data;
  s_by : bytes data;
  s_data : exists p, data = edata e ++ p /\ len p < 8;
  s_pre : (pre = [] /\ checksum h = cs w /\ tadv h = d)
          \/ exists h1, hok h1 /\ pre = put_header h1 /\ checksum h1 = cs w /\ isrec h1 = false /\ recordSize h1 = 0
               /\ checksum h = csum h1 [] /\ tadv h1 + tadv h = d }.
(** an event that fits, at any time *)
Lemma wb_shape : forall w ty data tm pad, wok w -> padok pad -> 0 <= ty < 65535 -> bytes data -> len data <= 524280 ->
  exists pre h dat, writeBlock ty data tm pad w = Ok (pre ++ put_header h ++ dat, mkW (csum h dat) tm, len pre / 8)
    /\ shape w (mkE ty data tm) pre h dat ((tm - last w) mod 2 ^ 32).
Proof.
  intros w ty data tm pad W P HT HB HL. unfold writeBlock, blockSize.
  replace (65535 <? ty) with false by lia. replace (65535 * 8 <? len data) with false by lia.
  set (td := (tm - last w) mod 2 ^ 64). assert (TD : 0 <= td < 2 ^ 64) by (apply Z.mod_pos_bound; lia).
  assert (TM : (tm - last w) mod 2 ^ 32 = td mod 2 ^ 32).
  { unfold td. change (2 ^ 64) with (2 ^ 32 * 2 ^ 32). rewrite Z.rem_mul_r by lia.
    rewrite <- Zplus_mod_idemp_r. rewrite (Z.mul_comm (2 ^ 32)), Z_mod_mult, Z.add_0_r, Z.mod_mod by lia. reflexivity. }
  rewrite TM. clearbody td. clear TM.
  assert (SPL : td mod 2 ^ 32 = Z.shiftr td 16 mod 65536 * 65536 + td mod 65536).
  { rewrite Z.shiftr_div_pow2 by lia. change (2 ^ 16) with 65536. change (2 ^ 32) with (65536 * 65536). rewrite Z.rem_mul_r by lia. lia. }
  pose proof (len_nonneg _ data) as LN.
  set (n := (len data + 8 - 1) / 8).
  assert (N : 0 <= n < 65536 /\ 0 <= n * 8 - len data < 8).
  { unfold n. pose proof (Z.div_mod (len data + 8 - 1) 8). pose proof (Z.mod_pos_bound (len data + 8 - 1) 8). lia. }
  rewrite (Z.mod_small n) by lia. rewrite (Z.mod_small ty) by lia. cbn [recordSize timeadv recordType].
  set (padding := map pad (seq 0 (Z.to_nat (n * 8 - len data)))).
  assert (PL : len padding = n * 8 - len data) by (unfold padding, len in *; rewrite map_length, seq_length; lia).
  assert (PB : bs padding). { intros b Hb. apply in_map_iff in Hb as (i & <- & _). specialize (P i). lia. }
  assert (PY : bytes padding). { apply Forall_forall. intros b Hb. apply in_map_iff in Hb as (i & <- & _). apply P. }
  clearbody padding. set (hi := Z.shiftr td 16 mod 65536) in *. assert (HI : 0 <= hi < 65536) by (apply Z.mod_pos_bound; lia).
  set (lo := td mod 65536) in *. assert (LO : 0 <= lo < 65536) by (apply Z.mod_pos_bound; lia). 
  assert (SM : 65535 <? td = false -> hi = 0).
  { intros Q. unfold hi. rewrite Z.shiftr_div_pow2 by lia. rewrite Z.div_small; [reflexivity|]. change (2 ^ 16) with 65536. lia. }
  clearbody hi lo n.
  destruct (65535 <? td) eqn:E.
  - exists (put_header (mkH (cs w) 65535 0 hi)), (mkH (add16 (add16 (cs w) hi) 65535) ty n lo), (data ++ padding). split.
    + unfold csum. cbn [checksum timeadv recordType]. rewrite upd_app. reflexivity.
    + split; cbn [recordType recordSize checksum timeadv etype edata etime].
      * split; [apply add16_range|cbn; lia].
      * unfold isrec. cbn [recordType recordSize]. lia.
      * reflexivity.
      * rewrite len_app. lia.
      * apply bs_app; [apply bytes_bs; assumption|assumption].
      * apply Forall_app. split; assumption.
      * exists padding. split; [reflexivity|lia].
      * right. exists (mkH (cs w) 65535 0 hi). unfold tadv, isrec, hok. cbn [checksum recordType recordSize timeadv].
        unfold wok in W. repeat split; try lia.
        replace (negb (ty =? 65535) || negb (n =? 0))%bool with true by lia. change (hi * 65536 + lo = td mod 2 ^ 32). symmetry. exact SPL.
  - specialize (SM eq_refl). exists [], (mkH (cs w) ty n lo), (data ++ padding). split.
    + unfold csum. cbn [checksum timeadv recordType app]. rewrite upd_app. reflexivity.
    + split; cbn [recordType recordSize checksum timeadv etype edata etime].
      * unfold hok. unfold wok in W. cbn [checksum recordType recordSize timeadv]. lia.
      * unfold isrec. cbn [recordType recordSize]. lia.
      * reflexivity.
      * rewrite len_app. lia.
      * apply bs_app; [apply bytes_bs; assumption|assumption].
      * apply Forall_app. split; assumption.
      * exists padding. split; [reflexivity|lia].
      * left. unfold tadv, isrec. cbn [recordType recordSize timeadv].
        replace (negb (ty =? 65535) || negb (n =? 0))%bool with true by lia. split; [reflexivity|split; [reflexivity|lia]].
Qed.
Lemma csum_range : forall h d, 0 <= csum h d < 65536. Proof. intros. apply add16_range. Qed.
Lemma pre_len : forall w e pre h data d, shape w e pre h data d -> (pre = [] \/ length pre = 8%nat).
Proof. intros w e pre h data d S. destruct (s_pre _ _ _ _ _ _ S) as [(-> & _)|(h1 & _ & -> & _)]; auto. Qed.
Lemma bs_out : forall w e pre h data d, shape w e pre h data d -> bs (pre ++ put_header h ++ data).
Proof.
  intros w e pre h data d S. apply bs_app; [|apply bs_app; [apply bs_put|]; apply S].
  destruct (s_pre _ _ _ _ _ _ S) as [(-> & _)|(h1 & ? & -> & _)]; [intros b []|apply bs_put; assumption].
Qed.
(** reading it back *)
Lemma go_event : forall w e pre h data d rest ofs t, shape w e pre h data d -> bs rest ->
  go ((pre ++ put_header h ++ data) ++ rest) ofs (cs w) t
  = let '(ds, r) := go rest (ofs + len (pre ++ put_header h ++ data)) (csum h data) (t + d) in
    ((((ofs + len pre) / 8, t + d), etype e, data) :: ds, r).
Proof.
  intros w e pre h data d rest ofs t S R. rewrite <- !app_assoc.
  pose proof (s_hok _ _ _ _ _ _ S) as HH. pose proof (s_rec _ _ _ _ _ _ S) as HR. pose proof (s_ty _ _ _ _ _ _ S) as HT.
  pose proof (s_len _ _ _ _ _ _ S) as HL. pose proof (s_bs _ _ _ _ _ _ S) as HB. assert (LP : forall h, len (put_header h) = 8) by reflexivity.
  destruct (s_pre _ _ _ _ _ _ S) as [(-> & C & <-)|(h1 & H1 & -> & C1 & R1 & Z1 & C & <-)].
  - cbn [app]. rewrite <- C, go_block by assumption. rewrite HR, HT, len_nil, Z.add_0_r. rewrite len_app, LP.
    replace (ofs + (8 + len data)) with (ofs + 8 + len data) by lia. reflexivity.
  - rewrite <- C1. pose proof (go_block h1 [] (put_header h ++ data ++ rest) ofs t H1) as G. cbn [app] in G. rewrite G; clear G.
    2:{ rewrite Z1, len_nil. reflexivity. } 2:{ intros b []. } 2:{ apply bs_app; [apply bs_put; assumption|apply bs_app; assumption]. }
    rewrite R1, <- C, go_block by assumption. rewrite HR, HT. rewrite !len_app, !LP, len_nil.
    replace (ofs + 8 + 0 + 8 + len data) with (ofs + (8 + (8 + len data))) by lia. rewrite Z.add_0_r. rewrite <- !Z.add_assoc.
    destruct (go rest _ _ _). reflexivity.
Qed.
(** reading a part of it *)
Lemma go_event_cut : forall w e pre h data d ofs t n, shape w e pre h data d -> (n < length (pre ++ put_header h ++ data))%nat ->
  exists r, go (firstn n (pre ++ put_header h ++ data)) ofs (cs w) t = ([], r)
    /\ (r = Short /\ n <> O /\ (n = 8%nat -> pre = []) \/ exists c t1, r = Fin (ofs + Z.of_nat n) c t1 /\ 0 <= c < 65536 /\ t <= t1 <= t + d /\ (n = O -> c = cs w /\ t1 = t)
         /\ (n = O \/ n = 8%nat)) /\ (n = O -> r = Fin ofs (cs w) t).
Proof.
  intros w e pre h data d ofs t n S L.
  pose proof (s_hok _ _ _ _ _ _ S) as HH. pose proof (s_rec _ _ _ _ _ _ S) as HR. 
  pose proof (s_len _ _ _ _ _ _ S) as HL. pose proof (s_bs _ _ _ _ _ _ S) as HB. 
  assert (TA : forall h, hok h -> 0 <= tadv h) by (intros h0 (? & ? & ? & ?); unfold tadv; destruct (isrec h0); lia).
  destruct n as [|n].
  { cbn [firstn]. rewrite go_nil. exists (Fin ofs (cs w) t). split; [reflexivity|]. split; [|reflexivity]. right. exists (cs w), t.
    rewrite Z.add_0_r. pose proof (TA h HH). 
    destruct (s_pre _ _ _ _ _ _ S) as [(-> & C & <-)|(h1 & H1 & -> & C1 & R1 & Z1 & C & <-)].
    - rewrite <- C. pose proof (proj1 HH). repeat split; auto; lia.
    - rewrite <- C1. pose proof (TA h1 H1). pose proof (proj1 H1). repeat split; auto; lia. }
  destruct (s_pre _ _ _ _ _ _ S) as [(-> & C & <-)|(h1 & H1 & -> & C1 & R1 & Z1 & C & <-)].
  - cbn [app] in *. exists Short. split; [|split; [left; auto|discriminate]]. rewrite <- C. apply go_cut; auto. rewrite app_length, put_length in L. lia.
  - destruct (le_lt_dec 8 (Datatypes.S n)) as [G|G].
    + rewrite firstn_app, (firstn_all2 (put_header h1)) by (rewrite put_length; lia). rewrite put_length.
      assert (G0 : go (put_header h1) ofs (cs w) t = ([], Fin (ofs + 8) (csum h1 []) (t + tadv h1))).
      { pose proof (go_block h1 [] [] ofs t H1) as G0. rewrite !app_nil_r in G0. rewrite <- C1, G0; [|rewrite Z1; reflexivity|intros b []|intros b []].
        rewrite go_nil, R1, len_nil, Z.add_0_r. reflexivity. }
      assert (BF : bs (firstn (Datatypes.S n - 8) (put_header h ++ data))).
      { intros b Hb. apply (bs_app (put_header h) data (bs_put h HH) HB). revert Hb. generalize (put_header h ++ data). clear. intros l. revert l. generalize (S n - 8)%nat. intros m.
        induction m as [|m IH]; intros [|y l]; cbn; intuition. }
      destruct (go_app (put_header h1) ofs (cs w) t _ _ _ _ (firstn (Datatypes.S n - 8) (put_header h ++ data)) (bs_put h1 H1) BF G0) as (_ & ->).
      destruct (Nat.eq_dec (Datatypes.S n) 8) as [Q|Q].
      * rewrite Q. change (8 - 8)%nat with O. rewrite firstn_O, go_nil. eexists. split; [reflexivity|]. split; [|discriminate]. right. do 2 eexists. split; [reflexivity|].
        pose proof (TA h HH). pose proof (TA h1 H1). split; [apply csum_range|]. split; [lia|]. split; [discriminate|auto].
      * rewrite <- C, go_cut; auto. 2:{ rewrite !app_length, !put_length in L. lia. }
        exists Short. split; [reflexivity|]. split; [left|discriminate]. repeat split; auto. lia.
    + exists Short. split; [|split; [left; repeat split; auto; lia|discriminate]]. rewrite firstn_app, put_length.
      replace (Datatypes.S n - 8)%nat with O by lia. rewrite firstn_O, app_nil_r, <- (app_nil_r (put_header h1)), <- C1. apply go_cut; auto; [rewrite Z1; reflexivity|cbn; lia].
Qed.

(** *** Many events *)
Lemma wb_good : forall w e pad, wok w -> padok pad -> good (last w) e ->
  exists pre h dat, writeBlock (etype e) (edata e) (etime e) pad w = Ok (pre ++ put_header h ++ dat, mkW (csum h dat) (etime e), len pre / 8)
    /\ shape w e pre h dat (etime e - last w).
Proof.
  intros w [ty data tm] pad W P (A & B & C & D). cbn [etype edata etime] in *.
  destruct (wb_shape w ty data tm pad W P A B C) as (pre & h & dat & E & S). exists pre, h, dat. split; [exact E|].
  rewrite Z.mod_small in S by lia. exact S.
Qed.
Lemma shape_shows : forall w e pre h dat d place t, shape w e pre h dat d -> t = etime e -> shows e (place, t, etype e, dat).
Proof.
  intros w e pre h dat d place t S ->. cbn. repeat split. destruct (s_data _ _ _ _ _ _ S) as (p & E & L). exists p. repeat split; auto.
  rewrite (s_len _ _ _ _ _ _ S). apply Z_mod_mult.
Qed.
Lemma shape_later : forall w e pre h dat d j, shape w e pre h dat d -> shape w (later j e) pre h dat d.
Proof. intros w e pre h dat d j S. destruct S. split; auto. Qed.
Lemma writes_go : forall l w j, wok w -> Forall padok (map snd l) -> goods (last w) (map fst l) ->
  exists f w', writes l w = Ok (f, w') /\ wok w' /\ bs f
    /\ forall ofs, exists ds, go f ofs (cs w) (last w + j) = (ds, Fin (ofs + len f) (cs w') (last w' + j)) /\ Forall2 shows (map (later j) (map fst l)) ds.
Proof.
  induction l as [|[e pad] l IH]; intros w j W P G.
  - exists [], w. repeat split; auto; [exact (proj1 W)|exact (proj2 W)|intros b []|]. intros ofs. exists []. rewrite go_nil, len_nil, Z.add_0_r. split; [reflexivity|constructor].
  - cbn [map fst snd goods] in *. destruct G as (G & GS). inversion P as [|? ? P1 P2]; subst.
    destruct (wb_good w e pad W P1 G) as (pre & h & dat & E & S).
    assert (W1 : wok (mkW (csum h dat) (etime e))) by apply csum_range.
    destruct (IH _ j W1 P2 GS) as (f & w' & EW & WK & B & R). cbn [cs last] in R.
    exists ((pre ++ put_header h ++ dat) ++ f), w'. cbn [writes]. rewrite E. cbn [obind fst snd]. rewrite EW. cbn [obind fst snd].
    split; [reflexivity|]. split; [assumption|]. split; [apply bs_app; [eapply bs_out; exact S|assumption]|].
    intros ofs. rewrite (go_event _ _ _ _ _ _ _ _ _ S B).
    destruct (R (ofs + len (pre ++ put_header h ++ dat))) as (ds & RG & F). replace (last w + j + (etime e - last w)) with (etime e + j) by lia.
    rewrite RG. eexists. split; [rewrite (len_app _ (pre ++ _ ++ _) f); rewrite <- Z.add_assoc; reflexivity|].
    constructor; [|exact F]. eapply (shape_shows w (later j e)); [apply shape_later; exact S|reflexivity].
Qed.
Lemma later0 : forall l, map (later 0) l = l.
Proof. induction l as [|[a b c] l IH]; cbn; [reflexivity|]. rewrite IH. unfold later. cbn. rewrite Z.add_0_r. reflexivity. Qed.
Lemma writes_app : forall a b w, writes (a ++ b) w = let! p := writes a w in let! q := writes b (snd p) in Ok (fst p ++ fst q, snd q).
Proof.
  induction a as [|[e pad] a IH]; intros b w. { cbn. destruct (writes b w) as [[]| | |]; reflexivity. }
  cbn [app writes]. destruct (writeBlock _ _ _ _ _) as [x| | |]; cbn [obind]; try reflexivity. rewrite IH.
  destruct (writes a _) as [y| | |]; cbn [obind fst snd]; try reflexivity. destruct (writes b _) as [z| | |]; cbn [obind fst snd]; try reflexivity.
  rewrite app_assoc. reflexivity.
Qed.
Lemma goods_app : forall a b t, goods t (a ++ b) -> goods t a /\ goods (fold_left (fun _ e => etime e) a t) b.
Proof. induction a as [|e a IH]; intros b t H; cbn in *; [auto|]. destruct H as (H & G). destruct (IH _ _ G). auto. Qed.
Lemma firstn_bs : forall n l, bs l -> bs (firstn n l).
Proof. intros n l H b Hb. apply H. clear H. revert l Hb. induction n as [|n IH]; intros [|y l]; cbn; intuition. Qed.

Lemma writes_cut : forall l w, wok w -> Forall padok (map snd l) -> goods (last w) (map fst l) ->
  forall f w', writes l w = Ok (f, w') -> forall n ofs, (n <= length f)%nat ->
  exists k ds r fk wk, (k <= length l)%nat /\ writes (firstn k l) w = Ok (fk, wk) /\ (length fk <= n)%nat
    /\ (k < length l -> exists fk1 wk1, writes (firstn (S k) l) w = Ok (fk1, wk1) /\ (n < length fk1)%nat)%nat
    /\ go (firstn n f) ofs (cs w) (last w) = (ds, r) /\ Forall2 shows (firstn k (map fst l)) ds
    /\ (r = Short \/ exists c t, r = Fin (ofs + Z.of_nat n) c t /\ 0 <= c < 65536
          /\ last wk <= t /\ (forall e, nth_error (map fst l) k = Some e -> t <= etime e))
    /\ (n = length fk -> r = Fin (ofs + Z.of_nat n) (cs wk) (last wk)).
Proof.
  induction l as [|[e pad] l IH]; intros w W P G f w' E n ofs L.
  - cbn in E. injection E as <- <-. cbn in L. assert (n = O) by lia. subst n.
    exists O, [], (Fin ofs (cs w) (last w)), [], w. cbn [firstn]. rewrite go_nil, Z.add_0_r.
    split; [lia|]. split; [reflexivity|]. split; [cbn; lia|]. split; [cbn; lia|]. split; [reflexivity|]. split; [constructor|].
    split; [right; exists (cs w), (last w); split; [reflexivity|]; split; [exact W|]; split; [lia|discriminate]|reflexivity].
  - cbn [map fst snd goods] in *. destruct G as (G & GS). inversion P as [|? ? P1 P2]; subst.
    destruct (wb_good w e pad W P1 G) as (pre & h & dat & EB & S).
    assert (W1 : wok (mkW (csum h dat) (etime e))) by apply csum_range.
    cbn [writes] in E. rewrite EB in E. cbn [obind fst snd] in E.
    destruct (writes l (mkW (csum h dat) (etime e))) as [[f1 w1]| | |] eqn:EL; try discriminate E. cbn [obind fst snd] in E.
    assert (EF : f = (pre ++ put_header h ++ dat) ++ f1) by congruence. clear E. subst f.
    destruct (writes_go l (mkW (csum h dat) (etime e)) 0 W1 P2 GS) as (f1' & w1' & EL' & _ & B1 & _). rewrite EL in EL'. injection EL' as <- <-.
    set (out := pre ++ put_header h ++ dat) in *.
    destruct (le_lt_dec (length out) n) as [LE|LT].
    + destruct (IH _ W1 P2 GS _ _ EL (n - length out)%nat (ofs + len out)) as (k & ds & r & fk & wk & K1 & K2 & K3 & K4 & K5 & K6 & K7 & K8).
      { rewrite app_length in L. lia. }
      exists (Datatypes.S k), (((ofs + len pre) / 8, etime e, etype e, dat) :: ds), r, (out ++ fk), wk.
      split; [cbn; lia|]. split. { cbn [firstn writes]. rewrite EB. cbn [obind fst snd]. rewrite K2. reflexivity. }
      split; [rewrite app_length; lia|]. split.
      { intros Q. destruct K4 as (fk1 & wk1 & Q1 & Q2); [cbn in Q; lia|]. exists (out ++ fk1), wk1. split; [|rewrite app_length; lia].
        change (firstn (Datatypes.S (Datatypes.S k)) ((e, pad) :: l)) with ((e, pad) :: firstn (Datatypes.S k) l). cbn [writes]. rewrite EB. cbn [obind fst snd]. rewrite Q1. reflexivity. }
      split. { rewrite firstn_app, (firstn_all2 out) by lia. rewrite (go_event _ _ _ _ _ _ _ _ _ S) by (apply firstn_bs; assumption).
        replace (last w + (etime e - last w)) with (etime e) by lia. cbn [cs last] in K5. fold out. rewrite K5. reflexivity. }
      split. { constructor; [|exact K6]. eapply shape_shows; [exact S|reflexivity]. }
      replace (ofs + Z.of_nat n) with (ofs + len out + Z.of_nat (n - length out)) by (unfold len; lia).
      split; [exact K7|]. intros Q. apply K8. rewrite app_length in Q. lia.
    + destruct (go_event_cut _ _ _ _ _ _ ofs (last w) n S LT) as (r & C1 & C2 & C3).
      exists O, [], r, [], w. split; [lia|]. split; [reflexivity|]. split; [cbn; lia|]. split.
      { intros _. exists (out ++ []), (mkW (csum h dat) (etime e)). split; [cbn [firstn writes]; rewrite EB; reflexivity|rewrite app_nil_r; exact LT]. }
      fold out in C1. split. { rewrite firstn_app. replace (n - length out)%nat with O by lia. rewrite firstn_O, app_nil_r. exact C1. }
      split; [constructor|]. split.
      * destruct C2 as [(-> & _)|(c & t & -> & Q1 & Q2 & _)]; [auto|]. right. exists c, t. split; [reflexivity|]. split; [assumption|]. split; [lia|].
        cbn. intros e0 E0. injection E0 as <-. lia.
      * cbn. intros ->. rewrite Z.add_0_r. apply C3. reflexivity.
Qed.
(** *** A changed byte *)
Lemma sum_upd : forall l i b, (i < length l)%nat -> fold_right Z.add 0 (upd l i b) = fold_right Z.add 0 l - nth i l 0 + b.
Proof. induction l as [|x l IH]; intros [|i] b H; cbn [length] in H; try lia; cbn; [lia|]. rewrite IH by lia. lia. Qed.
Lemma bs_upd : forall l i b, bs l -> 0 <= b -> bs (upd l i b).
Proof. induction l as [|x l IH]; intros [|i] b H B y Hy; cbn in Hy; auto; destruct Hy as [<-|Hy]; auto; try (apply H; cbn; auto; fail).
  apply (IH i b); auto. intros z Hz. apply H. cbn. auto. Qed.
Lemma add16_inj : forall a b c, 0 <= a < 65536 -> 0 <= b < 65536 -> add16 a c = add16 b c -> a = b.
Proof. intros a b c A B H. unfold add16 in H. pose proof (Z.div_mod (a + c) 65536). pose proof (Z.div_mod (b + c) 65536). rewrite H in *. lia. Qed.
Lemma csum_upd : forall h data i b, 0 <= checksum h < 65536 -> bytes data -> (i < length data)%nat -> 0 <= b < 256 -> b <> nth i data 0 ->
  csum h (upd data i b) <> csum h data.
Proof.
  intros h data i b C D I B N H. unfold csum in H.
  apply add16_inj in H; try apply add16_range. apply add16_inj in H; try (apply upd_range; assumption).
  rewrite !upd_sum in H by assumption. rewrite sum_upd in H by assumption.
  assert (0 <= nth i data 0 < 256). { unfold bytes in D. rewrite Forall_forall in D. apply D. apply nth_In. assumption. }
  set (s := fold_right Z.add 0 data) in *. clearbody s.
  pose proof (Z.div_mod (checksum h + (s - nth i data 0 + b)) 65536). pose proof (Z.div_mod (checksum h + s) 65536). rewrite H in *. lia.
Qed.

Lemma writes_head : forall l w f w', wok w -> Forall padok (map snd l) -> goods (last w) (map fst l) -> l <> [] -> writes l w = Ok (f, w') ->
  exists h rest, f = put_header h ++ rest /\ hok h /\ checksum h = cs w.
Proof.
  intros [|[e pad] l] w f w' W P G N E; [contradiction|]. cbn [map fst snd goods] in *. destruct G as (G & GS). inversion P as [|? ? P1 P2]; subst.
  destruct (wb_good w e pad W P1 G) as (pre & h & dat & EB & S). cbn [writes] in E. rewrite EB in E. cbn [obind fst snd] in E.
  destruct (writes l _) as [[f1 w1]| | |]; try discriminate E. cbn [obind fst snd] in E.
  assert (EF : f = (pre ++ put_header h ++ dat) ++ f1) by congruence. subst f.
  destruct (s_pre _ _ _ _ _ _ S) as [(-> & C & _)|(h1 & H1 & -> & C1 & _)].
  - exists h, (dat ++ f1). split; [cbn [app]; rewrite <- app_assoc; reflexivity|]. split; [apply S|exact C].
  - exists h1, (put_header h ++ dat ++ f1). split; [rewrite <- !app_assoc; reflexivity|]. auto.
Qed.
Lemma upd_app_r : forall (a b : list Z) i x, (length a <= i)%nat -> upd (a ++ b) i x = a ++ upd b (i - length a) x.
Proof. induction a as [|y a IH]; intros b i x H; cbn [app length] in *; [rewrite Nat.sub_0_r; reflexivity|]. destruct i as [|i]; [lia|]. cbn. rewrite IH by lia. reflexivity. Qed.
Lemma go_event_bad : forall w e pre h data d rest ofs t i b h2, shape w e pre h data d -> (i < length data)%nat -> 0 <= b < 256 -> b <> nth i data 0 ->
  hok h2 -> checksum h2 = csum h data -> bs rest ->
  exists x, go ((pre ++ put_header h ++ upd data i b) ++ put_header h2 ++ rest) ofs (cs w) t = ([x], BadSum).
Proof.
  intros w e pre h data d rest ofs t i b h2 S I B N H2 C R.
  assert (S' : shape w (mkE (etype e) (upd data i b) (etime e)) pre h (upd data i b) d).
  { destruct S. split; auto.
    - unfold len in *. rewrite upd_length. assumption.
    - apply bs_upd; auto. lia.
    - apply Forall_forall. intros y Hy. unfold bytes in s_by0. rewrite Forall_forall in s_by0. apply (In_nth _ _ 0) in Hy as (j & J & <-). rewrite upd_length in J.
      destruct (Nat.eq_dec j i) as [->|Q]; [rewrite nth_upd_eq by assumption; assumption|rewrite nth_upd_ne by auto; apply s_by0, nth_In; assumption].
    - exists []. cbn. rewrite app_nil_r. split; [reflexivity|lia]. }
  rewrite (go_event _ _ _ _ _ _ _ _ _ S') by (apply bs_app; [apply bs_put|]; assumption).
  rewrite go_bad; [eexists; reflexivity|assumption|]. rewrite C. intros Q. symmetry in Q. revert Q. apply csum_upd; auto; [apply (s_hok _ _ _ _ _ _ S)|apply (s_by _ _ _ _ _ _ S)].
Qed.
Lemma rescan_noinit : forall fuel h rest ofs to junk t, hok h -> ofs < to ->
  rescan fuel (put_header h ++ rest) ofs to junk t true = rescan fuel (put_header h ++ rest) ofs to (checksum h) t false.
Proof.
  intros [|fuel] [c ty sz tm] rest ofs to junk t (H & H1 & H2 & H3) L; cbn [rescan]; replace (ofs <? to) with true by lia; [reflexivity|].
  unfold put_header, parseBlock. cbn [checksum recordType recordSize timeadv le16 app] in *. rewrite !un_le by assumption. rewrite Z.eqb_refl, andb_false_r. reflexivity.
Qed.

Lemma writes_last : forall l w f w', writes l w = Ok (f, w') -> last w' = fold_left (fun _ e => etime e) (map fst l) (last w).
Proof.
  induction l as [|[e pad] l IH]; intros w f w' E; cbn [writes map fst fold_left] in *; [congruence|].
  destruct (writeBlock _ _ _ _ _) as [[[o w1] k]| | |] eqn:EB; try discriminate E. cbn [obind fst snd] in E.
  destruct (writes l w1) as [[f1 w2]| | |] eqn:EL; try discriminate E. cbn [obind fst snd] in E.
  assert (w2 = w') by congruence. subst w2. rewrite (IH _ _ _ EL). f_equal. clear - EB. unfold writeBlock in EB.
  destruct (65535 <? etype e); [discriminate|]. destruct (_ <? len _); [discriminate|]. destruct (if _ <? _ then _ else _) as [a c].
  apply (f_equal (fun r => match r with Ok x => last (snd (fst x)) | _ => 0 end)) in EB. cbn [snd fst last] in EB. congruence.
Qed.
Lemma shape_len : forall w e pre h dat d, shape w e pre h dat d -> length dat = (8 * ((length (edata e) + 7) / 8))%nat.
Proof.
  intros w e pre h dat d S. pose proof (s_len _ _ _ _ _ _ S) as L. destruct (s_data _ _ _ _ _ _ S) as (p & -> & Q). unfold len in *. rewrite app_length in *.
  pose proof (Nat.div_mod (length (edata e) + 7) 8). pose proof (Nat.mod_upper_bound (length (edata e) + 7) 8). lia.
Qed.
Lemma writes_mod : forall l w f w', wok w -> Forall padok (map snd l) -> goods (last w) (map fst l) -> writes l w = Ok (f, w') -> len f mod 8 = 0.
Proof.
  induction l as [|[e pad] l IH]; intros w f w' W P G E. { cbn in E. injection E as <- <-. reflexivity. }
  cbn [map fst snd goods] in *. destruct G as (G & GS). inversion P as [|? ? P1 P2]; subst.
  destruct (wb_good w e pad W P1 G) as (pre & h & dat & EB & S). cbn [writes] in E. rewrite EB in E. cbn [obind fst snd] in E.
  destruct (writes l _) as [[f1 w1]| | |] eqn:EL; try discriminate E. cbn [obind fst snd] in E.
  assert (EF : f = (pre ++ put_header h ++ dat) ++ f1) by congruence. subst f.
  specialize (IH (mkW (csum h dat) (etime e)) _ _ (csum_range h dat) P2 GS EL). rewrite !len_app, (s_len _ _ _ _ _ _ S).
  assert (LP : len (put_header h) = 8) by reflexivity. rewrite LP.
  assert (Q : len pre = 0 \/ len pre = 8). { unfold len. destruct (pre_len _ _ _ _ _ _ S) as [->| ->]; auto. }
  pose proof (Z.div_mod (len f1) 8). rewrite IH in *.
  assert (exists k, len pre + (8 + recordSize h * 8) + len f1 = k * 8) as (k & ->); [|apply Z_mod_mult].
  destruct Q as [-> | ->]; [exists (1 + recordSize h + len f1 / 8)|exists (2 + recordSize h + len f1 / 8)]; lia.
Qed.

Lemma go_to : forall n a ofs c t ds o1 c1 t1 b, (length a <= n)%nat -> bs a -> go a ofs c t = (ds, Fin o1 c1 t1) ->
  rescan n (a ++ b) ofs (ofs + len a) c t false = (ds, Fin o1 c1 t1).
Proof.
  induction n as [|n IH]; intros a ofs c t ds o1 c1 t1 b L A H.
  - destruct a; [|cbn in L; lia]. rewrite go_nil in H. rewrite len_nil, Z.add_0_r. cbn [rescan]. rewrite Z.ltb_irrefl. exact H.
  - destruct a as [|x a]. { rewrite go_nil in H. rewrite len_nil, Z.add_0_r. cbn [rescan]. rewrite Z.ltb_irrefl. exact H. }
    unfold go in H. cbn [length rescan] in H. replace (ofs <? ofs + len (x :: a)) with true in H by (unfold len; cbn [length]; lia).
    destruct (parseBlock (x :: a) c t false) as [h data c2 t2 adv rest| |] eqn:E; try discriminate H.
    destruct (parse_adv _ _ _ _ _ _ _ _ _ _ E A) as (EA & AV & R). pose proof (len_nonneg _ rest).
    replace (ofs + len (x :: a)) with ((ofs + adv) + len rest) in H by lia.
    assert (LR : (length rest <= length a)%nat) by (unfold len in EA; cbn [length] in EA; lia).
    rewrite go_fuel in H by (auto; lia).
    destruct (go rest (ofs + adv) c2 t2) as [d1 r1] eqn:G. injection H as H1 ->.
    cbn [rescan]. replace (ofs <? ofs + len (x :: a)) with true by (unfold len; cbn [length]; lia).
    rewrite (parse_app _ _ _ _ _ _ _ _ _ _ b E A). replace (ofs + len (x :: a)) with ((ofs + adv) + len rest) by lia.
    rewrite (IH rest _ _ _ _ _ _ _ b ltac:(cbn in L; lia) R G). rewrite H1. reflexivity.
Qed.
