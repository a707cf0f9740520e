(** Proofs about the binary serialiser. *)
From Verif Require Import Common Base64_Model Utf_Model Utf_Proof CompressNumb_Model CompressNumb_Proof BinSer_Model BinSer_Spec.
Local Open Scope N_scope.
Ltac Zify.zify_post_hook ::= Z.div_mod_to_equations.

Lemma wide_filter_ok c : wide_filter c = Ok (utf_out c).
Proof.
  unfold wide_filter, utf_out. rewrite utf_class_lead.
  destruct (lead_of c) as (f, n) eqn:E.
  assert (Hn : (n <= 6)%nat).
  { unfold lead_of in E. repeat match type of E with context [c <? ?b] => destruct (c <? b) end; injection E as <- <-; lia. }
  clear E.
  do 7 (destruct n as [|n];
    [cbn [repeat put_parts setc length Nat.ltb Nat.leb upd obind]; rewrite ?shr6, ?part_arith; cbn [parts_of app];
     repeat match goal with |- context [Some (128 + ?x mod 64)] => generalize (128 + x mod 64); intros ? end;
     cbv; reflexivity|]).
  lia.
Qed.

Lemma flt_cont x st y : 0 < st -> x < 2 ^ 31 ->
  flt_input x (Some st) (128 + y mod 64) = Ok (x * 64 + y mod 64, Some (st - 1)).
Proof.
  intros H1 H3. unfold flt_input. destruct st as [|p]; [lia|].
  assert (Hy : y mod 64 < 64) by (apply N.mod_lt; discriminate).
  destruct (N.leb_spec 0x80 (128 + y mod 64)); [|lia]. destruct (N.ltb_spec (128 + y mod 64) 0xc0); [|lia].
  cbn [andb]. do 2 f_equal. change 0x3F with (N.ones 6). rewrite land_mod. change (2 ^ 6) with 64.
  replace ((128 + y mod 64) mod 64) with (y mod 64) by lia.
  unfold u64. rewrite N.mod_small.
  2:{ rewrite N.shiftl_mul_pow2. change (2 ^ 64) with 18446744073709551616. change (2 ^ 6) with 64.
      change (2 ^ 31) with 2147483648 in H3. lia. }
  rewrite lor_add by exact Hy. reflexivity.
Qed.

Lemma parts_snoc n c : parts_of (S n) c = (128 + (c / 64 ^ N.of_nat n) mod 64) :: parts_of n c.
Proof.
  revert c; induction n; intros c.
  - cbn [parts_of app]. change (64 ^ N.of_nat 0) with 1. now rewrite N.div_1_r.
  - change (parts_of (S (S n)) c) with (parts_of (S n) (c / 64) ++ [128 + c mod 64]).
    rewrite IHn. change (parts_of (S n) c) with (parts_of n (c / 64) ++ [128 + c mod 64]).
    cbn [app]. do 3 f_equal.
    rewrite Nat2N.inj_succ, N.pow_succ_r', N.div_div by (try apply N.pow_nonzero; lia). reflexivity.
Qed.

Lemma read_wide_cont n : forall c rest, c < 2 ^ 31 ->
  read_wide (c / 64 ^ N.of_nat (S n)) (Some (N.of_nat (S n))) (parts_of (S n) c ++ rest) = Ok (c mod 2 ^ 32, rest).
Proof.
  induction n; intros c rest Hc; rewrite parts_snoc; cbn [app read_wide].
  - rewrite flt_cont; [|lia|change (64 ^ N.of_nat 1) with 64; change (2^31) with 2147483648 in *; lia].
    cbn [obind parts_of app]. change (N.of_nat 1 - 1) with 0. change (64 ^ N.of_nat 1) with 64.
    change (64 ^ N.of_nat 0) with 1. rewrite N.div_1_r. do 3 f_equal. lia.
  - set (q := c / 64 ^ N.of_nat (S n)).
    assert (Eq : c / 64 ^ N.of_nat (S (S n)) = q / 64).
    { unfold q. rewrite N.div_div by (try apply N.pow_nonzero; discriminate). f_equal.
      rewrite (Nat2N.inj_succ (S n)), N.pow_succ_r'. apply N.mul_comm. }
    rewrite Eq. rewrite flt_cont.
    2:lia.
    2:{ assert (P : 64 ^ N.of_nat (S n) <> 0) by (apply N.pow_nonzero; discriminate).
        assert (q <= c) by (unfold q; apply N.div_le_upper_bound; nia). lia. }
    cbn [obind]. replace (N.of_nat (S (S n)) - 1) with (N.of_nat (S n)) by lia.
    replace (q / 64 * 64 + q mod 64) with q by lia.
    change (N.of_nat (S n)) with (N.pos (Pos.of_succ_nat n)) at 1.
    cbv iota. apply IHn. exact Hc.
Qed.

Lemma read_wide_lead c rest n (f : N) : c < 2 ^ 31 -> lead_of c = (f, S n) ->
  flt_input 0 None f = Ok (c / 64 ^ N.of_nat (S n), Some (N.of_nat (S n))) ->
  read_wide 0 None (f :: parts_of (S n) c ++ rest) = Ok (c, rest).
Proof.
  intros Hc El E. cbn [read_wide]. rewrite E. cbn [obind].
  pose proof (read_wide_cont n c rest Hc) as R.
  assert (Hst : exists p, N.of_nat (S n) = N.pos p) by (eexists; reflexivity).
  destruct Hst as (p & Ep). rewrite Ep in *. cbv iota. rewrite R.
  rewrite N.mod_small; [reflexivity|].
  change (2 ^ 31) with 2147483648 in Hc. change (2 ^ 32) with 4294967296. lia.
Qed.

Lemma read_wide_ok c rest : c < 2 ^ 31 -> read_wide 0 None (utf_out c ++ rest) = Ok (c, rest).
Proof.
  intros Hc. unfold utf_out. destruct (lead_of c) as (f, n) eqn:E. pose proof E as E0.
  change (2 ^ 31) with 2147483648 in Hc.
  assert (L : forall m x, N.land m (N.ones x) = m mod 2 ^ x) by (intros; apply land_mod).
  unfold lead_of in E.
  destruct (N.ltb_spec c 128); [apply pair_equal_spec in E; destruct E as [<- <-]|].
  { cbn [parts_of app read_wide flt_input]. destruct (N.ltb_spec c 0x80); [|lia]. cbn [obind].
    rewrite N.mod_small; [reflexivity|]. change (2 ^ 32) with 4294967296. lia. }
  destruct (N.ltb_spec c 0x7ff); [apply pair_equal_spec in E; destruct E as [<- <-]|
  destruct (N.ltb_spec c 0xffff); [apply pair_equal_spec in E; destruct E as [<- <-]|
  destruct (N.ltb_spec c 0x1fffff); [apply pair_equal_spec in E; destruct E as [<- <-]|
  destruct (N.ltb_spec c 0x3ffffff); [apply pair_equal_spec in E; destruct E as [<- <-]|
  destruct (N.ltb_spec c 0x7ffffff); [apply pair_equal_spec in E; destruct E as [<- <-]|apply pair_equal_spec in E; destruct E as [<- <-]]]]]];
  cbn [app]; apply read_wide_lead; auto; unfold flt_input;
  repeat match goal with
  | |- context [?a <? ?b] => first [replace (a <? b) with true by (symmetry; apply N.ltb_lt; lia)
                                   |replace (a <? b) with false by (symmetry; apply N.ltb_ge; lia)]
  | |- context [?a <=? ?b] => first [replace (a <=? b) with true by (symmetry; apply N.leb_le; lia)
                                   |replace (a <=? b) with false by (symmetry; apply N.leb_gt; lia)]
  end; cbn [andb]; do 2 f_equal;
  match goal with
  | |- context [64 ^ N.of_nat ?k] => let v := eval compute in (64 ^ N.of_nat k) in change (64 ^ N.of_nat k) with v
  | _ => idtac end.
  - change 0x1F with (N.ones 5). rewrite L. change (2 ^ 5) with 32. lia.
  - change 0x0F with (N.ones 4). rewrite L. change (2 ^ 4) with 16. lia.
  - change 0x07 with (N.ones 3). rewrite L. change (2 ^ 3) with 8. lia.
  - change 0x03 with (N.ones 2). rewrite L. change (2 ^ 2) with 4. lia.
  - change (N.land 252 1) with 0. lia.
  - lia.
Qed.

Lemma utf_out_bytes c : c < 2 ^ 31 -> bytes_ok (utf_out c).
Proof.
  intros Hc. unfold utf_out. destruct (lead_of c) as (f, n) eqn:E.
  constructor.
  - unfold byte_ok. unfold lead_of in E.
    repeat match type of E with context [c <? ?b] => destruct (N.ltb_spec c b) end; apply pair_equal_spec in E; destruct E as [<- <-]; lia.
  - clear. revert c; induction n; intros c; cbn [parts_of]; [constructor|].
    apply Forall_app. split; [apply IHn|]. repeat constructor. unfold byte_ok. lia.
Qed.

Lemma readBytes_ok bs rest d : readBytes (length bs) (mkR (bs ++ rest) d) = Ok (bs, mkR rest d).
Proof. induction bs; cbn [length app readBytes readByte r_in obind r_dyn]; auto. rewrite IHbs. reflexivity. Qed.

Lemma readNumber_ok buf b t rest d : buf = b :: t -> numberLength b = N.of_nat (length buf) ->
  readNumber (mkR (buf ++ rest) d) = Ok (buf, mkR rest d).
Proof.
  intros -> E. unfold readNumber. cbn [app readByte r_in obind r_dyn]. rewrite E.
  replace (N.to_nat (N.of_nat (length (b :: t)) - 1)) with (length t) by (cbn [length]; lia).
  rewrite readBytes_ok. reflexivity.
Qed.

Lemma readUnsigned_ok n rest d : n < 2 ^ 64 -> readUnsigned (mkR (compress n ++ rest) d) = Ok (n, mkR rest d).
Proof.
  intros H. unfold readUnsigned. destruct (first_byte_len n H) as (b & t & E & L).
  rewrite (readNumber_ok (compress n) b t) by auto. cbn [obind].
  rewrite <- (app_nil_r (compress n)), roundtrip_u by auto. reflexivity.
Qed.

Lemma cast_u_id w n : n < 2 ^ w -> cast_u w n = n.
Proof. intros. apply N.mod_small. auto. Qed.
Lemma cast_s_id w z : 1 <= w -> (- 2 ^ (Z.of_N w - 1) <= z < 2 ^ (Z.of_N w - 1))%Z -> cast_s w z = z.
Proof.
  intros Hw H. unfold cast_s. replace (2 ^ Z.of_N w)%Z with (2 * 2 ^ (Z.of_N w - 1))%Z.
  - rewrite Z.mod_small; lia.
  - rewrite <- Z.pow_succ_r by lia. f_equal. lia.
Qed.

Lemma read_name_ok n rest : name_ok n -> read_name (n ++ 0 :: rest) = Ok (n, rest).
Proof.
  induction 1 as [|b n Hb _ IH]; [reflexivity|]. cbn [app read_name].
  destruct b; [lia|]. rewrite IH. reflexivity.
Qed.

Lemma name_eqb_eq a b : name_eqb a b = true <-> a = b.
Proof. unfold name_eqb. destruct (list_eq_dec N.eq_dec a b); split; auto; discriminate. Qed.
Lemma name_eqb_ne a b : a <> b -> name_eqb a b = false.
Proof. unfold name_eqb. destruct (list_eq_dec N.eq_dec a b); auto; contradiction. Qed.

(** what has been read of a written dynamic section when its header is in [dynSection] *)
Definition roundtrip (t : schema) (v : value) : Prop :=
  exists bs, write t v = Ok bs /\ bytes_ok bs
   /\ (forall rest, read t (mkR (bs ++ rest) []) = Ok (v, mkR rest []))
   /\ (forall m, section_of t v = Some m -> name_ok m /\
        exists body, bs = write_dyn_header m ++ body
        /\ (m <> [] -> forall rest, read t (mkR (body ++ rest) m) = Ok (v, mkR rest []))).

Lemma openDyn_fresh name m body : name_ok m ->
  openDynSection name (mkR (write_dyn_header m ++ body) []) =
  Ok (name_eqb m name, mkR body (if name_eqb m name then [] else m)).
Proof.
  intros Hm. unfold openDynSection, write_dyn_header. cbn [app r_dyn readByte r_in obind].
  rewrite <- app_assoc. change (beginSection =? beginSection) with true. cbv iota.
  cbn [app]. rewrite read_name_ok by auto. cbn [obind r_dyn r_in].
  destruct (name_eqb m name); reflexivity.
Qed.

Lemma openDyn_pending name m body : m <> [] ->
  openDynSection name (mkR body m) =
  Ok (name_eqb m name, mkR body (if name_eqb m name then [] else m)).
Proof.
  intros Hm. unfold openDynSection. cbn [r_dyn]. destruct m; [contradiction|]. cbn [obind r_dyn r_in].
  destruct (name_eqb (n :: m) name); reflexivity.
Qed.

Lemma bytes_app a b : bytes_ok a -> bytes_ok b -> bytes_ok (a ++ b).
Proof. intros. apply Forall_app; auto. Qed.

Lemma name_bytes m : name_ok m -> bytes_ok m.
Proof. apply Forall_impl. unfold byte_ok. intros; lia. Qed.
Lemma header_bytes m : name_ok m -> bytes_ok (write_dyn_header m).
Proof.
  intros H. constructor; [reflexivity|]. apply bytes_app; [now apply name_bytes|]. repeat constructor.
Qed.

Lemma fits_roundtrip t : forall v, fits t v -> roundtrip t v.
Proof.
  induction t; intros v Hf; destruct v; try contradiction; cbn [fits] in Hf.
  - (* bool *)
    exists [if b then trueVal else falseVal]. split; [reflexivity|]. split; [destruct b; repeat constructor|].
    split; [|discriminate]. intros rest. destruct b; reflexivity.
  - (* char *)
    exists [n]. split; [reflexivity|]. split; [repeat constructor; exact Hf|]. split; [|discriminate].
    reflexivity.
  - (* signed *)
    destruct Hf as (Hw & Hz & Hmin).
    assert (B : (2 ^ (Z.of_N bits - 1) <= 2 ^ 63)%Z) by (apply Z.pow_le_mono_r; lia).
    destruct (roundtrip_s z [] ltac:(lia)) as (buf & E & Hb & _ & D & b & t & Eb & El).
    exists buf. split; [exact E|]. split; [exact Hb|]. split; [|discriminate].
    intros rest. cbn [read]. unfold readSigned. rewrite (readNumber_ok buf b t) by auto. cbn [obind].
    rewrite app_nil_r in D. rewrite D. cbn [obind]. rewrite cast_s_id by (auto; lia). reflexivity.
  - (* unsigned *)
    destruct Hf as (Hw & Hn).
    assert (B : 2 ^ bits <= 2 ^ 64) by (apply N.pow_le_mono_r; lia).
    exists (compress n). split; [reflexivity|]. split; [apply compress_bytes; lia|]. split; [|discriminate].
    intros rest. cbn [read]. rewrite readUnsigned_ok by lia. cbn [obind]. rewrite cast_u_id by auto. reflexivity.
  - (* raw *)
    destruct Hf as (<- & Hb). exists bs. split; [reflexivity|]. split; [exact Hb|]. split; [|discriminate].
    intros rest. cbn [read]. rewrite readBytes_ok. reflexivity.
  - (* wide *)
    exists (utf_out n). split; [apply wide_filter_ok|]. split; [now apply utf_out_bytes|]. split; [|discriminate].
    intros rest. cbn [read r_in r_dyn]. rewrite read_wide_ok by auto. reflexivity.
  - (* array *)
    destruct Hf as (Hl & Hn).
    assert (G : exists items,
      (fix go (l : list value) : outcome (list N) :=
        match l with
        | [] => Ok []
        | v :: l => let! a := write t v in let! b := go l in Ok (a ++ b)
        end) l = Ok items /\ bytes_ok items /\
      forall rest, (fix go (k : nat) (r : reader) : outcome (list value * reader) :=
           match k with
           | O => Ok ([], r)
           | S k => let! (v, r) := read t r in let! (l, r) := go k r in Ok (v :: l, r)
           end) (length l) (mkR (items ++ rest) []) = Ok (l, mkR rest [])).
    { clear Hn. induction Hl as [|v l Hv _ IHl]; [exists []; repeat split; constructor|].
      destruct IHl as (items & E & Hb & R). destruct (IHt v Hv) as (bs & Ew & Hbs & Rv & _).
      exists (bs ++ items). rewrite Ew. cbn [obind]. rewrite E. cbn [obind]. split; [reflexivity|].
      split; [now apply bytes_app|]. intros rest. cbn [length]. rewrite <- app_assoc, Rv. cbn [obind].
      rewrite R. reflexivity. }
    destruct G as (items & E & Hb & R).
    exists (beginArray :: compress (N.of_nat (length l)) ++ items ++ [endArray]).
    cbn [write]. rewrite E. split; [reflexivity|]. split.
    + constructor; [reflexivity|]. apply bytes_app; [apply compress_bytes; lia|].
      apply bytes_app; auto. repeat constructor.
    + split; [|discriminate]. intros rest. cbn [read app readByte r_in r_dyn obind].
      change (beginArray =? beginArray) with true. cbv iota.
      rewrite <- app_assoc, readUnsigned_ok by lia. cbn [obind]. rewrite Nat2N.id.
      rewrite <- app_assoc, R. cbn [obind app readByte r_in r_dyn].
      change (endArray =? endArray) with true. reflexivity.
  - (* section *)
    destruct (IHt v Hf) as (bs & E & Hb & R & _). exists bs. split; [exact E|]. split; [exact Hb|].
    split; [|discriminate]. intros rest. cbn [read]. rewrite R. reflexivity.
  - (* default *)
    exists [0]. split; [reflexivity|]. split; [repeat constructor|]. split; [reflexivity|discriminate].
  - destruct (IHt v Hf) as (bs & E & Hb & R & _). exists (1 :: bs). cbn [write]. rewrite E.
    split; [reflexivity|]. split; [constructor; [reflexivity|exact Hb]|]. split; [|discriminate].
    intros rest. cbn [read app readByte r_in r_dyn obind].
    change (1 =? falseVal) with false. change (1 =? trueVal) with true. cbv iota. rewrite R. reflexivity.
  - (* unit *)
    exists []. split; [reflexivity|]. split; [constructor|]. split; [reflexivity|discriminate].
  - (* pair *)
    destruct Hf as (Ha & Hb). destruct (IHt1 _ Ha) as (x & Ex & Bx & Rx & _).
    destruct (IHt2 _ Hb) as (y & Ey & By & Ry & _).
    exists (x ++ y). cbn [write]. rewrite Ex. cbn [obind]. rewrite Ey. split; [reflexivity|].
    split; [now apply bytes_app|]. split; [|discriminate]. intros rest. cbn [read].
    rewrite <- app_assoc, Rx. cbn [obind]. rewrite Ry. reflexivity.
  - (* this dynamic section *)
    destruct Hf as (Hn & Hv). destruct (IHt1 _ Hv) as (x & Ex & Bx & Rx & _).
    exists (write_dyn_header name ++ x ++ [endSection]). cbn [write]. rewrite Ex. split; [reflexivity|].
    split; [apply bytes_app; [now apply header_bytes|apply bytes_app; auto; repeat constructor]|].
    assert (EQ : name_eqb name name = true) by now apply name_eqb_eq.
    split.
    + intros rest. cbn [read]. rewrite <- app_assoc, openDyn_fresh by auto. rewrite EQ. cbn [obind].
      rewrite <- app_assoc, Rx. reflexivity.
    + intros m Hm. cbn [section_of] in Hm. injection Hm as <-. split; [exact Hn|].
      exists (x ++ [endSection]). split; [reflexivity|]. intros Hne rest. cbn [read].
      rewrite openDyn_pending by auto. rewrite EQ. cbn [obind]. rewrite <- app_assoc, Rx. reflexivity.
  - (* another one *)
    destruct Hf as (Hv & m & Hm & Hne & Hdiff).
    destruct (IHt2 _ Hv) as (x & Ex & Bx & Rx & Sx). destruct (Sx m Hm) as (Hok & body & -> & Rp).
    exists (write_dyn_header m ++ body). split; [exact Ex|]. split; [exact Bx|].
    pose proof (name_eqb_ne m name Hdiff) as EQ.
    split.
    + intros rest. cbn [read]. rewrite <- app_assoc, openDyn_fresh by auto. rewrite EQ. cbn [obind].
      rewrite Rp by auto. reflexivity.
    + intros m' Hm'. cbn [section_of] in Hm'. rewrite Hm in Hm'. injection Hm' as <-. split; [exact Hok|].
      exists body. split; [reflexivity|]. intros _ rest. cbn [read].
      rewrite openDyn_pending by auto. rewrite EQ. cbn [obind]. rewrite Rp by auto. reflexivity.
Qed.

(** strings *)
Lemma store_items_len fuel : forall remain s, (remain <= fuel)%nat -> (remain <= length s)%nat ->
  exists items, store_string_items fuel remain s = Ok items /\ (2 * length items <= remain + 1)%nat.
Proof.
  induction fuel as [fuel IH] using lt_wf_ind. intros remain s Hf Hs.
  destruct remain as [|r]; cbn [store_string_items].
  - destruct fuel; exists []; split; auto; cbn; lia.
  - destruct fuel as [|fuel]; [lia|]. destruct s as [|c s]; [cbn in Hs; lia|].
    destruct (IH fuel ltac:(lia) (r - 1)%nat s ltac:(lia) ltac:(cbn in Hs; lia)) as (items & E & L).
    cbn [store_string_items]. rewrite E. exists (c :: items). split; [reflexivity|]. cbn [length]. lia.
Qed.

Lemma readBytes_short n : forall l d, (length l < n)%nat -> readBytes n (mkR l d) = Throw.
Proof.
  induction n; intros l d H; [lia|]. destruct l as [|b l]; [reflexivity|].
  cbn [readBytes readByte r_in obind r_dyn]. rewrite IHn by (cbn in H; lia). reflexivity.
Qed.

Lemma string_broken s : (2 <= length s)%nat -> N.of_nat (length s) < 2 ^ 64 ->
  exists bs, store_string s = Ok bs /\ load_string (mkR bs []) = Throw.
Proof.
  intros H2 H64. unfold store_string.
  destruct (store_items_len (length s) (length s) s ltac:(lia) ltac:(lia)) as (items & E & L).
  rewrite E. cbn [obind]. eexists. split; [reflexivity|].
  unfold load_string. cbn [readByte r_in r_dyn obind]. change (beginArray =? beginArray) with true. cbv iota.
  rewrite readUnsigned_ok by auto. cbn [obind]. rewrite Nat2N.id.
  destruct (Nat.lt_ge_cases (length (items ++ [endArray])) (length s)) as [Hlt|Hge].
  - rewrite readBytes_short by auto. reflexivity.
  - rewrite app_length in Hge. cbn [length] in Hge.
    replace (items ++ [endArray]) with ((items ++ [endArray]) ++ []) by apply app_nil_r.
    replace (length s) with (length (items ++ [endArray])) by (rewrite app_length; cbn [length]; lia).
    rewrite readBytes_ok. reflexivity.
Qed.
