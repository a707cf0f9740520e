(** Proofs about the UTF-8 converters. *)
From Verif Require Import Common Conv_Model Conv_Proof Base64_Model Base16_Proof Utf_Model Utf_Spec.
Local Open Scope N_scope.
Ltac Zify.zify_post_hook ::= Z.div_mod_to_equations.

Lemma part_arith c : N.lor 0x80 (N.land c 0x3F) = 128 + c mod 64.
Proof.
  change 0x3F with (N.ones 6). rewrite land_mod. change 0x80 with (N.shiftl 2 6). rewrite lor_add; [reflexivity|].
  apply N.mod_lt. discriminate.
Qed.
Lemma lead_arith x h k : x < 2 ^ k -> N.lor x (N.shiftl h k) = h * 2 ^ k + x.
Proof. intros. rewrite N.lor_comm. apply lor_add; auto. Qed.
Lemma shr6 c : N.shiftr c 6 = c / 64. Proof. rewrite N.shiftr_div_pow2. reflexivity. Qed.

(** the following bytes, least significant last *)
Fixpoint parts_of (n : nat) (c : N) : list N :=
  match n with O => [] | S n => parts_of n (c / 64) ++ [128 + c mod 64] end.

Definition lead_of (c : N) : N * nat :=
  if c <? 128 then (c, 0%nat)
  else if c <? 0x7ff then (192 + c / 64, 1%nat)
  else if c <? 0xffff then (224 + c / 4096, 2%nat)
  else if c <? 0x1fffff then (240 + c / 262144, 3%nat)
  else if c <? 0x3ffffff then (248 + c / 16777216, 4%nat)
  else if c <? 0x7ffffff then (252, 5%nat)
  else (254, 6%nat).

Lemma utf_class_lead c : utf_class c = lead_of c.
Proof.
  unfold utf_class, lead_of.
  repeat match goal with |- context [c <? ?b] => destruct (N.ltb_spec c b) end; try reflexivity;
    f_equal; rewrite ?N.shiftr_div_pow2.
  - rewrite N.mod_small; lia.
  - change (2^6) with 64. change (N.lor (c / 64) 0xC0) with (N.lor (c / 64) (N.shiftl 6 5)). rewrite lead_arith by (change (2^5) with 32; lia). change (6 * 2^5) with 192. rewrite N.mod_small; lia.
  - change (2^12) with 4096. change (N.lor (c / 4096) 0xE0) with (N.lor (c / 4096) (N.shiftl 14 4)). rewrite lead_arith by (change (2^4) with 16; lia). change (14 * 2^4) with 224. rewrite N.mod_small; lia.
  - change (2^18) with 262144. change (N.lor (c / 262144) 0xF0) with (N.lor (c / 262144) (N.shiftl 30 3)). rewrite lead_arith by (change (2^3) with 8; lia). change (30 * 2^3) with 240. rewrite N.mod_small; lia.
  - change (2^24) with 16777216. change (N.lor (c / 16777216) 0xF8) with (N.lor (c / 16777216) (N.shiftl 62 2)). rewrite lead_arith by (change (2^2) with 4; lia). change (62 * 2^2) with 248. rewrite N.mod_small; lia.
  - change (2^30) with 1073741824. replace (c / 1073741824) with 0 by lia. reflexivity.
Qed.

Definition utf_out (c : N) : list N := let (f, n) := lead_of c in f :: parts_of n c.

Definition wenc_good (s : wenc) : Prop := length (we_out s) = 10%nat /\ we_has s = false.

Lemma wenc_step s c : wenc_good s ->
  exists s2, block_loop wenc_conv s (single c) = Ok (utf_out c, s2, length (single c)) /\ wenc_good s2.
Proof.
  intros (Hl & Hh). destruct s as [o rd has need]. cbn in Hl, Hh. subst has.
  do 10 (destruct o as [|? o]; [discriminate|]). destruct o; [|discriminate].
  unfold single, utf_out. cbn [block_loop cv_eolb wenc_conv cv_write]. unfold wenc_write. rewrite utf_class_lead.
  destruct (lead_of c) as (f, n) eqn:E.
  assert (Hn : (n <= 6)%nat).
  { unfold lead_of in E. repeat match type of E with context [c <? ?b] => destruct (c <? b) end; injection E as <- <-; lia. }
  clear E. cbn [we_out].
  do 7 (destruct n as [|n];
    [cbn [put_parts setc length Nat.ltb Nat.leb upd obind]; rewrite ?shr6, ?part_arith; cbn [parts_of app];
     repeat match goal with |- context [Some (128 + ?x mod 64)] => generalize (128 + x mod 64); intros ? end;
     eexists; split; [cbv; reflexivity|split; reflexivity]|]).
  lia.
Qed.

Definition wdec_good (s : wdec) : Prop := wd_st s = 0xff /\ wd_has s = false.

(** one continuation byte *)
Lemma cont_step skip x st y : 0 < st -> st < 0xff -> x * 64 + y mod 64 < 2 ^ 31 ->
  wdec_write skip (mkWD (Some x) st false true) (128 + y mod 64)
  = Ok (wdec_update (Some (x * 64 + y mod 64)) (st - 1)).
Proof.
  intros H1 H2 H3. unfold wdec_write. cbn [wd_st wd_out].
  destruct (N.eqb_spec st 0); [lia|]. destruct (N.eqb_spec st 0xff); [lia|].
  assert (Hy : y mod 64 < 64) by (apply N.mod_lt; discriminate).
  destruct (N.leb_spec 0x80 (128 + y mod 64)); [|lia]. destruct (N.ltb_spec (128 + y mod 64) 0xc0); [|lia].
  cbn [andb]. unfold shl6. destruct (N.ltb_spec (x * 64) (2 ^ 31)); [|lia]. cbn [obind].
  do 3 f_equal. change 0x3F with (N.ones 6). rewrite land_mod. change (2 ^ 6) with 64.
  replace ((128 + y mod 64) mod 64) with (y mod 64) by lia.
  rewrite <- (N.shiftl_mul_pow2 x 6 : N.shiftl x 6 = x * 64).
  rewrite lor_add by exact Hy. rewrite N.shiftl_mul_pow2. reflexivity.
Qed.

(** reading n continuation bytes *)
Lemma cont_run skip : forall n c, c < 2 ^ 31 -> (n <= 6)%nat -> (1 <= n)%nat ->
  forall x m, x = c / 64 ^ N.of_nat n -> (n + m <= 6)%nat -> (1 <= m)%nat ->
  block_loop (wdec_conv skip) (mkWD (Some x) (N.of_nat (n + m)) false true) (parts_of n c)
  = Ok ([], mkWD (Some c) (N.of_nat m) false true, n).
Proof.
  induction n as [|n IH]; intros c Hc Hn H1 x m Hx Hm Hm1; [lia|].
  cbn [parts_of].
  assert (Hc64 : c / 64 < 2 ^ 31) by lia.
  assert (Hlast : block_loop (wdec_conv skip) (mkWD (Some (c / 64)) (N.of_nat (1 + m)) false true) [128 + c mod 64]
     = Ok ([], mkWD (Some c) (N.of_nat m) false true, 1%nat)).
  { cbn [block_loop cv_eolb wdec_conv cv_write]. rewrite cont_step; [|lia|lia|].
    2:{ replace (c / 64 * 64 + c mod 64) with c by lia. exact Hc. }
    replace (c / 64 * 64 + c mod 64) with c by lia.
    replace (N.of_nat (1 + m) - 1) with (N.of_nat m) by lia.
    cbn [obind]. unfold wdec_update. destruct (N.ltb_spec 0 (N.of_nat m)); [|lia].
    cbn [negb]. rewrite drain_empty by reflexivity. reflexivity. }
  destruct n as [|n].
  - cbn [parts_of app]. subst x. change (64 ^ N.of_nat 1) with 64. exact Hlast.
  - replace (S (S n)) with (length (parts_of (S n) (c / 64)) + 1)%nat.
    2:{ clear. assert (H : forall k d, length (parts_of k d) = k).
        { induction k; intros; cbn [parts_of]; auto. rewrite app_length, IHk. cbn. lia. }
        rewrite H. lia. }
    assert (Hlen : length (parts_of (S n) (c / 64)) = S n).
    { clear. generalize (S n) as k, (c / 64) as d. induction k; intros; cbn [parts_of]; auto. rewrite app_length, IHk. cbn. lia. }
    change (@nil N) with (@nil N ++ []).
    eapply block_loop_app; [|exact Hlast].
    rewrite Hlen. replace (S n + 1 + m)%nat with (S n + (1 + m))%nat by lia.
    apply IH; auto; try lia.
    subst x. rewrite N.div_div by (try discriminate; apply N.pow_nonzero; discriminate).
    f_equal. replace (N.of_nat (S (S n))) with (N.succ (N.of_nat (S n))) by lia. rewrite N.pow_succ_r'. reflexivity.
Qed.

Lemma cont_all skip n c x : c < 2 ^ 31 -> (1 <= n <= 6)%nat -> x = c / 64 ^ N.of_nat n ->
  block_loop (wdec_conv skip) (mkWD (Some x) (N.of_nat n) false true) (parts_of n c)
  = Ok ([c], mkWD (Some c) 0xff false true, n).
Proof.
  intros Hc Hn Hx. destruct n as [|n]; [lia|]. cbn [parts_of].
  assert (Hlast : block_loop (wdec_conv skip) (mkWD (Some (c / 64)) 1 false true) [128 + c mod 64]
     = Ok ([c], mkWD (Some c) 0xff false true, 1%nat)).
  { cbn [block_loop cv_eolb wdec_conv cv_write]. rewrite cont_step; [|lia|lia|].
    2:{ replace (c / 64 * 64 + c mod 64) with c by lia. exact Hc. }
    replace (c / 64 * 64 + c mod 64) with c by lia. reflexivity. }
  assert (Hlen : forall k d, length (parts_of k d) = k).
  { clear. induction k; intros; cbn [parts_of]; auto. rewrite app_length, IHk. cbn. lia. }
  destruct n as [|n].
  - cbn [parts_of app]. subst x. exact Hlast.
  - replace (S (S n)) with (length (parts_of (S n) (c / 64)) + 1)%nat at 2 by (rewrite Hlen; lia).
    change [c] with (@nil N ++ [c]).
    eapply block_loop_app; [|exact Hlast].
    rewrite Hlen. replace (S (S n)) with (S n + 1)%nat by lia. change (mkWD (Some (c / 64)) 1 false true) with (mkWD (Some (c / 64)) (N.of_nat 1) false true).
    apply cont_run; auto; try lia.
    subst x. rewrite N.div_div by (try discriminate; apply N.pow_nonzero; discriminate).
    f_equal. rewrite ?Nat.add_1_r, (Nnat.Nat2N.inj_succ (S n)), N.pow_succ_r'. reflexivity.
Qed.

Definition wide_ok (c : N) : Prop := c < 2 ^ 31.

Lemma lead_step skip s a x n rest r : wdec_good s -> 0 < n -> n < 0xff ->
  wdec_write skip s a = Ok (wdec_update (Some x) n) ->
  block_loop (wdec_conv skip) (mkWD (Some x) n false true) rest = Ok r ->
  block_loop (wdec_conv skip) s (a :: rest) = Ok (fst (fst r), snd (fst r), S (snd r)).
Proof.
  intros (Hst & Hh) Hn Hn2 Hw Hr. cbn [block_loop cv_eolb wdec_conv cv_write]. rewrite Hw. cbn [obind].
  unfold wdec_update. destruct (N.ltb_spec 0 n); [|lia]. cbn [negb].
  rewrite drain_empty by reflexivity. cbn [obind app]. rewrite Hr. destruct r as [[? ?] ?]. reflexivity.
Qed.

Lemma wdec_step skip s c : wdec_good s -> wide_ok c ->
  exists s2, block_loop (wdec_conv skip) s (utf_out c) = Ok (single c, s2, length (utf_out c)) /\ wdec_good s2.
Proof.
  intros Hg Hc. pose proof Hg as (Hst & Hh). unfold wide_ok in Hc.
  assert (Hlen : forall k d, length (parts_of k d) = k).
  { clear. induction k; intros; cbn [parts_of]; auto. rewrite app_length, IHk. cbn. lia. }
  assert (Hgood : forall o, wdec_good (mkWD o 0xff false true)) by (split; reflexivity).
  unfold utf_out, lead_of, single.
  assert (Hlead : forall n a x, (1 <= n <= 6)%nat -> x = c / 64 ^ N.of_nat n ->
     wdec_write skip s a = Ok (wdec_update (Some x) (N.of_nat n)) ->
     exists s2, block_loop (wdec_conv skip) s (a :: parts_of n c) = Ok ([c], s2, length (a :: parts_of n c)) /\ wdec_good s2).
  { intros n a x Hn Hx Hw. eexists. split; [|apply Hgood].
    rewrite (lead_step skip s a x (N.of_nat n) (parts_of n c) ([c], mkWD (Some c) 0xff false true, n)); auto; try lia.
    - cbn [fst snd length]. rewrite Hlen. reflexivity.
    - apply cont_all; auto. }
  assert (Hw0 : forall a, wdec_write skip s a = 
    if a <? 0x80 then Ok (wdec_update (Some a) 0)
    else if (0x80 <=? a) && (a <? 0xc0) then
      if skip then Ok (wdec_update (Some a) 0) else Throw
    else if (0xC0 <=? a) && (a <? 0xE0) then Ok (wdec_update (Some (N.land a 0x1F)) 1)
    else if (0xE0 <=? a) && (a <? 0xF0) then Ok (wdec_update (Some (N.land a 0x0F)) 2)
    else if (0xF0 <=? a) && (a <? 0xF8) then Ok (wdec_update (Some (N.land a 0x07)) 3)
    else if (0xF8 <=? a) && (a <? 0xFC) then Ok (wdec_update (Some (N.land a 0x03)) 4)
    else if (0xFC <=? a) && (a <? 0xFE) then Ok (wdec_update (Some (N.land a 0x01)) 5)
    else if (0xFE <=? a) && (a <? 0xFF) then Ok (wdec_update (Some 0) 6)
    else Ok (wdec_update (wd_out s) (wd_st s))).
  { intros a. unfold wdec_write. rewrite Hst. reflexivity. }
  Ltac dec_cmp := repeat match goal with
     | |- context [?p <? ?q] => destruct (N.ltb_spec p q); try lia; cbn [andb]
     | |- context [?p <=? ?q] => destruct (N.leb_spec p q); try lia; cbn [andb] end.
  destruct (N.ltb_spec c 128).
  { cbn [parts_of]. eexists. split.
    - cbn [block_loop cv_eolb wdec_conv cv_write]. rewrite Hw0.
      destruct (N.ltb_spec c 0x80); [|lia]. cbn. reflexivity.
    - apply Hgood. }
  destruct (N.ltb_spec c 0x7ff).
  { apply Hlead with (x := c / 64); [lia|reflexivity|]. rewrite Hw0. dec_cmp.
    do 3 f_equal. change 0x1F with (N.ones 5). rewrite land_mod. change (2 ^ 5) with 32. lia. }
  destruct (N.ltb_spec c 0xffff).
  { apply Hlead with (x := c / 4096); [lia|reflexivity|]. rewrite Hw0. dec_cmp.
    do 3 f_equal. change 0x0F with (N.ones 4). rewrite land_mod. change (2 ^ 4) with 16. lia. }
  destruct (N.ltb_spec c 0x1fffff).
  { apply Hlead with (x := c / 262144); [lia|reflexivity|]. rewrite Hw0. dec_cmp.
    do 3 f_equal. change 0x07 with (N.ones 3). rewrite land_mod. change (2 ^ 3) with 8. lia. }
  destruct (N.ltb_spec c 0x3ffffff).
  { apply Hlead with (x := c / 16777216); [lia|reflexivity|]. rewrite Hw0. dec_cmp.
    do 3 f_equal. change 0x03 with (N.ones 2). rewrite land_mod. change (2 ^ 2) with 4. lia. }
  destruct (N.ltb_spec c 0x7ffffff).
  { apply Hlead with (x := 0); [lia| |rewrite Hw0; reflexivity].
    change (64 ^ N.of_nat 5) with 1073741824. lia. }
  apply Hlead with (x := 0); [lia| |rewrite Hw0; reflexivity].
  change (64 ^ N.of_nat 6) with 68719476736. lia.
Qed.

Lemma utf_encode_lem cs :
  utf8_encode cs = Ok (flat_map utf_out cs)
  /\ forall fuel, (length (flat_map utf_out cs) <= fuel)%nat ->
     pull_n wenc_conv fuel wenc_init cs = Ok (flat_map utf_out cs).
Proof.
  unfold utf8_encode.
  pose proof (chunks_push_pull wenc_conv wenc_good (fun _ => True) single utf_out) as H.
  specialize (fun a b c => H a b c cs wenc_init).
  rewrite (flat_map_single cs) in H. apply H; auto.
  - intros s (_ & E). exact E.
  - intros s E. exists s. split; auto.
  - intros. apply wenc_step; auto.
  - split; reflexivity.
  - apply Forall_forall. auto.
Qed.
Lemma utf_decode_lem skip cs : Forall wide_ok cs ->
  utf8_decode skip (flat_map utf_out cs) = Ok cs
  /\ forall fuel, (length cs <= fuel)%nat ->
     pull_n (wdec_conv skip) fuel wdec_init (flat_map utf_out cs) = Ok cs.
Proof.
  intros Hc. unfold utf8_decode.
  pose proof (chunks_push_pull (wdec_conv skip) wdec_good wide_ok utf_out single) as H.
  specialize (fun a b c => H a b c cs wdec_init).
  rewrite (flat_map_single cs) in H. apply H; auto.
  - intros s (_ & E). exact E.
  - intros s E. exists s. split; auto.
  - intros. apply wdec_step; auto.
  - split; reflexivity.
Qed.
Lemma utf_roundtrip_lem skip cs : Forall wide_ok cs ->
  exists txt, utf8_encode cs = Ok txt /\ utf8_decode skip txt = Ok cs
    /\ (forall fuel, (length txt <= fuel)%nat -> pull_n wenc_conv fuel wenc_init cs = Ok txt)
    /\ (forall fuel, (length cs <= fuel)%nat -> pull_n (wdec_conv skip) fuel wdec_init txt = Ok cs).
Proof.
  intros Hc. exists (flat_map utf_out cs).
  destruct (utf_encode_lem cs) as (E1 & E2). destruct (utf_decode_lem skip cs Hc) as (E3 & E4). auto.
Qed.

Lemma utf_out_standard c : code_point c -> c <> 0x7FF -> c <> 0xFFFF -> utf_out c = utf8_standard c.
Proof.
  unfold code_point, utf_out, lead_of, utf8_standard. intros Hc H1 H2.
  destruct (N.ltb_spec c 128), (N.leb_spec c 0x7F); try lia; [reflexivity|].
  destruct (N.ltb_spec c 0x7ff), (N.leb_spec c 0x7FF); try lia; [reflexivity|].
  destruct (N.ltb_spec c 0xffff), (N.leb_spec c 0xFFFF); try lia; cbn [parts_of app].
  - reflexivity.
  - destruct (N.ltb_spec c 0x1fffff); [|lia]. cbn [parts_of app]. rewrite !N.div_div by discriminate. reflexivity.
Qed.

Lemma utf_standard_lem cs : Forall code_point cs -> ~ In 0x7FF cs -> ~ In 0xFFFF cs ->
  utf8_encode cs = Ok (flat_map utf8_standard cs).
Proof.
  intros Hc H1 H2. rewrite (proj1 (utf_encode_lem cs)). f_equal.
  induction Hc as [|c cs Hc Hcs IH]; cbn [flat_map]; auto.
  rewrite IH by (cbn in *; tauto). f_equal. apply utf_out_standard; auto; cbn in *; intros K; subst; tauto.
Qed.

(** reading any bytes other than 0xFE never runs into undefined behaviour *)
Definition wdec_inv (s : wdec) : Prop :=
  wd_has s = (wd_st s =? 0) /\
  (wd_st s = 0xff \/ exists x, wd_out s = Some x /\ wd_st s <= 5 /\ x * 64 ^ wd_st s < 2 ^ 31).
Lemma wdec_write_inv skip s a : wdec_inv s -> wd_st s <> 0 -> byte_ok a -> a <> 0xFE ->
  wdec_write skip s a = Throw /\ skip = false \/ exists s2, wdec_write skip s a = Ok s2 /\ wdec_inv s2.
Proof.
  intros (Hh & Hs) Hne Ha Hfe. unfold wdec_write. destruct (N.eqb_spec (wd_st s) 0); [congruence|].
  assert (Hupd : forall x st, st <= 5 -> x * 64 ^ st < 2 ^ 31 -> wdec_inv (wdec_update (Some x) st)).
  { intros x st H1 H2. split; cbn.
    - destruct (N.ltb_spec 0 st), (N.eqb_spec st 0); try lia; reflexivity.
    - right. exists x. auto. }
  assert (Hm : forall k, N.land a (N.ones k) < 2 ^ k).
  { intros k. rewrite land_mod. apply N.mod_lt. apply N.pow_nonzero. discriminate. }
  unfold byte_ok in Ha.
  destruct (N.eqb_spec (wd_st s) 0xff) as [E|E].
  - destruct (a <? 0x80); [right; eexists; split; [reflexivity|apply Hupd; lia]|].
    destruct ((0x80 <=? a) && (a <? 0xc0)).
    { destruct skip; [right; eexists; split; [reflexivity|apply Hupd; lia]|auto]. }
    destruct ((0xC0 <=? a) && (a <? 0xE0)).
    { right; eexists; split; [reflexivity|apply Hupd; [lia|]]. pose proof (Hm 5). change (N.ones 5) with 0x1F in *. change (64 ^ 1) with 64. lia. }
    destruct ((0xE0 <=? a) && (a <? 0xF0)).
    { right; eexists; split; [reflexivity|apply Hupd; [lia|]]. pose proof (Hm 4). change (N.ones 4) with 0x0F in *. change (64 ^ 2) with 4096. lia. }
    destruct ((0xF0 <=? a) && (a <? 0xF8)).
    { right; eexists; split; [reflexivity|apply Hupd; [lia|]]. pose proof (Hm 3). change (N.ones 3) with 0x07 in *. change (64 ^ 3) with 262144. lia. }
    destruct ((0xF8 <=? a) && (a <? 0xFC)).
    { right; eexists; split; [reflexivity|apply Hupd; [lia|]]. pose proof (Hm 2). change (N.ones 2) with 0x03 in *. change (64 ^ 4) with 16777216. lia. }
    destruct ((0xFC <=? a) && (a <? 0xFE)).
    { right; eexists; split; [reflexivity|apply Hupd; [lia|]]. pose proof (Hm 1). change (N.ones 1) with 0x01 in *. change (64 ^ 5) with 1073741824. lia. }
    destruct (N.leb_spec 0xFE a), (N.ltb_spec a 0xFF); cbn [andb]; try lia;
      (right; eexists; split; [reflexivity|]); split; cbn; rewrite E; auto.
  - destruct Hs as [K|(x & Ex & H5 & Hx)]; [congruence|].
    destruct (N.leb_spec 0x80 a), (N.ltb_spec a 0xc0); cbn [andb];
      try (destruct skip; [right; eexists; split; [reflexivity|apply Hupd; lia]|auto]).
    rewrite Ex. right.
    set (k := wd_st s - 1). assert (Hk : wd_st s = N.succ k) by lia.
    rewrite Hk, N.pow_succ_r' in Hx.
    assert (Hp : 1 <= 64 ^ k) by (pose proof (N.pow_nonzero 64 k ltac:(discriminate)); lia).
    assert (Hx64 : x * 64 < 2 ^ 31) by nia.
    unfold shl6. destruct (N.ltb_spec (x * 64) (2 ^ 31)); [|lia]. cbn [obind].
    eexists. split; [reflexivity|]. apply Hupd; [lia|].
    change 0x3F with (N.ones 6). rewrite land_mod.
    assert (Hr : a mod 2 ^ 6 < 2 ^ 6) by (apply N.mod_lt; discriminate).
    replace (x * 64) with (N.shiftl x 6) by (rewrite N.shiftl_mul_pow2; reflexivity).
    rewrite lor_add by exact Hr. change (2 ^ 6) with 64 in *.
    assert (Hdiv : exists q, 2 ^ 31 = q * 64 ^ k).
    { assert (Hk4 : k <= 4) by lia. exists (2 ^ (31 - 6 * k)).
      change 64 with (2 ^ 6). rewrite <- N.pow_mul_r, <- N.pow_add_r. f_equal. lia. }
    destruct Hdiv as (q & Hq). rewrite Hq in *.
    assert (x * 64 < q) by nia.
    assert (Hq64 : exists r, q = r * 64 /\ True) .
    { exists (2 ^ (25 - 6 * k)). split; auto.
      assert (Hk4 : k <= 4) by lia.
      assert (Eq : 2 ^ (25 - 6 * k) * 64 * 64 ^ k = 2 ^ 31).
      { change 64 with (2 ^ 6). rewrite <- N.pow_mul_r, <- !N.pow_add_r. f_equal. lia. }
      nia. }
    destruct Hq64 as (r & Er & _). assert (x < r) by nia. nia.
Qed.

Definition safe {A} (skip : bool) (r : outcome A) : Prop :=
  (exists a, r = Ok a) \/ (r = Throw /\ skip = false).

Lemma writes_safe skip bs : bytes_ok bs -> ~ In 0xFE bs -> forall s, wdec_inv s -> wd_st s <> 0 ->
  (exists o s2, writes (wdec_conv skip) s bs = Ok (o, s2) /\ wdec_inv s2 /\ wd_st s2 <> 0)
  \/ (writes (wdec_conv skip) s bs = Throw /\ skip = false).
Proof.
  induction 1 as [|a bs Ha Hbs IH]; intros Hfe s Hs Hne; cbn [writes].
  - left. exists [], s. auto.
  - unfold writeToIter. pose proof Hs as (Hh & _).
    rewrite drain_empty by (cbn; rewrite Hh; apply N.eqb_neq; auto). cbn [obind cv_write wdec_conv].
    destruct (wdec_write_inv skip s a Hs Hne Ha) as [(E & K)|(s2 & E & Hs2)].
    { intros ->. apply Hfe. left. reflexivity. }
    { right. rewrite E. auto. }
    rewrite E. cbn [obind].
    assert (Hd : exists o s3, drain (wdec_conv skip) s2 = Ok (o, s3) /\ wdec_inv s3 /\ wd_st s3 <> 0).
    { destruct Hs2 as (Hh2 & Hs2). destruct (N.eqb_spec (wd_st s2) 0) as [E0|E0].
      - destruct Hs2 as [K|(x & Ex & _)]; [congruence|].
        exists [x], (wdec_update (Some x) 0xff). destruct s2 as [o st has need]. cbn in *. subst.
        split; [reflexivity|]. split; [split; [reflexivity|left; reflexivity]|discriminate].
      - exists [], s2. split; [apply drain_empty; exact Hh2|].
        split; [split; [rewrite Hh2; symmetry; apply N.eqb_neq; exact E0|exact Hs2]|exact E0]. }
    destruct Hd as (o & s3 & Ed & Hs3 & Hne3). rewrite Ed. cbn [obind app].
    destruct (IH (fun K => Hfe (or_intror K)) s3 Hs3 Hne3) as [(o2 & s4 & E4 & H4 & H4')|(E4 & K)].
    + left. rewrite E4. cbn [obind]. eauto.
    + right. rewrite E4. auto.
Qed.

Lemma utf_decode_safe skip bs : bytes_ok bs -> ~ In 0xFE bs -> safe skip (utf8_decode skip bs).
Proof.
  intros Hb Hfe. unfold utf8_decode, push_all, safe.
  assert (Hi : wdec_inv wdec_init) by (split; [reflexivity|left; reflexivity]).
  destruct (writes_safe skip bs Hb Hfe wdec_init Hi ltac:(discriminate)) as [(o & s2 & E & (Hh & _) & Hne)|(E & K)].
  - rewrite E. cbn [obind]. unfold flushToIter. cbn [cv_flush wdec_conv obind].
    rewrite drain_empty by (cbn; rewrite Hh; apply N.eqb_neq; auto). cbn [obind]. left. eauto.
  - rewrite E. auto.
Qed.
