(** Proofs about the Base16 and URL converters. *)
From Verif Require Import Common Conv_Model Conv_Proof Base64_Model Base64_Proof Base32_Model Base32_Proof
  Base16_Model Rfc4648_Spec Url_Spec.
Local Open Scope N_scope.
Ltac Zify.zify_post_hook ::= Z.div_mod_to_equations.

Definition alphabet16_ok (t : list N) : Prop :=
  length t = 16%nat /\ NoDup t /\ Forall (fun c => c < 128) t.

Lemma tab16_ok t v : length t = 16%nat -> v < 16 -> tab t v = Ok (chr t v).
Proof. intros Hl Hv. unfold tab, chr. rewrite nth_error_nth' with (d := 0); auto. lia. Qed.

Definition n0 (b : N) := N.shiftr b 4.
Definition n1 (b : N) := N.land b 15.
Lemma n0_lt b : byte_ok b -> n0 b < 16.
Proof. unfold n0, byte_ok. rewrite N.shiftr_div_pow2. change (2 ^ 4) with 16. lia. Qed.
Lemma n1_lt b : n1 b < 16.
Proof. unfold n1. change 15 with (N.ones 4). rewrite land_mod. change (2 ^ 4) with 16. lia. Qed.
Lemma n01 b : byte_ok b -> N.lor (to_byte (N.shiftl (n0 b) 4)) (n1 b) = b.
Proof.
  intros Hb. apply N.eqb_eq. revert b Hb.
  apply (sweep1 (fun b => N.lor (to_byte (N.shiftl (n0 b) 4)) (n1 b) =? b)). vm_compute. reflexivity.
Qed.
Lemma rfc4_cons b xs : byte_ok b -> rfc_symbols 4 (b :: xs) = n0 b :: n1 b :: rfc_symbols 4 xs.
Proof.
  intros Hb. unfold rfc_symbols, bit_string, byte_bits.
  cbn [flat_map map app bit_groups length Nat.eqb rev repeat minus]. f_equal; [|f_equal].
  - apply N.eqb_eq. revert b Hb.
    apply (sweep1 (fun b => bits_value [N.testbit b 7; N.testbit b 6; N.testbit b 5; N.testbit b 4] =? n0 b)).
    vm_compute. reflexivity.
  - apply N.eqb_eq. revert b Hb.
    apply (sweep1 (fun b => bits_value [N.testbit b 3; N.testbit b 2; N.testbit b 1; N.testbit b 0] =? n1 b)).
    vm_compute. reflexivity.
Qed.

Definition pair16 (t : list N) (b : N) : list N := [chr t (n0 b); chr t (n1 b)].
Lemma rfc16_text t xs : bytes_ok xs -> rfc_text 4 2 t 0 xs = flat_map (pair16 t) xs.
Proof.
  unfold rfc_text, rfc_padding. cbn [N.eqb]. rewrite app_nil_r.
  induction 1 as [|b xs Hb Hxs IH]; [reflexivity|].
  rewrite rfc4_cons by auto. cbn [map flat_map pair16 app]. rewrite <- IH. reflexivity.
Qed.

Definition single {A} (x : A) : list A := [x].
Lemma flat_map_single {A} (l : list A) : flat_map single l = l.
Proof. induction l; cbn; congruence. Qed.

Definition enc16_good (s : enc16) : Prop := length (h_out s) = 2%nat /\ h_has s = false.

Lemma enc16_step t s x : length t = 16%nat -> enc16_good s -> byte_ok x ->
  exists s2, block_loop (enc16_conv t) s (single x) = Ok (pair16 t x, s2, length (single x)) /\ enc16_good s2.
Proof.
  intros Ht (Hl & Hh) Hx. destruct s as [o rd has need]. cbn in Hl, Hh. subst has.
  destruct o as [|a [|b [|]]]; try discriminate.
  unfold single. cbn. unfold enc16_write. fold (n0 x) (n1 x).
  rewrite !tab16_ok by (auto using n0_lt, n1_lt). cbn.
  eexists. split; [reflexivity|]. split; reflexivity.
Qed.

Lemma enc16_all t xs : length t = 16%nat -> bytes_ok xs ->
  base16_encode t xs = Ok (rfc_text 4 2 t 0 xs)
  /\ forall fuel, (length (rfc_text 4 2 t 0 xs) <= fuel)%nat ->
     pull_n (enc16_conv t) fuel enc16_init xs = Ok (rfc_text 4 2 t 0 xs).
Proof.
  intros Ht Hb. rewrite rfc16_text by auto. unfold base16_encode.
  pose proof (chunks_push_pull (enc16_conv t) enc16_good byte_ok single (pair16 t)) as H.
  specialize (fun a b c => H a b c xs enc16_init).
  rewrite (flat_map_single xs) in H. apply H; auto.
  - intros s (_ & E). exact E.
  - intros s E. exists s. split; auto.
  - intros s x Hs Hx. apply enc16_step; auto.
  - split; reflexivity.
Qed.

Definition table16_for (t : list N) (tbl : list (option N)) : Prop :=
  forall v, v < 16 -> cell tbl (N.to_nat (chr t v)) = Ok v.

Lemma initTable16_for t : alphabet16_ok t -> exists tbl, initTableCase 15 false t = Ok tbl /\ table16_for t tbl.
Proof.
  intros (Hl & Hd & Hc).
  destruct (initCase_from_ok 15 t 0 (repeat None 256)) as (tbl & E & _ & _); auto.
  exists tbl. split; [exact E|]. intros v Hv. unfold cell, chr.
  rewrite (initCase_from_at 15 t 0 (repeat None 256) Hc Hd eq_refl tbl E) by lia.
  f_equal. rewrite N.add_0_l, N2Nat.id. change 15 with (N.ones 4). rewrite land_mod.
  apply N.mod_small. exact Hv.
Qed.

Definition dec16_good (s : dec16) : Prop := k_wr s = false /\ k_has s = false.

Lemma dec16_step t tbl s x : table16_for t tbl -> dec16_good s -> byte_ok x ->
  exists s2, block_loop (dec16_conv tbl) s (pair16 t x) = Ok (single x, s2, length (pair16 t x)) /\ dec16_good s2.
Proof.
  intros Ht (Hw & Hh) Hx. destruct s as [o wr has need]. cbn in Hw, Hh. subst.
  unfold pair16. cbn [block_loop cv_eolb dec16_conv cv_write]. unfold dec16_write.
  rewrite (Ht (n0 x)) by (auto using n0_lt). cbn [obind k_wr k_out]. rewrite drain_empty by reflexivity.
  cbn [obind k_wr k_out].
  rewrite (Ht (n1 x)) by (auto using n1_lt). cbn [obind k_wr k_out]. rewrite n01 by auto. cbn.
  eexists. split; [reflexivity|]. split; reflexivity.
Qed.

Lemma dec16_all t tbl xs : table16_for t tbl -> bytes_ok xs ->
  push_all (dec16_conv tbl) dec16_init (rfc_text 4 2 t 0 xs) = Ok xs
  /\ forall fuel, (length xs <= fuel)%nat ->
     pull_n (dec16_conv tbl) fuel dec16_init (rfc_text 4 2 t 0 xs) = Ok xs.
Proof.
  intros Ht Hb. rewrite rfc16_text by auto.
  pose proof (chunks_push_pull (dec16_conv tbl) dec16_good byte_ok (pair16 t) single) as H.
  specialize (fun a b c => H a b c xs dec16_init).
  rewrite (flat_map_single xs) in H. apply H; auto.
  - intros s (_ & E). exact E.
  - intros s (E1 & E2). exists s. split; [|split; auto]. cbn. unfold dec16_flush. rewrite E1. reflexivity.
  - intros s x Hs Hx. apply dec16_step; auto.
  - split; reflexivity.
Qed.

Lemma base16_roundtrip_lem t xs : alphabet16_ok t -> bytes_ok xs ->
  exists txt, base16_encode t xs = Ok txt /\ base16_decode t false txt = Ok xs
    /\ length txt = (2 * length xs)%nat /\ Forall (fun c => In c t) txt.
Proof.
  intros Ht Hb. pose proof Ht as (Hl & _).
  exists (rfc_text 4 2 t 0 xs). split; [apply enc16_all; auto|].
  destruct (initTable16_for t Ht) as (tbl & E & Htb). unfold base16_decode. rewrite E. cbn [obind].
  split; [apply (dec16_all t tbl xs); auto|].
  rewrite rfc16_text by auto. clear E Htb Ht. split.
  - clear Hb. induction xs; cbn; lia.
  - induction Hb as [|b xs Hb Hxs IH]; cbn; auto.
    constructor; [|constructor; auto]; unfold chr; apply nth_In; rewrite Hl.
    + pose proof (n0_lt b Hb). lia.
    + pose proof (n1_lt b). lia.
Qed.

(** the decoder constructed with both letter cases *)
Definition all16 (f : N -> bool) : bool := forallb f (Nrange 16).
Lemma all16_sound f : all16 f = true -> forall v, v < 16 -> f v = true.
Proof. intros H v Hv. unfold all16 in H. rewrite forallb_forall in H. apply H, (in_Nrange 16 v Hv). Qed.
Definition cell_is (tbl : list (option N)) (c v : N) : bool :=
  match cell tbl (N.to_nat c) with Ok w => w =? v | _ => false end.
Lemma table16_check t tbl : all16 (fun v => cell_is tbl (chr t v) v) = true -> table16_for t tbl.
Proof.
  intros H v Hv. pose proof (all16_sound _ H v Hv) as K. unfold cell_is in K.
  destruct (cell tbl (N.to_nat (chr t v))); try discriminate.
  apply N.eqb_eq in K. congruence.
Qed.
Lemma base16_both_lem t xs : t = hexUpper \/ t = hexLower -> bytes_ok xs ->
  exists txt, base16_encode t xs = Ok txt
    /\ base16_decode hexUpper true txt = Ok xs /\ base16_decode hexLower true txt = Ok xs.
Proof.
  intros Ht Hb. exists (rfc_text 4 2 t 0 xs). split.
  - apply enc16_all; auto. destruct Ht; subst; reflexivity.
  - unfold base16_decode. split;
    (destruct (initTableCase 15 true _) as [tbl| | |] eqn:E; vm_compute in E; try discriminate;
     injection E as <-; cbn [obind];
     apply (dec16_all t _ xs); [destruct Ht; subst; apply table16_check; vm_compute; reflexivity|exact Hb]).
Qed.

(** ---- URL ---- *)
Definition url_text (x : N) : list N := if url_plain x then [x] else 37 :: pair16 hexUpper x.

Definition urlenc_good (s : urlenc) : Prop := length (u_buf s) = 3%nat /\ u_has s = false.
Lemma urlenc_step s x : urlenc_good s -> byte_ok x ->
  exists s2, block_loop urlenc_conv s (single x) = Ok (url_text x, s2, length (single x)) /\ urlenc_good s2.
Proof.
  intros (Hl & Hh) Hx. destruct s as [o mx rd has need]. cbn in Hl, Hh. subst has.
  destruct o as [|a [|b [|c [|]]]]; try discriminate.
  unfold single, url_text. cbn. unfold urlenc_write. destruct (url_plain x).
  - cbn. eexists. split; [reflexivity|]. split; reflexivity.
  - unfold enc16_write. fold (n0 x) (n1 x).
    rewrite !tab16_ok by (auto using n0_lt, n1_lt). cbn [setc obind].
    cbn -[N.shiftr N.land chr n0 n1].
    eexists. split; [reflexivity|]. split; reflexivity.
Qed.

Definition urldec_good (s : urldec) : Prop := length (w_buf s) = 3%nat /\ w_has s = false /\ w_pos s = 0%nat.
Lemma urldec_step s x : urldec_good s -> byte_ok x ->
  exists s2, block_loop urldec_conv s (url_text x) = Ok (single x, s2, length (url_text x)) /\ urldec_good s2.
Proof.
  intros (Hl & Hh & Hp) Hx. destruct s as [o pos has need]. cbn in Hl, Hh, Hp. subst.
  destruct o as [|a [|b [|c [|]]]]; try discriminate.
  unfold url_text, single. destruct (url_plain x) eqn:Hpl.
  - assert (x <> 43 /\ x <> 37) as (H1 & H2)
      by (unfold url_plain, in_range in Hpl; lia).
    apply N.eqb_neq in H1, H2.
    cbn. unfold urldec_write. cbn [w_pos w_buf]. rewrite H1, H2. cbn.
    eexists. split; [reflexivity|]. repeat split; reflexivity.
  - unfold pair16. cbn [block_loop cv_eolb urldec_conv cv_write].
    assert (E0 : urldec_write {| w_buf := [a; b; c]; w_pos := 0; w_has := false; w_need := need |} 37
       = Ok {| w_buf := [Some 37; b; c]; w_pos := 1; w_has := false; w_need := need |}) by reflexivity.
    rewrite E0. cbn [obind]. rewrite drain_empty by reflexivity. cbn [obind].
    assert (E1 : forall v, urldec_write {| w_buf := [Some 37; b; c]; w_pos := 1; w_has := false; w_need := need |} v
       = Ok {| w_buf := [Some 37; Some v; c]; w_pos := 2; w_has := false; w_need := need |}) by reflexivity.
    rewrite E1. cbn [obind]. rewrite drain_empty by reflexivity. cbn [obind].
    destruct (initTable16_for hexUpper) as (tbl & E & Htb).
    { split; [reflexivity|]. split; [apply nodupb_sound; vm_compute; reflexivity|].
      apply Forall_forall. intros y Hy.
      assert (H : forallb (fun c => c <? 128) hexUpper = true) by (vm_compute; reflexivity).
      rewrite forallb_forall in H. apply N.ltb_lt, H, Hy. }
    assert (E2 : urldec_write {| w_buf := [Some 37; Some (chr hexUpper (n0 x)); c]; w_pos := 2; w_has := false; w_need := need |} (chr hexUpper (n1 x))
       = Ok {| w_buf := [Some x; Some (chr hexUpper (n0 x)); Some (chr hexUpper (n1 x))]; w_pos := 0; w_has := true; w_need := false |}).
    { unfold urldec_write. cbn [w_pos w_buf setc upd length Nat.ltb Nat.leb obind negb Nat.eqb cell nth_error].
      rewrite E. cbn [obind]. unfold dec16_write. rewrite !Htb by auto using n0_lt, n1_lt.
      cbn [obind k_wr dec16_init k_out]. rewrite ?Htb by auto using n0_lt, n1_lt.
      cbn [obind k_wr dec16_init k_out]. rewrite n01 by auto. reflexivity. }
    rewrite E2. cbn [obind].
    assert (E3 : forall q r, drain urldec_conv {| w_buf := [Some x; q; r]; w_pos := 0; w_has := true; w_need := false |}
       = Ok ([x], {| w_buf := [Some x; q; r]; w_pos := 0; w_has := false; w_need := true |})) by reflexivity.
    rewrite E3. cbn. eexists. split; [reflexivity|]. repeat split; reflexivity.
Qed.

Lemma url_encode_lem xs : bytes_ok xs ->
  url_encode xs = Ok (flat_map url_text xs)
  /\ forall fuel, (length (flat_map url_text xs) <= fuel)%nat ->
     pull_n urlenc_conv fuel urlenc_init xs = Ok (flat_map url_text xs).
Proof.
  intros Hb. unfold url_encode.
  pose proof (chunks_push_pull urlenc_conv urlenc_good byte_ok single url_text) as H.
  specialize (fun a b c => H a b c xs urlenc_init).
  rewrite (flat_map_single xs) in H. apply H; auto.
  - intros s (_ & E). exact E.
  - intros s E. exists s. split; auto.
  - intros. apply urlenc_step; auto.
  - split; reflexivity.
Qed.
Lemma url_decode_lem xs : bytes_ok xs ->
  url_decode (flat_map url_text xs) = Ok xs
  /\ forall fuel, (length xs <= fuel)%nat ->
     pull_n urldec_conv fuel urldec_init (flat_map url_text xs) = Ok xs.
Proof.
  intros Hb. unfold url_decode.
  pose proof (chunks_push_pull urldec_conv urldec_good byte_ok url_text single) as H.
  specialize (fun a b c => H a b c xs urldec_init).
  rewrite (flat_map_single xs) in H. apply H; auto.
  - intros s (_ & E & _). exact E.
  - intros s G. exists s. split; auto.
  - intros. apply urldec_step; auto.
  - repeat split; reflexivity.
Qed.

Lemma url_plain_spec x : url_plain x = true <-> is_unreserved x.
Proof. unfold url_plain, in_range, is_unreserved. lia. Qed.

Lemma url_text_spec b : byte_ok b -> percent_text b (url_text b).
Proof.
  intros Hb. unfold percent_text, url_text. destruct (url_plain b) eqn:E.
  - left. split; auto. apply url_plain_spec; auto.
  - right. split. { intros K. apply url_plain_spec in K. congruence. }
    clear E. unfold pair16. f_equal. f_equal.
    + apply N.eqb_eq. revert b Hb.
      apply (sweep1 (fun b => chr hexUpper (n0 b) =? upper_hex (b / 16))). vm_compute. reflexivity.
    + f_equal. apply N.eqb_eq. revert b Hb.
      apply (sweep1 (fun b => chr hexUpper (n1 b) =? upper_hex (b mod 16))). vm_compute. reflexivity.
Qed.

Lemma url_roundtrip_lem xs : bytes_ok xs ->
  exists txts, Forall2 percent_text xs txts
    /\ url_encode xs = Ok (concat txts) /\ url_decode (concat txts) = Ok xs.
Proof.
  intros Hb. exists (map url_text xs). repeat split.
  - induction Hb; cbn; constructor; auto. apply url_text_spec; auto.
  - rewrite <- flat_map_concat_map. apply url_encode_lem; auto.
  - rewrite <- flat_map_concat_map. apply url_decode_lem; auto.
Qed.

Lemma url_pull_lem xs : bytes_ok xs ->
  exists txt, url_encode xs = Ok txt
    /\ (forall fuel, (length txt <= fuel)%nat -> pull_n urlenc_conv fuel urlenc_init xs = Ok txt)
    /\ (forall fuel, (length xs <= fuel)%nat -> pull_n urldec_conv fuel urldec_init txt = Ok xs).
Proof.
  intros Hb. destruct (url_encode_lem xs Hb) as (E1 & E2). destruct (url_decode_lem xs Hb) as (_ & E4).
  exists (flat_map url_text xs). auto.
Qed.

Lemma hex_alphabets_ok : alphabet16_ok hexUpper /\ alphabet16_ok hexLower.
Proof.
  split; (split; [reflexivity|]; split; [apply nodupb_sound; vm_compute; reflexivity|];
    apply Forall_forall; intros y Hy).
  - assert (H : forallb (fun c => c <? 128) hexUpper = true) by (vm_compute; reflexivity).
    rewrite forallb_forall in H. apply N.ltb_lt, H, Hy.
  - assert (H : forallb (fun c => c <? 128) hexLower = true) by (vm_compute; reflexivity).
    rewrite forallb_forall in H. apply N.ltb_lt, H, Hy.
Qed.
