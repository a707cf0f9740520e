(** Round trip of LZWCompress / LZWDecompress. *)
From Verif Require Import Common Conv_Model Conv_Proof Base64_Model Lzw_Model Lzw_Bits.
Local Open Scope N_scope.

(** * the decoder on codes *)
Definition lstate := (list (N * N) * N * N)%type.   (* dictionary, previous code, width *)
Definition dd (d : list (N * N)) (prev : N) (code : N) := decodeData (mkLD d prev 0 0 9 [] false true false) code.
Definition wnext (d : list (N * N)) (w : N) : N :=
  if u16 (N.of_nat (length d) + firstChainCode) + 1 =? 2 ^ w then w + 1 else w.

Inductive lrun : lstate -> list (N * N) -> list N -> lstate -> Prop :=
| lr_nil L : lrun L [] [] L
| lr_data d prev w code out d' cs o L' :
    9 <= w <= 16 -> code < 2 ^ w -> code <> clearCode -> code <> endData ->
    dd d prev code = Ok (out, d') -> out <> [] ->
    lrun (d', code, wnext d w) cs o L' -> lrun (d, prev, w) ((code, w) :: cs) (out ++ o) L'
| lr_clear d prev w cs o L' :
    9 <= w <= 16 -> lrun ([], nullChainCode, 9) cs o L' -> lrun (d, prev, w) ((clearCode, w) :: cs) o L'.

Lemma lrun_app L cs o L1 cs2 o2 L2 : lrun L cs o L1 -> lrun L1 cs2 o2 L2 -> lrun L (cs ++ cs2) (o ++ o2) L2.
Proof.
  induction 1; intros HL2; cbn [app]; auto.
  - rewrite <- app_assoc. eapply lr_data; eauto.
  - eapply lr_clear; eauto.
Qed.

Definition codes_bits (cs : list (N * N)) : list bool :=
  flat_map (fun cw => bits (N.to_nat (snd cw)) (fst cw)) cs.

(** * decoder on bytes *)
Definition dstate (s : ldec) (L : lstate) (p : list bool) : Prop :=
  let '(d, prev, w) := L in
  ld_dict s = d /\ ld_prev s = prev /\ ld_bits s = w /\ ld_has s = false /\ ld_eolb s = false
  /\ ld_inb s < w /\ ld_acc s < 2 ^ ld_inb s /\ p = bits (N.to_nat (ld_inb s)) (ld_acc s).

Lemma app_len_inj {A} (a c b d : list A) : length a = length c -> a ++ b = c ++ d -> a = c /\ b = d.
Proof.
  revert c; induction a as [|x a IH]; intros [|y c] L E; try discriminate; auto.
  cbn in *. injection E as -> E. destruct (IH c ltac:(lia) E). subst; auto.
Qed.

(** one byte read by the decoder in terms of bits *)
Lemma append_bits s L p b w c tail zs :
  dstate s L p -> snd L = w -> 9 <= w <= 16 -> b < 256 -> c < 2 ^ w ->
  p ++ byte_bits8 (b :: zs) = bits (N.to_nat w) c ++ tail ->
  (exists s', appendBits s b = (None, s') /\ dstate s' L (p ++ bits 8 b)
     /\ (p ++ bits 8 b) ++ byte_bits8 zs = bits (N.to_nat w) c ++ tail)
  \/ (exists s' p', appendBits s b = (Some c, s') /\ dstate s' L p' /\ p' ++ byte_bits8 zs = tail
     /\ ld_inb s' < 8).
Proof.
  destruct L as ((d, prev), w0). intros (Hd & Hp & Hb & Hh & He & Hi & Ha & Hbits) E1 Hw Hbyte Hc E.
  cbn in E1. subst w0. unfold appendBits.
  assert (Hacc : N.lor (N.shiftl (ld_acc s) 8) b mod 2 ^ 64 = ld_acc s * 2 ^ 8 + b).
  { rewrite lor_add by exact Hbyte. apply N.mod_small.
    assert (2 ^ ld_inb s <= 2 ^ 16) by (apply N.pow_le_mono_r; lia).
    change (2 ^ 16) with 65536 in *. change (2 ^ 8) with 256. change (2 ^ 64) with 18446744073709551616. lia. }
  rewrite Hacc. set (acc := ld_acc s * 2 ^ 8 + b) in *.
  assert (Hlt : acc < 2 ^ (ld_inb s + 8)).
  { unfold acc. rewrite N.pow_add_r. change (2 ^ 8) with 256. nia. }
  assert (Hbb : p ++ bits 8 b = bits (N.to_nat (ld_inb s + 8)) acc).
  { rewrite Hbits. unfold acc. replace (N.to_nat (ld_inb s + 8)) with (N.to_nat (ld_inb s) + 8)%nat by lia.
    symmetry. apply (bits_app _ 8). exact Hbyte. }
  cbn [byte_bits8 flat_map] in E. fold (byte_bits8 zs) in E. rewrite app_assoc in E.
  destruct (N.leb_spec (ld_bits s) (ld_inb s + 8)) as [Hle|Hgt].
  - right. set (r := ld_inb s + 8 - ld_bits s) in *.
    rewrite Hbb in E. replace (N.to_nat (ld_inb s + 8)) with (N.to_nat w + N.to_nat r)%nat in E by lia.
    rewrite bits_split, N2Nat.id, <- app_assoc in E.
    apply app_len_inj in E; [|now rewrite !bits_length]. destruct E as [Ec Et].
    assert (Hq : acc / 2 ^ r < 2 ^ w).
    { apply N.div_lt_upper_bound; [pose proof (pow_pos r); lia|]. rewrite <- N.pow_add_r.
      replace (r + w) with (ld_inb s + 8) by lia. exact Hlt. }
    apply bits_inj in Ec; try (rewrite N2Nat.id; assumption).
    rewrite N.shiftr_div_pow2, Ec.
    unfold u16. rewrite N.mod_small.
    2:{ eapply N.lt_le_trans; [exact Hc|]. apply N.pow_le_mono_r; lia. }
    eexists _, _. split; [reflexivity|]. rewrite N.land_ones. split.
    + cbn. repeat split; auto; try lia; try (apply N.mod_lt; pose proof (pow_pos r); lia).
    + cbn [ld_inb ld_acc]. split; [exact Et|]. lia.
  - left. eexists. split; [reflexivity|]. split; [|exact E].
    cbn. repeat split; auto; try lia.
Qed.

Lemma dd_eq s code : decodeData s code = dd (ld_dict s) (ld_prev s) code.
Proof. reflexivity. Qed.

Lemma drain_out : forall out d prev acc inb w has need,
  has = (match out with [] => false | _ => true end) ->
  exists s', drain_n ldec_conv (length out) (mkLD d prev acc inb w out has need false) = Ok (out, s')
   /\ ld_dict s' = d /\ ld_prev s' = prev /\ ld_acc s' = acc /\ ld_inb s' = inb /\ ld_bits s' = w
   /\ ld_has s' = false /\ ld_eolb s' = false.
Proof.
  induction out as [|b out IH]; intros d prev acc inb w has need ->.
  - eexists. split; [reflexivity|]. cbn. repeat split.
  - cbn [length drain_n ldec_conv cv_has ld_has cv_next ldec_next ld_outb obind ld_dict ld_prev ld_acc ld_inb ld_bits ld_eolb].
    destruct (IH d prev acc inb w (match out with [] => false | _ => true end)
        (match out with [] => true | _ => false end) eq_refl) as (s' & E & H).
    rewrite E. cbn [obind]. eexists. split; [reflexivity|]. exact H.
Qed.

Lemma wnext_bounds d w : 9 <= w <= 16 -> w <= wnext d w.
Proof. intros. unfold wnext. destruct (_ =? _); lia. Qed.

(** a run of the code-level decoder, followed by the end code, read from bytes *)
Lemma dec_bytes zs : forall L cs o d prev w p s pad, bytes_ok zs ->
  lrun L cs o (d, prev, w) -> 9 <= w <= 16 -> dstate s L p ->
  p ++ byte_bits8 zs = codes_bits cs ++ bits (N.to_nat w) endData ++ pad ->
  pull_n ldec_conv (length o) s zs = Ok o.
Proof.
  induction zs as [|b zs IH]; intros L cs o d prev w p s pad Hz Hrun Hw Hs E.
  - exfalso. cbn [byte_bits8 flat_map] in E. rewrite app_nil_r in E.
    destruct L as ((d0, p0), w0). destruct Hs as (Hd & Hp & Hb & Hh & He & Hi & Ha & Hbits).
    assert (Hlen : (length p < N.to_nat w0)%nat) by (subst p; rewrite bits_length; lia).
    apply (f_equal (@length bool)) in E. rewrite !app_length in E.
    inversion Hrun; subst; cbn [codes_bits flat_map fst snd] in E; rewrite ?app_length, ?bits_length in E; cbn [length] in E;
      rewrite ?bits_length in E; lia.
  - inversion Hz as [|? ? Hb Hz']; subst. unfold byte_ok in Hb.
    assert (Hhas : ld_has s = false /\ ld_eolb s = false).
    { destruct L as ((?, ?), ?). cbn in Hs. tauto. }
    destruct Hhas as [Hhas Heol].
    inversion Hrun as [L0 E1 E2 E3 E4 | d0 prev0 w0 code out d' cs0 o0 L' Hw0 Hc Hnc Hne Hdd Hout Hrun' E1 E2 E3 E4 | d0 prev0 w0 cs0 o0 L' Hw0 Hrun' E1 E2 E3 E4]; subst.
    + (* end code comes next *)
      cbn [codes_bits flat_map app] in E.
      destruct (append_bits s (d, prev, w) p b w endData pad zs Hs eq_refl Hw Hb) as [(s' & Ea & Hs' & E')|(s' & p' & Ea & Hs' & E' & _)]; auto.
      { assert (2 ^ 9 <= 2 ^ w) by (apply N.pow_le_mono_r; lia). change (2 ^ 9) with 512 in *. unfold endData. lia. }
      * rewrite (pull_skip ldec_conv _ s zs s' b); auto.
        -- apply (IH (d, prev, w) [] [] d prev w (p ++ bits 8 b) s' pad); auto.
        -- cbn [ldec_conv cv_write]. unfold ldec_write. rewrite Ea. reflexivity.
      * assert (Ew : exists s2, ldec_write s b = Ok s2 /\ ld_has s2 = false /\ ld_eolb s2 = true).
        { unfold ldec_write. rewrite Ea. change (endData =? clearCode) with false. change (endData =? endData) with true. cbv iota.
          eexists. split; [reflexivity|]. cbn. destruct Hs' as (_ & _ & _ & Hh' & _). auto. }
        destruct Ew as (s2 & Ew & Hh2 & He2).
        rewrite (pull_skip ldec_conv _ s zs s2 b); auto.
        apply (pull_end ldec_conv s2 zs s2); auto.
    + (* a data code *)
      cbn [codes_bits flat_map fst snd] in E. fold (codes_bits cs0) in E. rewrite <- app_assoc in E.
      destruct (append_bits s (d0, prev0, w0) p b w0 code _ zs Hs eq_refl Hw0 Hb Hc E) as [(s' & Ea & Hs' & E')|(s' & p' & Ea & Hs' & E' & Hin)].
      * rewrite (pull_skip ldec_conv _ s zs s' b); auto.
        -- apply (IH (d0, prev0, w0) ((code, w0) :: cs0) (out ++ o0) d prev w (p ++ bits 8 b) s' pad); auto.
           cbn [codes_bits flat_map fst snd]. fold (codes_bits cs0). rewrite E', <- app_assoc. reflexivity.
        -- cbn [ldec_conv cv_write]. unfold ldec_write. rewrite Ea. reflexivity.
      * destruct Hs' as (Hd' & Hp' & Hb' & Hh' & He' & Hi' & Ha' & Hbits').
        assert (Ew : ldec_write s b = Ok (mkLD d' code (ld_acc s') (ld_inb s') (wnext d0 w0) out true false false)).
        { unfold ldec_write. rewrite Ea.
          destruct (N.eqb_spec code clearCode); [contradiction|]. destruct (N.eqb_spec code endData); [contradiction|].
          rewrite dd_eq, Hd', Hp', Hdd. cbn [obind]. rewrite Hb'. reflexivity. }
        rewrite (pull_skip ldec_conv _ s zs _ b Hhas Heol Ew).
        destruct (drain_out out d' code (ld_acc s') (ld_inb s') (wnext d0 w0) true false) as (s3 & Ed & H1 & H2 & H3 & H4 & H5 & H6 & H7).
        { destruct out; [contradiction|reflexivity]. }
        rewrite app_length. eapply pull_drain; [exact Ed|].
        apply (IH (d', code, wnext d0 w0) cs0 o0 d prev w p' s3 pad); auto.
        cbn. rewrite H3, H4. pose proof (wnext_bounds d0 w0 Hw0). repeat split; auto. lia.
    + (* clear *)
      cbn [codes_bits flat_map fst snd] in E. fold (codes_bits cs0) in E. rewrite <- app_assoc in E.
      assert (Hc : clearCode < 2 ^ w0).
      { assert (2 ^ 9 <= 2 ^ w0) by (apply N.pow_le_mono_r; lia). change (2 ^ 9) with 512 in *. unfold clearCode. lia. }
      destruct (append_bits s (d0, prev0, w0) p b w0 clearCode _ zs Hs eq_refl Hw0 Hb Hc E) as [(s' & Ea & Hs' & E')|(s' & p' & Ea & Hs' & E' & Hin)].
      * rewrite (pull_skip ldec_conv _ s zs s' b); auto.
        -- apply (IH (d0, prev0, w0) ((clearCode, w0) :: cs0) o d prev w (p ++ bits 8 b) s' pad); auto.
           cbn [codes_bits flat_map fst snd]. fold (codes_bits cs0). rewrite E', <- app_assoc. reflexivity.
        -- cbn [ldec_conv cv_write]. unfold ldec_write. rewrite Ea. reflexivity.
      * destruct Hs' as (Hd' & Hp' & Hb' & Hh' & He' & Hi' & Ha' & Hbits').
        eassert (Ew : ldec_write s b = Ok _).
        { unfold ldec_write. rewrite Ea. change (clearCode =? clearCode) with true. cbv iota. reflexivity. }
        rewrite (pull_skip ldec_conv _ s zs _ b Hhas Heol Ew).
        apply (IH ([], nullChainCode, 9) cs0 o d prev w p' _ pad); auto.
        cbn. repeat split; auto. lia.
Qed.

(** * chains of the dictionary *)
Inductive chain (T : list (N * N)) : N -> list N -> Prop :=
| ch_byte c : c < 256 -> chain T c [c]
| ch_ext c p b l : firstChainCode <= c -> nth_error T (N.to_nat (c - firstChainCode)) = Some (b, p) ->
    p < c -> chain T p l -> chain T c (l ++ [b]).

Lemma chain_nonempty T c l : chain T c l -> l <> [].
Proof. intros H. inversion H; subst; try discriminate. destruct l0; discriminate. Qed.

Lemma chain_bound T c l : chain T c l -> c < 256 \/ (firstChainCode <= c < firstChainCode + N.of_nat (length T)).
Proof.
  intros H. inversion H; subst; [left; auto|right]. split; auto.
  assert (N.to_nat (c - firstChainCode) < length T)%nat by (apply nth_error_Some; congruence). lia.
Qed.

Lemma chain_app T x c l : chain T c l -> chain (T ++ x) c l.
Proof.
  induction 1; [now constructor|]. eapply ch_ext; eauto.
  rewrite nth_error_app1; auto. apply nth_error_Some. congruence.
Qed.

Lemma chain_cut T x c l : chain (T ++ [x]) c l -> c < firstChainCode + N.of_nat (length T) -> chain T c l.
Proof.
  intros H. remember (T ++ [x]) as T1 eqn:ET.
  induction H as [c Hc|c p b l H1 H2 H3 H4 IH]; intros Hlt; [now constructor|].
  apply (ch_ext T c p b l); auto.
  - subst T1. rewrite nth_error_app1 in H2; auto. lia.
  - apply IH; auto. lia.
Qed.

Lemma extract_chain T c l : chain T c l -> bytes_ok l -> forall fuel st,
  (N.to_nat (c + 1 - firstChainCode) <= fuel)%nat ->
  extractCode fuel T c st = Ok (l ++ st).
Proof.
  induction 1 as [c Hc|c p b l H1 H2 H3 H4 IH]; intros Hb fuel st Hf.
  - assert (firstChainCode <=? c = false) by (apply N.leb_gt; unfold firstChainCode; lia).
    destruct fuel; cbn [extractCode]; rewrite H; unfold u8; rewrite N.mod_small by exact Hc; reflexivity.
  - apply Forall_app in Hb. destruct Hb as [Hl Hbb].
    destruct fuel; [lia|]. cbn [extractCode].
    destruct (N.leb_spec firstChainCode c); [|lia]. rewrite H2.
    rewrite IH by (auto; lia). rewrite <- app_assoc. reflexivity.
Qed.

(** * what the decoder knows when the encoder has table [T] and current string [lc] *)
Definition sync (T : list (N * N)) (lc : list N) (d : list (N * N)) (prev : N) : Prop :=
  (T = [] /\ d = [] /\ prev = nullChainCode) \/
  (exists T0 b0 p0 lp, T = T0 ++ [(b0, p0)] /\ d = T0 /\ prev = p0 /\ p0 <> nullChainCode
     /\ chain T0 p0 lp /\ hd 0 lc = b0).

Lemma u16_small x : x < 65536 -> u16 x = x.
Proof. intros. apply N.mod_small. exact H. Qed.

Lemma hd_app (l m : list N) : l <> [] -> hd 0 (l ++ m) = hd 0 l.
Proof. destruct l; [contradiction|reflexivity]. Qed.

Lemma chain_bytes T c l : (forall i b p, nth_error T i = Some (b, p) -> b < 256) -> chain T c l -> bytes_ok l.
Proof.
  intros HT. induction 1 as [c Hc|c p b l H1 H2 H3 H4 IH]; [repeat constructor; exact Hc|].
  apply Forall_app. split; auto. repeat constructor. eapply HT; eauto.
Qed.

Lemma chain_det T c l : chain T c l -> forall l', chain T c l' -> l = l'.
Proof.
  induction 1 as [c Hc|c p b l H1 H2 H3 H4 IH]; intros l' H.
  - inversion H; subst; auto. unfold firstChainCode in *. lia.
  - inversion H as [|c' p' b' m H1' H2' H3' H4' E1 E2]; subst; [unfold firstChainCode in *; lia|].
    rewrite H2 in H2'. injection H2' as <- <-. f_equal. auto.
Qed.

Lemma decode_step T lc d prev cur :
  (forall i b p, nth_error T i = Some (b, p) -> b < 256) ->
  sync T lc d prev -> chain T cur lc -> N.of_nat (length T) + firstChainCode < 65536 ->
  dd d prev cur = Ok (lc, T).
Proof.
  intros HB Hs Hc Hlen. unfold dd, decodeData. cbn [ld_dict ld_prev].
  pose proof (chain_bytes T cur lc HB Hc) as Hlb.
  destruct Hs as [(-> & -> & ->)|(T0 & b0 & p0 & lp & -> & -> & -> & Hp0 & Hlp & Hhd)].
  - inversion Hc as [c H256|c p b l H1 H2 H3 H4]; subst.
    + destruct (N.ltb_spec cur 256); [|lia]. reflexivity.
    + destruct (N.to_nat (cur - firstChainCode)); discriminate.
  - rewrite app_length in Hlen. cbn [length] in Hlen.
    rewrite u16_small by lia.
    destruct (N.eqb_spec p0 nullChainCode); [contradiction|].
    destruct (N.ltb_spec cur 256).
    + inversion Hc as [c H256|c p b l H1 H2 H3 H4]; subst; [|unfold firstChainCode in *; lia].
      cbn [hd]. reflexivity.
    + destruct (N.eqb_spec cur (N.of_nat (length T0) + firstChainCode)) as [Ecur|Hne].
      * inversion Hc as [c H256|c p b l H1 H2 H3 H4]; subst c; [lia|].
        assert (Ei : N.to_nat (cur - firstChainCode) = length T0) by lia.
        rewrite Ei, nth_error_app2, Nat.sub_diag in H2 by lia. cbn in H2.
        injection H2 as <- <-.
        assert (Hb : bytes_ok lp).
        { eapply chain_bytes; [|exact Hlp]. intros i b p Hi. apply (HB i b p).
          rewrite nth_error_app1; auto. apply nth_error_Some; congruence. }
        rewrite (extract_chain T0 p0 lp Hlp Hb).
        2:{ pose proof (chain_bound _ _ _ Hlp). unfold firstChainCode in *. lia. }
        cbn [obind].
        assert (El : l = lp).
        { (* both are the string of p0 *)
          eapply chain_det; [exact H4|]. now apply chain_app. }
        subst l. pose proof (chain_nonempty _ _ _ Hlp) as Hnn.
        assert (Hhd' : hd 0 lc = hd 0 lp) by (subst lc; apply hd_app; auto).
        destruct lp as [|f lp]; [contradiction|]. cbn [app].
        change (f :: lp ++ [0]) with ((f :: lp) ++ [0]). rewrite removelast_last.
        assert (f = b0) as -> by (cbn [app hd] in *; congruence). reflexivity.
      * pose proof (chain_bound _ _ _ Hc) as Hb2. rewrite app_length in Hb2. cbn [length] in Hb2.
        destruct (N.ltb_spec cur (N.of_nat (length T0) + firstChainCode)); [|lia].
        apply chain_cut in Hc; [|lia].
        rewrite (extract_chain T0 cur lc Hc Hlb) by lia.
        cbn [obind]. rewrite app_nil_r. pose proof (chain_nonempty _ _ _ Hc) as Hnn.
        destruct lc as [|f lc]; [contradiction|]. cbn [hd] in Hhd. subst f. reflexivity.
Qed.

(** * the encoder *)
Fixpoint edict (i : N) (T : list (N * N)) (acc : dict) : dict :=
  match T with
  | [] => acc
  | (b, p) :: t => edict (i + 1) t ((p, b, i) :: acc)
  end.
Definition mkdict (T : list (N * N)) : dict := edict firstChainCode T [].

Lemma edict_app i T x acc : edict i (T ++ x) acc = edict (i + N.of_nat (length T)) x (edict i T acc).
Proof.
  revert i acc; induction T as [|(b, p) T IH]; intros i acc; cbn [app edict length].
  - f_equal. lia.
  - rewrite IH. f_equal. lia.
Qed.
Lemma mkdict_snoc T b p : mkdict (T ++ [(b, p)]) = (p, b, firstChainCode + N.of_nat (length T)) :: mkdict T.
Proof. unfold mkdict. rewrite edict_app. reflexivity. Qed.

Lemma find_sound T p b c : findCode (mkdict T) p b = Some c ->
  firstChainCode <= c /\ nth_error T (N.to_nat (c - firstChainCode)) = Some (b, p).
Proof.
  induction T as [|(b0, p0) T IH] using rev_ind; [discriminate|].
  rewrite mkdict_snoc. cbn [findCode]. destruct ((p0 =? p) && (b0 =? b)) eqn:E.
  - intros H. assert (c = firstChainCode + N.of_nat (length T)) by congruence. clear H. apply andb_true_iff in E. destruct E as [E1 E2].
    apply N.eqb_eq in E1, E2. subst. split; [unfold firstChainCode; lia|].
    replace (N.to_nat (firstChainCode + N.of_nat (length T) - firstChainCode)) with (length T) by lia.
    rewrite nth_error_app2, Nat.sub_diag by lia. reflexivity.
  - intros H. destruct (IH H) as [H1 H2]. split; auto. rewrite nth_error_app1; auto.
    apply nth_error_Some. congruence.
Qed.

(** encoder invariant: [T] table, [lc] the string matched so far, [L] the state of a
    decoder that has read all codes written, [p] the bits not yet put out *)
Record einv (s : lenc) (mx : N) (T : list (N * N)) (lc : list N) (L : lstate) (p : list bool) : Prop := mkEI {
  ei_dict : le_dict s = mkdict T;
  ei_next : le_next s = firstChainCode + N.of_nat (length T);
  ei_max : le_max s = mx;
  ei_next_max : le_next s <= mx;
  ei_chain : chain T (le_cur s) lc;
  ei_bytes : forall i b p, nth_error T i = Some (b, p) -> b < 256;
  ei_prev : forall i b p, nth_error T i = Some (b, p) -> p < firstChainCode + N.of_nat i;
  ei_w : snd L = le_bits s;
  ei_sync : sync T lc (fst (fst L)) (snd (fst L));
  ei_bits : 9 <= le_bits s <= 15;
  ei_fit : le_next s <= 2 ^ le_bits s;
  ei_ring : ring (le_out s) [];
  ei_pend : pending (le_out s) p;
  ei_has : le_has s = false;
  ei_eolb : le_eolb s = false }.

Definition max_ok (mx : N) : Prop := 508 <= mx <= 32764.

Definition with_out (s : lenc) (o : outbuff) (h : bool) : lenc :=
  mkLE (le_dict s) (le_next s) (le_cur s) (le_bits s) (le_max s) o h (negb h) (le_eolb s).

Lemma writeCode_ok s q p code :
  ring (le_out s) q -> pending (le_out s) p -> 9 <= le_bits s <= 16 -> code < 2 ^ le_bits s ->
  (length q <= 8)%nat ->
  exists o bs p', writeCode s code = Ok (with_out s o true) /\ ring o (q ++ bs) /\ pending o p'
    /\ p ++ bits (N.to_nat (le_bits s)) code = byte_bits8 bs ++ p' /\ (length bs <= 4)%nat /\ bytes_ok bs.
Proof.
  intros HR HP Hw Hc Hq. pose proof HP as (Hb & _).
  destruct (ob_write_ok 4 (le_out s) q p code (le_bits s) HR HP Hc) as (o & bs & p' & E & R & P & B & (L & BO) & NE); [lia|lia|].
  exists o, bs, p'. unfold writeCode. rewrite E. cbn [obind].
  rewrite (ring_has o (q ++ bs) R). specialize (NE ltac:(lia)).
  destruct (q ++ bs) eqn:Eq; [destruct q; [cbn in Eq; subst; contradiction|discriminate]|].
  repeat split; try rewrite Eq; auto; try apply R; try apply P; try apply Hb.
Qed.

Lemma drain_ring : forall q s p, ring (le_out s) q -> pending (le_out s) p ->
  le_has s = (match q with [] => false | _ => true end) ->
  forall f, (length q <= f)%nat ->
  exists s', drain_n lenc_conv f s = Ok (q, s') /\ ring (le_out s') [] /\ pending (le_out s') p
    /\ le_has s' = false /\ le_dict s' = le_dict s /\ le_next s' = le_next s /\ le_cur s' = le_cur s
    /\ le_bits s' = le_bits s /\ le_max s' = le_max s /\ le_eolb s' = le_eolb s.
Proof.
  induction q as [|b q IH]; intros s p HR HP Hh f Hf.
  - exists s. rewrite drain_n_empty by exact Hh. tauto.
  - destruct f; [cbn in Hf; lia|]. cbn [length] in Hf.
    cbn [drain_n lenc_conv cv_has cv_next]. rewrite Hh. unfold lenc_next at 1.
    destruct (ring_get _ _ _ HR) as (o' & En & R' & Eb & Ea). rewrite En. cbn [obind].
    match goal with |- context [drain_n _ _ ?s1] => destruct (IH s1 p) with (f := f) as (s' & E & H); cbn [le_out le_has] end; auto.
    + unfold pending in *. rewrite Eb, Ea. exact HP.
    + apply (ring_has _ _ R').
    + lia.
    + rewrite E. cbn [obind]. exists s'. cbn [le_dict le_next le_cur le_bits le_max le_eolb] in H. tauto.
Qed.

Lemma increase_ok bits newCode mx : 9 <= bits <= 15 -> newCode <= 2 ^ bits -> newCode <= mx -> max_ok mx ->
  9 <= increaseBits bits newCode <= 15 /\ newCode + 1 <= 2 ^ increaseBits bits newCode
  /\ bits <= increaseBits bits newCode.
Proof.
  intros Hb Hn Hm Hmx. unfold increaseBits. destruct (N.eqb_spec newCode (2 ^ bits)) as [E|E].
  - assert (bits < 15).
    { destruct (N.lt_ge_cases bits 15); auto. exfalso.
      assert (2 ^ 15 <= 2 ^ bits) by (apply N.pow_le_mono_r; lia). change (2 ^ 15) with 32768 in *.
      unfold max_ok in Hmx. lia. }
    rewrite N.add_1_r, N.pow_succ_r'. pose proof (pow_pos bits). lia.
  - lia.
Qed.

(** width computed by the decoder after the same code *)
Lemma width_agree T lc d prev bits : sync T lc d prev -> 9 <= bits <= 15 -> N.of_nat (length T) + firstChainCode < 60000 ->
  wnext d bits = increaseBits bits (firstChainCode + N.of_nat (length T)).
Proof.
  intros Hs Hb Hl. unfold wnext, increaseBits.
  destruct Hs as [(-> & -> & _)|(T0 & b0 & p0 & lp & -> & -> & _)].
  - cbn [length]. change (u16 (N.of_nat 0 + firstChainCode) + 1) with 259. change (firstChainCode + N.of_nat 0) with 258.
    assert (2 ^ 9 <= 2 ^ bits) by (apply N.pow_le_mono_r; lia). change (2 ^ 9) with 512 in *.
    destruct (N.eqb_spec 259 (2 ^ bits)); destruct (N.eqb_spec 258 (2 ^ bits)); lia.
  - rewrite app_length in *. cbn [length] in *. rewrite u16_small by lia.
    replace (N.of_nat (length T0) + firstChainCode + 1) with (firstChainCode + N.of_nat (length T0 + 1)) by lia. reflexivity.
Qed.

Lemma chain_cur_lt T cur lc mx : chain T cur lc -> firstChainCode + N.of_nat (length T) <= mx -> max_ok mx -> cur < mx.
Proof. intros H Hm Hx. pose proof (chain_bound _ _ _ H). unfold max_ok, firstChainCode in *. lia. Qed.

Lemma enc_step s mx T lc L p b : max_ok mx -> einv s mx T lc L p -> b < 256 ->
  exists o s' cs out L' T' lc' p',
    (let! s1 := lenc_write s b in drain lenc_conv s1) = Ok (o, s')
    /\ lrun L cs out L' /\ einv s' mx T' lc' L' p'
    /\ p ++ codes_bits cs = byte_bits8 o ++ p' /\ out ++ lc' = lc ++ [b] /\ bytes_ok o.
Proof.
  intros Hmx [Hdict Hnext Hmax Hnm Hchain Hbytes Hprev Hw Hsync Hbits Hfit Hring Hpend Hhas Heolb] Hb.
  destruct L as ((d, prev), w). cbn [fst snd] in *. subst w.
  assert (Hcur : le_cur s < mx) by (eapply chain_cur_lt; eauto; lia).
  unfold lenc_write. rewrite Hdict.
  destruct (findCode (mkdict T) (le_cur s) b) as [c|] eqn:Ef.
  - (* the string grows *)
    destruct (find_sound _ _ _ _ Ef) as [Hc1 Hc2].
    cbn [obind]. rewrite drain_empty by exact Hhas.
    exists [], (mkLE (mkdict T) (le_next s) c (le_bits s) (le_max s) (le_out s) (le_has s) (le_need s) (le_eolb s)),
      [], [], (d, prev, le_bits s), T, (lc ++ [b]), p.
    split; [reflexivity|]. split; [constructor|]. split.
    + constructor; cbn; auto.
      * apply (ch_ext T c (le_cur s) b lc); auto. specialize (Hprev _ _ _ Hc2). lia.
      * destruct Hsync as [H|(T0 & b0 & p0 & lp & H1 & H2 & H3 & H4 & H5 & H6)]; [left; exact H|right].
        exists T0, b0, p0, lp. repeat split; auto. rewrite hd_app; auto. eapply chain_nonempty; eauto.
    + split; [apply app_nil_r|]. split; [reflexivity|constructor].
  - (* the code is written *)
    destruct (N.eqb_spec (le_cur s) nullChainCode) as [En|_];
      [exfalso; rewrite En in Hcur; unfold max_ok, nullChainCode in *; lia|].
    assert (Hcode : le_cur s < 2 ^ le_bits s).
    { pose proof (chain_bound _ _ _ Hchain).
      assert (2 ^ 9 <= 2 ^ le_bits s) by (apply N.pow_le_mono_r; lia). change (2 ^ 9) with 512 in *. lia. }
    destruct (writeCode_ok s [] p (le_cur s) Hring Hpend ltac:(lia) Hcode) as (o & bs & p1 & Ew & R1 & P1 & B1 & L1 & BO1); [cbn; lia|].
    rewrite Ew. cbn [obind with_out le_next le_dict le_cur le_bits le_max le_out le_has le_need le_eolb].
    rewrite Hnext in Hfit, Hnm.
    destruct (increase_ok (le_bits s) (le_next s) mx Hbits ltac:(lia) ltac:(lia) Hmx) as (I1 & I2 & I3).
    assert (Hlt : N.of_nat (length T) + firstChainCode < 60000) by (unfold max_ok in *; lia).
    pose proof (decode_step T lc d prev (le_cur s) Hbytes Hsync Hchain ltac:(lia)) as Hdec.
    assert (Hdat : le_cur s <> clearCode /\ le_cur s <> endData).
    { pose proof (chain_bound _ _ _ Hchain). unfold clearCode, endData, firstChainCode in *. lia. }
    assert (Hrun1 : forall cs2 o2 L2, lrun (T, le_cur s, increaseBits (le_bits s) (le_next s)) cs2 o2 L2 ->
       lrun (d, prev, le_bits s) ((le_cur s, le_bits s) :: cs2) (lc ++ o2) L2).
    { intros cs2 o2 L2 H2. apply (lr_data _ _ _ _ _ T); auto; try tauto; try lia.
      - eapply chain_nonempty; eauto.
      - rewrite (width_agree T lc d prev) by auto. rewrite Hnext in H2. exact H2. }
    rewrite Hmax. destruct (N.eqb_spec (le_next s) mx) as [Em|Em].
    + (* and the dictionary is cleared *)
      unfold writeClearCode.
      match goal with |- context [writeCode ?s1 clearCode] =>
        destruct (writeCode_ok s1 ([] ++ bs) p1 clearCode) as (o2 & bs2 & p2 & Ew2 & R2 & P2 & B2 & L2 & BO2); cbn [le_out le_bits]; auto end.
      { lia. }
      { assert (2 ^ 9 <= 2 ^ increaseBits (le_bits s) (le_next s)) by (apply N.pow_le_mono_r; lia).
        change (2 ^ 9) with 512 in *. unfold clearCode. lia. }
      rewrite Ew2. cbn [obind with_out le_next le_dict le_cur le_bits le_max le_out le_has le_need le_eolb].
      cbn [app] in R2.
      match goal with |- context [drain lenc_conv ?s2] =>
        destruct (drain_ring (bs ++ bs2) s2 p2) with (f := drain_fuel) as (s' & Ed & D1 & D2 & D3 & D4 & D5 & D6 & D7 & D8 & D9); cbn [le_out le_has]; auto end.
      { destruct (bs ++ bs2) eqn:Eb; auto. apply app_eq_nil in Eb. destruct Eb as [-> ->].
        exfalso. cbn [app byte_bits8 flat_map] in B1, B2.
        destruct P2 as (Hpb & x & _ & _ & Ep2). apply (f_equal (@length bool)) in B2.
        rewrite app_length, Ep2, !bits_length in B2. cbn [le_bits] in B2. lia. }
      { rewrite app_length. unfold drain_fuel. lia. }
      unfold drain. rewrite Ed. cbn [le_dict le_next le_cur le_bits le_max le_eolb] in *.
      exists (bs ++ bs2), s', [(le_cur s, le_bits s); (clearCode, increaseBits (le_bits s) (le_next s))], (lc ++ []),
        ([], nullChainCode, 9), [], [b], p2.
      split; [reflexivity|]. split.
      { apply Hrun1. apply lr_clear; [lia|constructor]. }
      split.
      { constructor; cbn; auto.
        - rewrite D5. unfold max_ok, firstChainCode in *. lia.
        - rewrite D6. constructor. exact Hb.
        - intros i x y H. destruct i; discriminate.
        - intros i x y H. destruct i; discriminate.
        - left. auto.
        - rewrite D7. unfold initialBits. lia.
        - rewrite D5, D7. unfold firstChainCode, initialBits. now compute.
        - rewrite D9. exact Heolb. }
      split; [|split; [rewrite app_nil_r; reflexivity|apply Forall_app; auto]].
      cbn [codes_bits flat_map fst snd]. rewrite app_nil_r, app_assoc, B1, <- app_assoc.
      cbn [le_bits] in B2. rewrite B2, byte_bits8_app, app_assoc. reflexivity.
    + cbn [obind le_next le_dict le_cur le_bits le_max le_out le_has le_need le_eolb].
      cbn [app] in R1.
      match goal with |- context [drain lenc_conv ?s2] =>
        destruct (drain_ring bs s2 p1) with (f := drain_fuel) as (s' & Ed & D1 & D2 & D3 & D4 & D5 & D6 & D7 & D8 & D9); cbn [le_out le_has]; auto end.
      { destruct bs eqn:Eb; auto. exfalso. cbn [byte_bits8 flat_map app] in B1.
        destruct P1 as (Hpb & x & _ & _ & Ep2). apply (f_equal (@length bool)) in B1.
        rewrite app_length, Ep2, !bits_length in B1. lia. }
      { unfold drain_fuel. lia. }
      unfold drain. rewrite Ed. cbn [le_dict le_next le_cur le_bits le_max le_eolb] in *.
      exists bs, s', [(le_cur s, le_bits s)], (lc ++ []),
        (T, le_cur s, increaseBits (le_bits s) (le_next s)), (T ++ [(b, le_cur s)]), [b], p1.
      split; [reflexivity|]. split.
      { apply Hrun1. constructor. }
      assert (Hu : u16 (le_next s + 1) = le_next s + 1).
      { apply u16_small. unfold max_ok in *. lia. }
      split.
      { constructor; cbn [fst snd]; auto.
        - rewrite D4, mkdict_snoc, Hnext, ?Hdict. reflexivity.
        - rewrite D5, Hu, Hnext, app_length. cbn [length]. lia.
        - rewrite D5, Hu. lia.
        - rewrite D6. constructor. exact Hb.
        - intros i x y H. destruct (Nat.eq_dec i (length T)) as [->|Hi].
          + rewrite nth_error_app2, Nat.sub_diag in H by lia. cbn in H. injection H as <- <-. exact Hb.
          + assert (i < length (T ++ [(b, le_cur s)]))%nat as Hi2 by (apply nth_error_Some; congruence).
            rewrite app_length in Hi2. cbn in Hi2. rewrite nth_error_app1 in H by lia. eauto.
        - intros i x y H. destruct (Nat.eq_dec i (length T)) as [->|Hi].
          + rewrite nth_error_app2, Nat.sub_diag in H by lia. cbn in H. injection H as <- <-.
            pose proof (chain_bound _ _ _ Hchain). unfold firstChainCode in *. lia.
          + assert (i < length (T ++ [(b, le_cur s)]))%nat as Hi2 by (apply nth_error_Some; congruence).
            rewrite app_length in Hi2. cbn in Hi2. rewrite nth_error_app1 in H by lia. eauto.
        - right. exists T, b, (le_cur s), lc. repeat split; auto.
          unfold max_ok, nullChainCode in *. lia.
        - rewrite D7. exact I1.
        - rewrite D5, D7, Hu. exact I2.
        - rewrite D9. exact Heolb. }
      split; [|split; [rewrite app_nil_r; reflexivity|exact BO1]].
      cbn [codes_bits flat_map fst snd]. rewrite app_nil_r. exact B1.
Qed.

Lemma enc_loop mx xs : max_ok mx -> bytes_ok xs -> forall s T lc L p, einv s mx T lc L p ->
  exists o s' cs out L' T' lc' p',
    block_loop lenc_conv s xs = Ok (o, s', length xs)
    /\ lrun L cs out L' /\ einv s' mx T' lc' L' p'
    /\ p ++ codes_bits cs = byte_bits8 o ++ p' /\ out ++ lc' = lc ++ xs /\ bytes_ok o.
Proof.
  intros Hmx Hxs. induction Hxs as [|b xs Hb Hxs IH]; intros s T lc L p Hs.
  - exists [], s, [], [], L, T, lc, p. split; [reflexivity|]. split; [constructor|]. split; [exact Hs|].
    split; [|split; [|constructor]]; cbn; rewrite !app_nil_r; reflexivity.
  - destruct (enc_step s mx T lc L p b Hmx Hs Hb) as (o1 & s1 & cs1 & out1 & L1 & T1 & lc1 & p1 & E1 & R1 & I1 & B1 & O1 & K1).
    destruct (IH s1 T1 lc1 L1 p1 I1) as (o2 & s2 & cs2 & out2 & L2 & T2 & lc2 & p2 & E2 & R2 & I2 & B2 & O2 & K2).
    exists (o1 ++ o2), s2, (cs1 ++ cs2), (out1 ++ out2), L2, T2, lc2, p2.
    split.
    { cbn [block_loop]. change (cv_eolb lenc_conv s) with (le_eolb s). rewrite (ei_eolb _ _ _ _ _ _ Hs).
      change (cv_write lenc_conv s b) with (lenc_write s b).
      destruct (lenc_write s b) as [sw| | |]; try discriminate. cbn [obind] in *. rewrite E1. cbn [obind].
      rewrite E2. cbn [obind length]. reflexivity. }
    split; [eapply lrun_app; eauto|]. split; [exact I2|]. split; [|split; [|apply Forall_app; auto]].
    + unfold codes_bits in *. rewrite flat_map_app, app_assoc, B1, <- app_assoc, B2, byte_bits8_app, app_assoc. reflexivity.
    + rewrite <- app_assoc, O2, app_assoc, O1, <- app_assoc. reflexivity.
Qed.

Lemma enc_flush s mx T lc L p : max_ok mx -> einv s mx T lc L p ->
  exists s1 o s2 cs d prev w pad,
    lenc_flush s = Ok s1 /\ drain lenc_conv s1 = Ok (o, s2) /\ le_cur s2 = nullChainCode /\ le_has s2 = false
    /\ le_eolb s2 = true
    /\ lrun L cs lc (d, prev, w) /\ 9 <= w <= 16 /\ bytes_ok o
    /\ p ++ codes_bits cs ++ bits (N.to_nat w) endData ++ pad = byte_bits8 o.
Proof.
  intros Hmx [Hdict Hnext Hmax Hnm Hchain Hbytes Hprev Hw Hsync Hbits Hfit Hring Hpend Hhas Heolb].
  destruct L as ((d, prev), w). cbn [fst snd] in *. subst w.
  assert (Hcur : le_cur s < mx) by (eapply chain_cur_lt; eauto; lia).
  unfold lenc_flush.
  destruct (N.eqb_spec (le_cur s) nullChainCode) as [En|_];
      [exfalso; rewrite En in Hcur; unfold max_ok, nullChainCode in *; lia|].
  assert (Hcode : le_cur s < 2 ^ le_bits s).
  { pose proof (chain_bound _ _ _ Hchain).
    assert (2 ^ 9 <= 2 ^ le_bits s) by (apply N.pow_le_mono_r; lia). change (2 ^ 9) with 512 in *. lia. }
  destruct (writeCode_ok s [] p (le_cur s) Hring Hpend ltac:(lia) Hcode) as (o & bs & p1 & Ew & R1 & P1 & B1 & L1 & BO1); [cbn; lia|].
  rewrite Ew. cbn [obind with_out le_next le_dict le_cur le_bits le_max le_out le_has le_need le_eolb].
  rewrite Hnext in Hfit, Hnm.
  destruct (increase_ok (le_bits s) (le_next s) mx Hbits ltac:(lia) ltac:(lia) Hmx) as (I1 & I2 & I3).
  assert (Hlt : N.of_nat (length T) + firstChainCode < 60000) by (unfold max_ok in *; lia).
  pose proof (decode_step T lc d prev (le_cur s) Hbytes Hsync Hchain ltac:(lia)) as Hdec.
  assert (Hdat : le_cur s <> clearCode /\ le_cur s <> endData).
  { pose proof (chain_bound _ _ _ Hchain). unfold clearCode, endData, firstChainCode in *. lia. }
  unfold writeClearCode.
  match goal with |- context [writeCode ?s1 endData] =>
    destruct (writeCode_ok s1 ([] ++ bs) p1 endData) as (o2 & bs2 & p2 & Ew2 & R2 & P2 & B2 & L2 & BO2); cbn [le_out le_bits]; auto end.
  { lia. }
  { assert (2 ^ 9 <= 2 ^ increaseBits (le_bits s) (le_next s)) by (apply N.pow_le_mono_r; lia).
    change (2 ^ 9) with 512 in *. unfold endData. lia. }
  rewrite Ew2. cbn [obind with_out le_next le_dict le_cur le_bits le_max le_out le_has le_need le_eolb].
  cbn [app] in R2.
  destruct (ob_pad_ok o2 (bs ++ bs2) p2 R2 P2) as (o3 & b3 & Ep & Hb3 & R3 & P3 & z & Ez).
  { rewrite app_length. lia. }
  rewrite Ep. cbn [obind le_next le_dict le_cur le_bits le_max le_out le_has le_need le_eolb].
  match goal with |- context [Ok ?s2 = Ok _] =>
    destruct (drain_ring ((bs ++ bs2) ++ [b3]) s2 []) with (f := drain_fuel) as (s' & Ed & D1 & D2 & D3 & D4 & D5 & D6 & D7 & D8 & D9); cbn [le_out le_has]; auto end.
  { destruct (bs ++ bs2); reflexivity. }
  { rewrite !app_length. cbn [length]. unfold drain_fuel. lia. }
  cbn [le_dict le_next le_cur le_bits le_max le_eolb] in *.
  eexists _, ((bs ++ bs2) ++ [b3]), s', [(le_cur s, le_bits s)], T, (le_cur s), (increaseBits (le_bits s) (le_next s)), z.
  split; [reflexivity|]. split; [exact Ed|]. split; [exact D6|]. split; [exact D3|]. split; [exact D9|].
  split.
  { rewrite <- (app_nil_r lc). apply (lr_data _ _ _ _ _ T); auto; try tauto; try lia.
    - eapply chain_nonempty; eauto.
    - rewrite (width_agree T lc d prev) by auto. rewrite <- Hnext. constructor. }
  split; [lia|]. split; [repeat (apply Forall_app; split); auto; repeat constructor; exact Hb3|].
  cbn [codes_bits flat_map fst snd]. rewrite app_nil_r, app_assoc, B1, <- app_assoc.
  cbn [le_bits] in B2. rewrite (app_assoc p1), B2, !byte_bits8_app.
  cbn [byte_bits8 flat_map]. rewrite app_nil_r, Ez, <- !app_assoc. reflexivity.
Qed.

Lemma max_of_bits maxBits : 9 <= maxBits ->
  max_ok (u16 (2 ^ (if maxAllowedBits <? maxBits then maxAllowedBits else maxBits) - 4)).
Proof.
  intros H. set (k := if maxAllowedBits <? maxBits then maxAllowedBits else maxBits).
  assert (Hk : 9 <= k <= 15).
  { unfold k, maxAllowedBits. destruct (N.ltb_spec 15 maxBits); lia. }
  assert (2 ^ 9 <= 2 ^ k) by (apply N.pow_le_mono_r; lia).
  assert (2 ^ k <= 2 ^ 15) by (apply N.pow_le_mono_r; lia).
  change (2 ^ 9) with 512 in *. change (2 ^ 15) with 32768 in *.
  rewrite u16_small by lia. unfold max_ok. lia.
Qed.

Lemma flush_null s : le_cur s = nullChainCode -> le_has s = false ->
  exists s', lenc_flush s = Ok s' /\ le_has s' = false.
Proof.
  intros Hc Hh. unfold lenc_flush. rewrite Hc. change (nullChainCode =? nullChainCode) with true. cbn [obind].
  eexists. split; [reflexivity|]. exact Hh.
Qed.

Lemma first_byte maxBits b : 9 <= maxBits -> b < 256 ->
  exists s mx, lenc_write (lenc_init maxBits) b = Ok s /\ le_has s = false /\ max_ok mx
    /\ einv s mx [] [b] ([], nullChainCode, 9) [].
Proof.
  intros Hm Hb. pose proof (max_of_bits maxBits Hm) as Hmx.
  unfold lenc_init. set (mx := u16 _) in *.
  eexists _, mx. split; [reflexivity|]. split; [reflexivity|]. split; [exact Hmx|].
  constructor; cbn [le_dict le_next le_cur le_bits le_max le_out le_has le_need le_eolb fst snd]; auto.
  - unfold max_ok, firstChainCode in *. lia.
  - constructor. exact Hb.
  - intros i x y H. destruct i; discriminate.
  - intros i x y H. destruct i; discriminate.
  - left. auto.
  - unfold initialBits. lia.
  - vm_compute. discriminate.
  - unfold ring, ob_init. cbn [ob_buf ob_rd ob_wr length repeat]. repeat split; try lia.
    intros i x H. destruct i; discriminate.
  - unfold pending, ob_init. cbn [ob_bits ob_acc]. split; [lia|]. exists 0. repeat split.
Qed.

Theorem lzw_roundtrip maxBits xs : 9 <= maxBits -> bytes_ok xs ->
  exists zs, lzw_compress maxBits xs = Ok zs /\ bytes_ok zs
    /\ (forall fuel, (length zs <= fuel)%nat -> pull_n lenc_conv fuel (lenc_init maxBits) xs = Ok zs)
    /\ (forall fuel, (length xs <= fuel)%nat -> lzw_decompress fuel zs = Ok xs).
Proof.
  intros Hm Hxs. destruct xs as [|b xs].
  - exists []. split; [reflexivity|]. split; [constructor|]. split; intros fuel _; destruct fuel; reflexivity.
  - inversion Hxs as [|? ? Hb Hxs']; subst.
    destruct (first_byte maxBits b Hm Hb) as (s0 & mx & E0 & Hh0 & Hmx & I0).
    destruct (enc_loop mx xs Hmx Hxs' s0 [] [b] _ [] I0) as (o & s1 & cs & out & L1 & T1 & lc1 & p1 & E1 & R1 & I1 & B1 & O1 & K1).
    destruct (enc_flush s1 mx T1 lc1 L1 p1 Hmx I1) as (s2 & o2 & s3 & cs2 & d & prev & w & pad & Ef & Ed & Hc3 & Hh3 & He3 & R2 & Hw & K2 & B2).
    assert (Eb : block_loop lenc_conv (lenc_init maxBits) (b :: xs) = Ok (o, s1, length (b :: xs))).
    { cbn [block_loop]. change (cv_eolb lenc_conv (lenc_init maxBits)) with false.
      change (cv_write lenc_conv (lenc_init maxBits) b) with (lenc_write (lenc_init maxBits) b). rewrite E0.
      cbv iota. cbn [obind]. rewrite drain_empty by exact Hh0. cbn [obind]. rewrite E1. reflexivity. }
    exists (o ++ o2). split; [|split; [|split]].
    + eapply push_all_block; [|exact Eb|exact Ef|exact Ed]. reflexivity.
    + apply Forall_app; auto.
    + destruct (flush_null s3 Hc3 Hh3) as (s4 & E4 & H4).
      eapply pull_eq_block; [|exact Eb|exact Ef|exact Ed|left; reflexivity|exact E4|exact H4]. reflexivity.
    + intros fuel Hf. unfold lzw_decompress.
      replace fuel with (length (b :: xs) + (fuel - length (b :: xs)))%nat by lia.
      apply pull_n_mono.
      change (b :: xs) with ([b] ++ xs). rewrite <- O1.
      eapply (dec_bytes (o ++ o2) _ (cs ++ cs2) _ d prev w [] ldec_init pad).
      * apply Forall_app; auto.
      * eapply lrun_app; eauto.
      * exact Hw.
      * cbn. repeat split; auto.
      * unfold codes_bits in *. rewrite flat_map_app, byte_bits8_app, <- app_assoc. cbn [app] in B1 |- *.
        rewrite B1, <- app_assoc, B2. reflexivity.
Qed.
