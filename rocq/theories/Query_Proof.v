(** Lemmas about the URL filters and the query parser. *)
From Coq Require Import ZArith Lia ZifyBool.
From Verif Require Import Common Query_Spec Query_Model.
Import ListNotations.
Local Open Scope Z_scope.

(** ** reading through the decoder *)
Definition sticky (c : Z) (d : dec) : Prop := pt d = O /\ decOutput d = Ok (d, c).
Lemma unhex_ok x h : hexdigit x h -> unhex x = h /\ 0 <= h < 16.
Proof. intros []; unfold unhex; (destruct (97 <=? _) eqn:A; [|destruct (65 <=? _) eqn:B]); lia. Qed.
Lemma fetch_ok t c b d : escaped t (c :: b) -> pt d = O ->
  exists t' d' d'', blockFetch decoder t d = (t', d') /\ decHas d' = true /\ decOutput d' = Ok (d'', c) /\ sticky c d'' /\ escaped t' b.
Proof.
  intros E P. destruct d as [p x0 x1 x2]. cbn [pt] in P. subst p. remember (c :: b) as l eqn:L.
  destruct E as [|c' t b' N N' E|t b' E|x y h l' t b' X Y E]; [discriminate| | |]; injection L as L1 L2; subst.
  - exists t, (mkDec 1 (Some c) x1 x2), (mkDec 0 (Some c) x1 x2). unfold decoder, decHas, sticky, decOutput.
    cbn [blockFetch fNeed fInput decNeed decInput pt b0 b1 b2 isPercent Nat.eqb Nat.ltb Nat.leb orb andb].
    destruct (Z.eqb_spec c 37); [contradiction|]. destruct (Z.eqb_spec c 43); [contradiction|]. repeat split; auto.
    destruct t; [reflexivity|]. cbn [blockFetch fNeed decNeed pt b0 isPercent Nat.eqb Nat.ltb Nat.leb orb andb]. destruct (Z.eqb_spec c 37); [contradiction|reflexivity].
  - exists t, (mkDec 1 (Some 43) x1 x2), (mkDec 0 (Some 43) x1 x2). repeat split; auto. destruct t; reflexivity.
  - exists t, (mkDec 3 (Some 37) (Some x) (Some y)), (mkDec 0 (Some 37) (Some x) (Some y)).
    apply unhex_ok in X as (X & X'), Y as (Y & Y').
    assert (O : forall p, decOutput (mkDec p (Some 37) (Some x) (Some y)) = Ok (mkDec 0 (Some 37) (Some x) (Some y), 16 * h + l')).
    { intros p. unfold decOutput. cbn [b0 b1 b2 Z.eqb Pos.eqb]. rewrite X, Y, Z.mod_small by lia. do 2 f_equal. lia. }
    repeat split; auto. cbn. destruct t; reflexivity.
Qed.
Definition rinv (b : list Z) (r : rd) : Prop :=
  pt (flt r) = O /\ match got r with None => escaped (src r) b | Some c => exists b', b = c :: b' /\ escaped (src r) b' end.
Lemma escaped_empty b : escaped [] b -> b = [].
Proof. inversion 1. reflexivity. Qed.
Lemma decHas_0 d : pt d = O -> decHas d = false.
Proof. intros H. unfold decHas. rewrite H. reflexivity. Qed.
Lemma rHas_ok b r : rinv b r -> rHas decoder r = match b with [] => false | _ => true end.
Proof.
  intros (P & H). unfold rHas. cbn [fHas fNeed decoder]. destruct (got r) as [c|].
  - destruct H as (b' & -> & _). reflexivity.
  - rewrite decHas_0 by exact P. unfold decNeed. rewrite P. cbn [Nat.eqb orb]. rewrite Bool.andb_true_r.
    remember (src r) as t eqn:T. destruct H; reflexivity.
Qed.
Lemma getBuffer_ok c b r : rinv (c :: b) r -> exists r', getBuffer decoder r = Ok (r', c) /\ got r' = Some c /\ rinv (c :: b) r'.
Proof.
  intros (P & H). unfold getBuffer. destruct (got r) as [x|] eqn:G.
  - destruct H as (b' & E & H). injection E as -> ->. exists r. split; [reflexivity|]. split; [exact G|]. split; [exact P|]. rewrite G. eauto.
  - cbn [fHas fOutput decoder]. rewrite decHas_0 by exact P.
    destruct (fetch_ok (src r) c b (flt r) H P) as (t' & d' & d'' & -> & -> & -> & (S1 & _) & E). cbn [obind].
    eexists. split; [reflexivity|]. split; [reflexivity|]. split; [exact S1|]. cbn [got src]. eauto.
Qed.
Lemma rNext_ok c b r : rinv (c :: b) r -> exists r', rNext decoder r = Ok (r', c) /\ rinv b r' /\ got r' = None.
Proof.
  intros V. destruct (getBuffer_ok c b r V) as (r' & E & G & P & H). unfold rNext. rewrite E. cbn [obind]. eexists. split; [reflexivity|].
  rewrite G in H. destruct H as (b' & Q & H). injection Q as ->. split; [|reflexivity]. split; [exact P|exact H].
Qed.
Lemma rStep_ok o b r b' a : rinv b r -> cursor o b = (b', Some a) -> exists r', rStep decoder o r = Ok (r', a) /\ rinv b' r'.
Proof.
  intros V C. destruct o; cbn [rStep cursor] in *.
  - injection C as <- <-. rewrite (rHas_ok b r V). eauto.
  - destruct b as [|c b]; [discriminate|]. injection C as <- <-. destruct (rNext_ok c b r V) as (r' & -> & V' & _). cbn [obind]. eauto.
  - destruct b as [|c b]; [discriminate|]. injection C as <- <-. destruct (getBuffer_ok c b r V) as (r' & E & _ & V'). unfold rPeek. rewrite E. cbn [obind]. eauto.
Qed.
Lemma rSteps_ok os : forall b r l b', rinv b r -> cursors os b = Some (l, b') -> exists r', rSteps decoder os r = Ok (l, r') /\ rinv b' r'.
Proof.
  induction os as [|o os IH]; intros b r l b' V C; cbn [cursors rSteps] in *.
  - injection C as <- <-. eauto.
  - destruct (cursor o b) as [b1 [a|]] eqn:Q; [|discriminate]. destruct (cursors os b1) as [[l1 b2]|] eqn:Q1; [|discriminate]. injection C as <- <-.
    destruct (rStep_ok o b r b1 a V Q) as (r1 & -> & V1). cbn [obind]. destruct (IH _ _ _ _ V1 Q1) as (r2 & -> & V2). cbn [obind]. eauto.
Qed.
Lemma copyAll_ok b : forall fuel r out, rinv b r -> (length b <= fuel)%nat -> copyAll decoder fuel r out = Ok (out ++ b).
Proof.
  induction b as [|c b IH]; intros fuel r out V F.
  - destruct fuel; cbn [copyAll]; rewrite (rHas_ok [] r V), app_nil_r; reflexivity.
  - destruct fuel as [|fuel]; [cbn [length] in F; lia|]. cbn [copyAll]. rewrite (rHas_ok _ r V). destruct (rNext_ok c b r V) as (r' & -> & V' & _). cbn [obind].
    rewrite (IH fuel r' (out ++ [c]) V') by (cbn [length] in F; lia). rewrite <- app_assoc. reflexivity.
Qed.
Lemma escaped_length t b : escaped t b -> (length b <= length t)%nat.
Proof. induction 1; cbn [length]; lia. Qed.
Lemma decode_ok t b : escaped t b -> decode t = Ok b.
Proof. intros E. unfold decode. rewrite (copyAll_ok b); [reflexivity| |apply escaped_length in E; lia]. split; [reflexivity|exact E]. Qed.

(** ** writing through the decoder *)
Lemma wWrites_dec_ok fuel t b : escaped t b -> forall d out, pt d = O -> exists d',
  wWrites decoder (S fuel) t (d, out) = Ok (d', out ++ b) /\ pt d' = O.
Proof.
  induction 1 as [|c t b N N' E IH|t b E IH|x y h l t b X Y E IH]; intros [p x0 x1 x2] out P; cbn [pt] in P; subst p.
  - eexists. rewrite app_nil_r. split; reflexivity.
  - destruct (IH (mkDec 0 (Some c) x1 x2) (out ++ [c]) eq_refl) as (d' & Q & P'). exists d'. split; [|exact P'].
    rewrite <- app_assoc in Q. cbn [app] in Q. rewrite <- Q. cbn [wWrites]. unfold wWrite.
    cbn [fst snd fNeed fInput decoder decNeed decInput pt b0 b1 b2 isPercent Nat.eqb Nat.ltb Nat.leb orb andb obind].
    destruct (Z.eqb_spec c 37) as [|_]; [contradiction|]. cbn [blockFeed fHas decoder decHas pt Nat.eqb orb fOutput]. unfold decOutput. cbn [b0 b1 b2].
    destruct (Z.eqb_spec c 37) as [|_]; [contradiction|]. destruct (Z.eqb_spec c 43) as [|_]; [contradiction|]. cbn [obind]. destruct fuel; reflexivity.
  - destruct (IH (mkDec 0 (Some 43) x1 x2) (out ++ [32]) eq_refl) as (d' & Q & P'). exists d'. split; [|exact P'].
    rewrite <- app_assoc in Q. cbn [app] in Q. rewrite <- Q. destruct fuel; reflexivity.
  - destruct (IH (mkDec 0 (Some 37) (Some x) (Some y)) (out ++ [16 * h + l]) eq_refl) as (d' & Q & P'). exists d'. split; [|exact P'].
    rewrite <- app_assoc in Q. cbn [app] in Q. rewrite <- Q. apply unhex_ok in X as (X & X'), Y as (Y & Y').
    cbn [wWrites]. unfold wWrite at 1 2 3.
    cbn [fst snd fNeed fInput decoder decNeed decInput pt b0 b1 b2 isPercent Nat.eqb Nat.ltb Nat.leb orb andb obind Z.eqb Pos.eqb].
    cbn [blockFeed fHas decoder decHas pt Nat.eqb orb andb fOutput isPercent b0 Z.eqb Pos.eqb]. unfold decOutput. cbn [b0 b1 b2 Z.eqb Pos.eqb].
    rewrite X, Y, Z.mod_small by lia. cbn [obind]. replace (h * 16 + l) with (16 * h + l) by lia. destruct fuel; reflexivity.
Qed.

(** ** the encoder *)
Lemma encInput_ok x s : 0 <= x < 256 -> encInput x s = percent x.
Proof.
  intros B. unfold encInput, percent, plain. destruct (_ || _); [reflexivity|].
  assert (H : forall z, hexOf z = capital z) by (intros z; unfold hexOf, capital; destruct (10 <=? z) eqn:A, (z <? 10) eqn:C; lia).
  rewrite !H, Z.shiftr_div_pow2 by lia. change (2 ^ 4) with 16. change 15 with (Z.ones 4). rewrite Z.land_ones by lia. reflexivity.
Qed.
Lemma percent_nonempty c : percent c <> [].
Proof. unfold percent. destruct (plain c); discriminate. Qed.
Definition einv (b : list Z) (r : rd) : Prop :=
  Forall (fun c => 0 <= c < 256) (src r) /\ match got r with None => b = flt r ++ percents (src r) | Some c => b = c :: flt r ++ percents (src r) end.
Lemma eHas_ok b r : einv b r -> rHas encoder r = match b with [] => false | _ => true end.
Proof.
  intros (F & H). unfold rHas. cbn [fHas fNeed encoder]. destruct (got r) as [c|]; [rewrite H; reflexivity|]. rewrite H.
  destruct (flt r) as [|x p]; [|reflexivity]. cbn [orb app]. rewrite Bool.andb_true_r. destruct (src r) as [|x l]; [reflexivity|].
  unfold percents. cbn [flat_map]. pose proof (percent_nonempty x). destruct (percent x); [contradiction|reflexivity].
Qed.
Lemma eBuffer_ok c b r : einv (c :: b) r -> exists r', getBuffer encoder r = Ok (r', c) /\ got r' = Some c /\ einv (c :: b) r'.
Proof.
  intros (F & H). unfold getBuffer. destruct (got r) as [x|] eqn:G.
  - exists r. injection H as -> ->. split; [reflexivity|]. split; [exact G|]. split; [exact F|]. rewrite G. reflexivity.
  - cbn [fHas fOutput encoder]. destruct (flt r) as [|x p] eqn:E.
    + destruct (src r) as [|x l]; [discriminate|]. apply Forall_cons_iff in F as (B & F). cbn [blockFetch fNeed fInput encoder].
      rewrite encInput_ok by exact B. cbn [app] in H. unfold percents in H. cbn [flat_map] in H.
      destruct (percent x) as [|y p] eqn:Q; [exfalso; exact (percent_nonempty x Q)|]. cbn [app] in H. injection H as <- ->.
      assert (X : blockFetch encoder l (c :: p) = (l, c :: p)) by (destruct l; reflexivity). rewrite X. cbn [encOutput obind].
      eexists. split; [reflexivity|]. split; [reflexivity|]. split; [exact F|]. reflexivity.
    + cbn [encOutput obind app] in *. injection H as <- ->. eexists. split; [reflexivity|]. split; [reflexivity|]. split; [exact F|]. reflexivity.
Qed.
Lemma eStep_ok o b r b' a : einv b r -> cursor o b = (b', Some a) -> exists r', rStep encoder o r = Ok (r', a) /\ einv b' r'.
Proof.
  intros V C. destruct o; cbn [rStep cursor] in *.
  - injection C as <- <-. rewrite (eHas_ok b r V). eauto.
  - destruct b as [|c b]; [discriminate|]. injection C as <- <-. destruct (eBuffer_ok c b r V) as (r' & E & G & F & H). unfold rNext. rewrite E. cbn [obind].
    eexists. split; [reflexivity|]. split; [exact F|]. rewrite G in H. injection H as ->. reflexivity.
  - destruct b as [|c b]; [discriminate|]. injection C as <- <-. destruct (eBuffer_ok c b r V) as (r' & E & _ & V'). unfold rPeek. rewrite E. cbn [obind]. eauto.
Qed.
Lemma eSteps_ok os : forall b r l b', einv b r -> cursors os b = Some (l, b') -> exists r', rSteps encoder os r = Ok (l, r') /\ einv b' r'.
Proof.
  induction os as [|o os IH]; intros b r l b' V C; cbn [cursors rSteps] in *.
  - injection C as <- <-. eauto.
  - destruct (cursor o b) as [b1 [a|]] eqn:Q; [|discriminate]. destruct (cursors os b1) as [[l1 b2]|] eqn:Q1; [|discriminate]. injection C as <- <-.
    destruct (eStep_ok o b r b1 a V Q) as (r1 & -> & V1). cbn [obind]. destruct (IH _ _ _ _ V1 Q1) as (r2 & -> & V2). cbn [obind]. eauto.
Qed.
Lemma feed_enc p : forall fuel out, (length p <= fuel)%nat -> blockFeed encoder fuel p out = Ok ([], out ++ p).
Proof.
  induction p as [|c p IH]; intros fuel out F.
  - destruct fuel; cbn; rewrite app_nil_r; reflexivity.
  - destruct fuel as [|fuel]; [cbn [length] in F; lia|]. cbn [blockFeed fHas fOutput encoder encOutput obind]. rewrite IH by (cbn [length] in F; lia).
    rewrite <- app_assoc. reflexivity.
Qed.
Lemma percent_length c : (length (percent c) <= 3)%nat.
Proof. unfold percent. destruct (plain c); cbn [length]; lia. Qed.
Lemma wWrites_enc_ok fuel xs : (3 <= fuel)%nat -> Forall (fun c => 0 <= c < 256) xs -> forall out,
  wWrites encoder fuel xs ([], out) = Ok ([], out ++ percents xs).
Proof.
  intros K. induction xs as [|x xs IH]; intros F out; cbn [wWrites].
  - cbn. rewrite app_nil_r. reflexivity.
  - apply Forall_cons_iff in F as (B & F). unfold wWrite. cbn [fst snd fNeed fInput encoder obind]. rewrite encInput_ok by exact B.
    pose proof (percent_nonempty x) as N. pose proof (percent_length x) as L. unfold percents. cbn [flat_map].
    destruct (percent x) as [|c p] eqn:Q; [contradiction|]. rewrite feed_enc by lia. cbn [obind]. rewrite IH by exact F. rewrite <- app_assoc. reflexivity.
Qed.
Lemma capital_hex d : 0 <= d < 16 -> hexdigit (capital d) d.
Proof. intros H. unfold capital. destruct (d <? 10) eqn:E; [apply hex_num|apply hex_upper]; lia. Qed.
Lemma percents_escaped b : Forall (fun c => 0 <= c < 256) b -> escaped (percents b) b.
Proof.
  induction 1 as [|c b B F IH]; [constructor|]. unfold percents. cbn [flat_map]. unfold percent. destruct (plain c) eqn:P; cbn [app].
  - apply esc_plain; [..|exact IH]; intros ->; discriminate.
  - rewrite (Z.div_mod c 16) at 3 by lia. apply esc_hex; [apply capital_hex|apply capital_hex|exact IH].
    + split; [apply Z.div_pos; lia|apply Z.div_lt_upper_bound; lia].
    + apply Z.mod_pos_bound. lia.
Qed.

(** ** block reading through the decoder *)
Lemma output_once k d c out : sticky c d -> forall d', decOutput d' = Ok (d, c) -> blockOutput decoder k d' out = Ok (d, out ++ [c]).
Proof.
  intros (P & _) d' O. destruct k; cbn [blockOutput fOutput fHas decoder]; rewrite O; cbn [obind]; [reflexivity|]. rewrite decHas_0 by exact P. reflexivity.
Qed.
Lemma loop_end fuel : forall len d c out, sticky c d -> (length out < len)%nat -> (len - length out <= fuel)%nat ->
  blockLoop decoder fuel false len [] d out = Ok (mkRd [] d None, out ++ repeat c (len - length out)).
Proof.
  induction fuel as [|fuel IH]; intros len d c out S L F; [lia|]. pose proof S as (P & O). cbn [blockLoop fHas decoder blockFetch]. rewrite decHas_0 by exact P.
  rewrite (output_once _ d c out S d O). cbn [obind negb andb]. rewrite app_length. cbn [length].
  destruct (Nat.ltb_spec (length out + 1) len) as [Q|Q].
  - rewrite (IH len d c (out ++ [c]) S); rewrite app_length; cbn [length]; [|lia..].
    replace (len - length out)%nat with (Datatypes.S (len - (length out + 1)))%nat by lia. cbn [repeat]. rewrite <- app_assoc. reflexivity.
  - replace (len - length out)%nat with 1%nat by lia. reflexivity.
Qed.
Lemma loop_ok b : forall fuel len t d c0 out, sticky c0 d -> escaped t b -> (length out + length b < len)%nat -> (len - length out <= fuel)%nat ->
  exists d', blockLoop decoder fuel false len t d out = Ok (mkRd [] d' None, out ++ b ++ repeat (last b c0) (len - length out - length b)).
Proof.
  induction b as [|c b IH]; intros fuel len t d c0 out S E L F.
  - inversion E; subst. exists d. cbn [app length last] in *. rewrite (loop_end fuel len d c0 out S) by lia. rewrite Nat.sub_0_r. reflexivity.
  - destruct fuel as [|fuel]; [lia|]. pose proof S as (P & _). cbn [blockLoop fHas decoder]. rewrite decHas_0 by exact P.
    destruct (fetch_ok t c b d E P) as (t' & d' & d'' & -> & _ & O & S' & E'). rewrite (output_once _ d'' c out S' d' O). cbn [obind negb andb].
    rewrite app_length. cbn [length] in *. destruct (Nat.ltb_spec (length out + 1) len) as [Q|Q]; [|lia].
    destruct (IH fuel len t' d'' c (out ++ [c]) S' E') as (d3 & ->); [rewrite app_length; cbn [length]; lia..|].
    exists d3. rewrite app_length. cbn [length]. do 2 f_equal. rewrite <- app_assoc. cbn [app]. do 3 f_equal.
    replace (len - (length out + 1) - length b)%nat with (len - length out - Datatypes.S (length b))%nat by lia.
    f_equal. destruct b; [reflexivity|]. cbn [last]. clear. revert c c0. generalize z. induction b; intros; [reflexivity|]. cbn [last]. apply IHb.
Qed.

(** ** the query parser *)
Lemma findc_app c a b : free c a -> findc c (a ++ c :: b) = Some (length a).
Proof.
  induction a as [|x a IH]; intros F; cbn [app findc length].
  - rewrite Z.eqb_refl. reflexivity.
  - apply Forall_cons_iff in F as (A & F). destruct (Z.eqb_spec x c); [contradiction|]. rewrite (IH F). reflexivity.
Qed.
Lemma findc_none c a : free c a -> findc c a = None.
Proof.
  induction a as [|x a IH]; intros F; cbn [findc]; [reflexivity|].
  apply Forall_cons_iff in F as (A & F). destruct (Z.eqb_spec x c); [contradiction|]. rewrite (IH F). reflexivity.
Qed.
Lemma firstn_len {A} (a b : list A) : firstn (length a) (a ++ b) = a.
Proof. replace (length a) with (length a + 0)%nat by lia. rewrite firstn_app_2. cbn [firstn]. apply app_nil_r. Qed.
Lemma skipn_len {A} (a : list A) x b : skipn (length a + 1) (a ++ x :: b) = b.
Proof. induction a as [|y a IH]; [reflexivity|]. cbn [length Nat.add app skipn]. exact IH. Qed.
Definition rest_of (ts : list (list Z)) : option (list Z) := match ts with [] => None | _ => Some (join ts) end.
Lemma split_join t ts : free 38 t -> splitNext 38 (join (t :: ts)) = (t, rest_of ts).
Proof.
  intros F. unfold splitNext. destruct ts as [|u ts].
  - cbn [join]. rewrite (findc_none 38 t F). reflexivity.
  - change (join (t :: u :: ts)) with (t ++ 38 :: join (u :: ts)). rewrite (findc_app 38 t _ F), firstn_len, skipn_len. reflexivity.
Qed.
Lemma field_free t n v : field t n v -> free 38 t.
Proof.
  intros [n' e v' A B C E|n' N A B]; [|exact A]. apply Forall_app. split; [exact A|]. apply Forall_cons; [discriminate|exact C].
Qed.
(** what preload leaves behind *)
Definition loaded (q q' : qp) (ts : list (list Z)) (f : pair) : Prop :=
  qpath q' = qpath q /\ query q' = query q /\ iter q' = rest_of ts /\ swp q' = negb (swp q) /\ more q' = true /\
  slot (negb (swp q)) q' = f /\ slot (swp q) q' = slot (swp q) q.
Lemma setSlot_loaded q r f : forall q1, qpath q1 = qpath q -> query q1 = query q -> iter q1 = rest_of r -> slot (swp q) q1 = slot (swp q) q ->
  loaded q (setSlot (negb (swp q)) f q1) r f.
Proof. intros q1 A B C D. unfold loaded, setSlot, slot in *. destruct (swp q); cbn [negb qpath query iter slot0 slot1 swp more] in *; auto 10. Qed.
Lemma preload_field fuel q t n v ts : field t n v -> iter q = Some (join (t :: ts)) -> exists q', preload (S fuel) q = Ok q' /\ loaded q q' ts (n, v).
Proof.
  intros F I. cbn [preload]. rewrite I, (split_join t ts (field_free t n v F)). destruct F as [n e v A B C E|n N A B].
  - rewrite (findc_app 61 n e B), firstn_len, skipn_len. cbn [obind fst snd]. rewrite (decode_ok e v E). cbn [obind]. eexists. split; [reflexivity|].
    apply setSlot_loaded; reflexivity || (destruct (swp q); reflexivity).
  - rewrite (findc_none 61 n B). destruct n as [|x n]; [contradiction|]. cbn [obind fst snd].
    rewrite (decode_ok [49] [49]) by (apply esc_plain; [discriminate..|constructor]). cbn [obind]. eexists. split; [reflexivity|].
    apply setSlot_loaded; reflexivity || (destruct (swp q); reflexivity).
Qed.
Lemma preload_end fuel q : iter q = None -> exists q', preload (S fuel) q = Ok q' /\ qpath q' = qpath q /\ query q' = query q /\ iter q' = None /\ more q' = false /\
  slot (swp q) q' = slot (swp q) q.
Proof. intros I. cbn [preload]. rewrite I. eexists. split; [reflexivity|]. cbn. repeat split. Qed.
(** an empty part takes the next part away *)
Lemma preload_empty fuel q t n v ts : field t n v -> iter q = Some (join ([] :: t :: ts)) -> exists q', preload (S (S fuel)) q = Ok q' /\ loaded q q' ts ([], []).
Proof.
  intros F I. remember (S fuel) as f1 eqn:F1. cbn [preload]. rewrite I, (split_join [] (t :: ts) (Forall_nil _)). cbn [findc]. subst f1.
  set (q0 := mkQp _ _ _ _ _ _ _). destruct (preload_field fuel q0 t n v ts F eq_refl) as (q1 & -> & (A & B & C & D & E & G & H)). cbn [obind fst snd].
  rewrite (decode_ok [] [] esc_nil). cbn [obind]. eexists. split; [reflexivity|]. apply setSlot_loaded; auto.
Qed.
Lemma preload_empty_last fuel q : iter q = Some (join [[]]) -> exists q', preload (S (S fuel)) q = Ok q' /\ loaded q q' [] ([], []).
Proof.
  intros I. remember (S fuel) as f1 eqn:F1. cbn [preload]. rewrite I, (split_join [] [] (Forall_nil _)). cbn [findc]. subst f1.
  set (q0 := mkQp _ _ _ _ _ _ _). destruct (preload_end fuel q0 eq_refl) as (q1 & -> & (A & B & C & D & H)). cbn [obind fst snd].
  rewrite (decode_ok [] [] esc_nil). cbn [obind]. eexists. split; [reflexivity|]. apply setSlot_loaded; auto.
Qed.
(** what is really delivered *)
Inductive delivers : list (list Z) -> list pair -> Prop :=
| del_nil : delivers [] []
| del_field t n v ts fs : field t n v -> delivers ts fs -> delivers (t :: ts) ((n, v) :: fs)
| del_empty t n v ts fs : field t n v -> delivers ts fs -> delivers ([] :: t :: ts) (([], []) :: fs)
| del_last : delivers [[]] [([], [])].
Definition qinv (fs : list pair) (q : qp) : Prop :=
  match fs with
  | [] => iter q = None /\ more q = false
  | f :: fs => more q = true /\ slot (swp q) q = f /\ exists ts, delivers ts fs /\ iter q = rest_of ts
  end.
Lemma preload_ok fuel q ts fs : delivers ts fs -> iter q = rest_of ts -> exists q', preload (S (S fuel)) q = Ok q' /\ qinv fs q' /\
  qpath q' = qpath q /\ query q' = query q /\ slot (swp q) q' = slot (swp q) q.
Proof.
  intros D I. destruct D as [|t n v ts fs F D|t n v ts fs F D|]; cbn [rest_of] in I.
  - destruct (preload_end (S fuel) q I) as (q' & E & A & B & C & M & H). exists q'. repeat split; auto.
  - destruct (preload_field (S fuel) q t n v ts F I) as (q' & E & A & B & C & S & M & H & G). exists q'. split; [exact E|]. split; [|auto].
    cbn [qinv]. rewrite S, H. eauto.
  - destruct (preload_empty fuel q t n v ts F I) as (q' & E & A & B & C & S & M & H & G). exists q'. split; [exact E|]. split; [|auto].
    cbn [qinv]. rewrite S, H. eauto.
  - destruct (preload_empty_last fuel q I) as (q' & E & A & B & C & S & M & H & G). exists q'. split; [exact E|]. split; [|auto].
    cbn [qinv]. rewrite S, H. split; [exact M|]. split; [reflexivity|]. exists []. split; [constructor|exact C].
Qed.
Lemma qStep_ok o fs q fs' a : qinv fs q -> cursor o fs = (fs', Some a) -> exists q', qStep o q = Ok (q', a) /\ qinv fs' q' /\ qpath q' = qpath q /\ query q' = query q.
Proof.
  intros V C. destruct o; cbn [qStep cursor] in *.
  - injection C as <- <-. exists q. split; [|auto]. destruct fs; destruct V as [A B]; [rewrite B|rewrite A]; reflexivity.
  - destruct fs as [|f fs]; [discriminate|]. injection C as <- <-. destruct V as (M & S & ts & D & I). unfold qNext.
    destruct (preload_ok (length (query q)) q ts fs D I) as (q' & -> & V' & P & Q & G). cbn [obind]. exists q'. rewrite G, S. auto.
  - destruct fs as [|f fs]; [discriminate|]. injection C as <- <-. exists q. unfold qPeek. pose proof V as (M & S & _). rewrite S. auto.
Qed.
Lemma qSteps_ok os : forall fs q l fs', qinv fs q -> cursors os fs = Some (l, fs') -> exists q', qSteps os q = Ok (l, q') /\ qpath q' = qpath q /\ query q' = query q.
Proof.
  induction os as [|o os IH]; intros b r l b' V C; cbn [cursors qSteps] in *.
  - injection C as <- <-. eauto.
  - destruct (cursor o b) as [b1 [a|]] eqn:Q; [|discriminate]. destruct (cursors os b1) as [[l1 b2]|] eqn:Q1; [|discriminate]. injection C as <- <-.
    destruct (qStep_ok o b r b1 a V Q) as (r1 & -> & V1 & A & B). cbn [obind]. destruct (IH _ _ _ _ V1 Q1) as (r2 & -> & A' & B'). cbn [obind].
    exists r2. split; [reflexivity|]. split; congruence.
Qed.
Lemma newQp_ok path ts fs : free 63 path -> ts <> [] -> delivers ts fs -> exists q, newQp (path ++ 63 :: join ts) = Ok q /\ qinv fs q /\ qpath q = path /\ query q = join ts.
Proof.
  intros F N D. unfold newQp. rewrite (findc_app 63 path _ F), firstn_len, skipn_len.
  destruct (preload_ok (length (join ts)) (mkQp path (join ts) (Some (join ts)) ([], []) ([], []) false false) ts fs D) as (q & E & V & A & B & _).
  - destruct ts; [contradiction|reflexivity].
  - exists q. auto.
Qed.
Lemma newQp_plain path : free 63 path -> exists q, newQp path = Ok q /\ qinv [([], [])] q /\ qpath q = path /\ query q = [].
Proof.
  intros F. unfold newQp. rewrite (findc_none 63 path F). rewrite skipn_all2 by lia.
  destruct (preload_ok 0 (mkQp path [] (Some []) ([], []) ([], []) false false) [[]] [([], [])] del_last eq_refl) as (q & E & V & A & B & _).
  exists q. auto.
Qed.
Lemma delivers_app ts fs us gs : Forall2 (fun t f => field t (fst f) (snd f)) ts fs -> delivers us gs -> delivers (ts ++ us) (fs ++ gs).
Proof. intros H D. induction H as [|t (n, v) ts fs F H IH]; [exact D|]. cbn [app fst snd] in *. apply del_field; assumption. Qed.

(** ** malformed escapes *)
Lemma copy_one l l' d d' d'' c fuel out : pt d = O -> l <> [] -> blockFetch decoder l d = (l', d') -> decHas d' = true -> decOutput d' = Ok (d'', c) ->
  copyAll decoder (S fuel) (mkRd l d None) out = copyAll decoder fuel (mkRd l' d'' None) (out ++ [c]).
Proof.
  intros P N B H O. cbn [copyAll]. unfold rHas, rNext, getBuffer. cbn [got flt src]. cbn [fHas fNeed decoder]. rewrite (decHas_0 d P).
  unfold decNeed. rewrite P. destruct l as [|x l]; [contradiction|]. cbn [Nat.eqb orb andb]. rewrite B, H. change (fOutput decoder d') with (decOutput d'). rewrite O. reflexivity.
Qed.
Lemma fetch_plain c t x0 x1 x2 : c <> 37 -> blockFetch decoder (c :: t) (mkDec 0 x0 x1 x2) = (t, mkDec 1 (Some c) x1 x2).
Proof.
  intros N. cbn [blockFetch fNeed fInput decoder decNeed decInput pt Nat.eqb orb b1 b2]. destruct t; [reflexivity|].
  cbn [blockFetch fNeed decoder decNeed pt b0 isPercent Nat.eqb Nat.ltb Nat.leb orb andb]. destruct (Z.eqb_spec c 37); [contradiction|reflexivity].
Qed.
Lemma fetch_hex x y t x0 x1 x2 : blockFetch decoder (37 :: x :: y :: t) (mkDec 0 x0 x1 x2) = (t, mkDec 3 (Some 37) (Some x) (Some y)).
Proof. cbn. destruct t; reflexivity. Qed.
Lemma out_hex p x y h l : hexdigit x h -> hexdigit y l -> decOutput (mkDec p (Some 37) (Some x) (Some y)) = Ok (mkDec 0 (Some 37) (Some x) (Some y), 16 * h + l).
Proof.
  intros X Y. apply unhex_ok in X as (X & X'), Y as (Y & Y'). unfold decOutput. cbn [b0 b1 b2 Z.eqb Pos.eqb]. rewrite X, Y, Z.mod_small by lia. do 2 f_equal. lia.
Qed.
Lemma copy_prefix t b s : escaped t b -> forall d, pt d = O -> exists d', pt d' = O /\ (free 37 t -> b1 d' = b1 d /\ b2 d' = b2 d) /\
  forall fuel out, copyAll decoder (length b + fuel) (mkRd (t ++ s) d None) out = copyAll decoder fuel (mkRd s d' None) (out ++ b).
Proof.
  induction 1 as [|c t b N N' E IH|t b E IH|x y h l t b X Y E IH]; intros [p x0 x1 x2] P; cbn [pt] in P; subst p.
  - exists (mkDec 0 x0 x1 x2). repeat split. intros. rewrite app_nil_r. reflexivity.
  - destruct (IH (mkDec 0 (Some c) x1 x2) eq_refl) as (d' & P & Q & R). exists d'. split; [exact P|]. split.
    + intros F. apply Forall_cons_iff in F as (_ & F). exact (Q F).
    + intros fuel out. replace (out ++ c :: b) with ((out ++ [c]) ++ b) by (rewrite <- app_assoc; reflexivity). rewrite <- R.
      cbn [length Nat.add app]. eapply copy_one; [reflexivity|discriminate|apply fetch_plain; exact N|reflexivity|]. unfold decOutput. cbn [b0 b1 b2].
      destruct (Z.eqb_spec c 37); [contradiction|]. destruct (Z.eqb_spec c 43); [contradiction|]. reflexivity.
  - destruct (IH (mkDec 0 (Some 43) x1 x2) eq_refl) as (d' & P & Q & R). exists d'. split; [exact P|]. split.
    + intros F. apply Forall_cons_iff in F as (_ & F). exact (Q F).
    + intros fuel out. replace (out ++ 32 :: b) with ((out ++ [32]) ++ b) by (rewrite <- app_assoc; reflexivity). rewrite <- R.
      cbn [length Nat.add app]. eapply copy_one; [reflexivity|discriminate|apply fetch_plain; discriminate|reflexivity|reflexivity].
  - destruct (IH (mkDec 0 (Some 37) (Some x) (Some y)) eq_refl) as (d' & P & Q & R). exists d'. split; [exact P|]. split.
    + intros F. apply Forall_cons_iff in F as (F & _). contradiction.
    + intros fuel out. replace (out ++ 16 * h + l :: b) with ((out ++ [16 * h + l]) ++ b) by (rewrite <- app_assoc; reflexivity). rewrite <- R.
      cbn [length Nat.add app]. eapply copy_one; [reflexivity|discriminate|apply fetch_hex|reflexivity|apply out_hex; assumption].
Qed.
Lemma copy_lone d fuel out : pt d = O -> copyAll decoder (S fuel) (mkRd [37] d None) out =
  match b1 d, b2 d with Some x, Some y => Ok (out ++ [(unhex x * 16 + unhex y) mod 256]) | _, _ => Undef end.
Proof.
  destruct d as [p x0 x1 x2]. cbn [pt]. intros ->. destruct x1 as [x|], x2 as [y|]; try reflexivity.
  cbn [copyAll]. unfold rHas, rNext, getBuffer.
  cbn [got flt src fHas fNeed decoder decHas decNeed pt b0 b1 b2 isPercent Nat.eqb Nat.ltb Nat.leb orb andb blockFetch fInput decInput fOutput]. unfold decOutput.
  cbn [b0 b1 b2 Z.eqb Pos.eqb obind got src flt]. destruct fuel; reflexivity.
Qed.
Lemma lone_undef t b : escaped t b -> free 37 t -> decode (t ++ [37]) = Undef.
Proof.
  intros E F. unfold decode. destruct (copy_prefix t b [37] E newDec eq_refl) as (d & P & Q & R). destruct (Q F) as (Q1 & Q2).
  pose proof (escaped_length t b E). rewrite app_length. cbn [length].
  replace (S (length t + 1)) with (length b + S (length t - length b + 1))%nat by lia. rewrite R, copy_lone by exact P. rewrite Q1. reflexivity.
Qed.
Lemma lone_again t b x y h l u c : escaped t b -> hexdigit x h -> hexdigit y l -> escaped u c -> free 37 u ->
  decode (t ++ 37 :: x :: y :: u ++ [37]) = Ok (b ++ 16 * h + l :: c ++ [16 * h + l]).
Proof.
  intros E X Y G F. unfold decode.
  pose proof (escaped_length t b E) as L1. pose proof (escaped_length u c G) as L2.
  destruct (copy_prefix t b (37 :: x :: y :: u ++ [37]) E newDec eq_refl) as (d & P & _ & R).
  rewrite app_length. cbn [length]. rewrite app_length. cbn [length].
  replace (S (length t + S (S (S (length u + 1))))) with (length b + (1 + (length c + S (length t - length b + (length u - length c) + 3))))%nat by lia. rewrite R.
  pose proof (esc_hex x y h l [] [] X Y esc_nil) as E1.
  assert (Z : exists d1, pt d1 = O /\ b1 d1 = Some x /\ b2 d1 = Some y /\ forall fuel out, copyAll decoder (1 + fuel) (mkRd (37 :: x :: y :: u ++ [37]) d None) out =
    copyAll decoder fuel (mkRd (u ++ [37]) d1 None) (out ++ [16 * h + l])).
  { exists (mkDec 0 (Some 37) (Some x) (Some y)). repeat split. intros fuel out. destruct d as [p x0 x1 x2]. cbn [pt] in P. subst p.
    eapply copy_one; [reflexivity|discriminate|apply fetch_hex|reflexivity|apply out_hex; assumption]. }
  destruct Z as (d1 & P1 & B1 & B2 & R1). rewrite R1.
  destruct (copy_prefix u c [37] G d1 P1) as (d2 & P2 & Q2 & R2). destruct (Q2 F) as (C1 & C2). rewrite R2, copy_lone by exact P2. rewrite C1, C2, B1, B2.
  apply unhex_ok in X as (X & X'), Y as (Y & Y'). rewrite X, Y, Z.mod_small by lia. f_equal. rewrite <- !app_assoc. cbn [app]. do 4 f_equal. lia.
Qed.
Lemma wrong_digits x y t b : escaped t b -> exists c, decode (37 :: x :: y :: t) = Ok (c :: b).
Proof.
  intros E. exists ((unhex x * 16 + unhex y) mod 256). unfold decode. cbn [length]. unfold newDec.
  erewrite copy_one; [|reflexivity|discriminate|apply fetch_hex|reflexivity|reflexivity].
  rewrite (copyAll_ok b); [reflexivity|split; [reflexivity|exact E]|]. apply escaped_length in E. lia.
Qed.
