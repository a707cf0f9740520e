(** Property theorems for JSON texts (C42, C129 - C134). *)
From Verif Require Import Common Conv_Model Utf_Model Utf_Spec Utf_Proof Rational_Model Rational_Proof IntText_Model IntText_Spec IntText_Proof
  Json_Spec Json_Model Json_Proof JsonNorm_Proof JsonSer_Proof JsonSafe_Proof.
Local Open Scope N_scope.

(** A number must be followed by a delimiter, or by the end of the input if it has at
    least two characters (see json_roundtrip_refuted for this). *)
Definition may_follow (v : json) (t rest : list N) : Prop :=
  is_number v -> match rest with [] => (2 <= length t)%nat | c :: _ => delimiter c end.
Lemma may_follow_ends v t rest : may_follow v t rest -> ends v t rest.
Proof.
  intros H N. specialize (H N). destruct rest as [|c r]; [exact H|].
  destruct H as [B|[->|[->| ->]]]; [|reflexivity..]. apply blank_space in B. unfold stops. rewrite B. apply orb_true_r.
Qed.

(** C129.  For every value and every text of it (RFC 8259: any blanks, any escapes, members in
    any order, nested to any depth), whatever follows it, the parser reads exactly that
    text and builds the value, members sorted, the first one of equal names counting.
    Code points written with [\u] are limited to one unit other than 07FF and FFFF. *)
Theorem json_parse_text : forall v t w rest,
  jtext (fun c => c <> 0x7FF /\ c <> 0xFFFF /\ c < 0x10000) v t -> ws w -> may_follow v t rest ->
  exists r, parseJson (w ++ t ++ rest) = Ok (r, rest) /\ same v r /\ ordered r.
Proof.
  intros v t w rest Ht Hw Hf.
  assert (HP : forall x, x <> 0x7FF /\ x <> 0xFFFF /\ x < 0x10000 -> plainP x) by (intros x H; exact H).
  exists (norm v). split.
  - unfold parseJson. rewrite (parse_ws _ _ _ Hw).
    apply (proj1 (parse_grammar _ HP) v t Ht); [apply may_follow_ends; exact Hf|rewrite !app_length; lia].
  - exact (proj1 (norm_same_grammar _ HP) v t Ht).
Qed.
Print Assumptions json_parse_text.

(** C130.  The serializer's output is a text of the value, for all values without floating
    point numbers, with any bytes in strings and any nesting. *)
Theorem json_serialize_text : forall v, canonical bytes_ok v ->
  exists t, serialize false v = Ok t /\ jtext (fun c => c < 32) v t.
Proof.
  intros v C. apply (serialize_ok _ false bytes_ok); [|exact C].
  intros s Hs. apply plain_good; [auto|exact Hs].
Qed.
Print Assumptions json_serialize_text.

(** C131, the part that holds: with escaping of UTF-8 and strings of the basic plane *)
Theorem json_escaped_text_partial : forall v, canonical (bmp_text (fun _ => True)) v ->
  exists t, serialize true v = Ok t /\ jtext (fun _ => True) v t.
Proof.
  intros v C. apply (serialize_ok _ true (bmp_text (fun _ => True))); [|exact C].
  intros s Hs. apply esc_good; [auto|exact Hs].
Qed.
Print Assumptions json_escaped_text_partial.

(** C42.  Parsing the serialised text gives the value back; what follows is not touched. *)
Theorem json_roundtrip_partial : forall v rest, canonical bytes_ok v ->
  exists t, serialize false v = Ok t /\
    (may_follow v t rest -> parseJson (t ++ rest) = Ok (v, rest)).
Proof.
  intros v rest C. destruct (json_serialize_text v C) as (t & E & T). exists t. split; [exact E|]. intros F.
  assert (HP : forall x, x < 32 -> plainP x) by (intros x H; repeat split; lia).
  unfold parseJson. rewrite (proj1 (parse_grammar _ HP) v t T); [|apply may_follow_ends; exact F|rewrite app_length; lia].
  rewrite (norm_canonical bytes_ok v (fun s H => H) C). reflexivity.
Qed.
Print Assumptions json_roundtrip_partial.

(** the same with escaping of UTF-8, for strings of the basic plane without U+07FF and U+FFFF *)
Theorem json_escaped_roundtrip_partial : forall v rest,
  canonical (bmp_text (fun c => c <> 0x7FF /\ c <> 0xFFFF /\ c < 0x10000)) v ->
  exists t, serialize true v = Ok t /\
    (may_follow v t rest -> parseJson (t ++ rest) = Ok (v, rest)).
Proof.
  intros v rest C. set (P := fun c => c <> 0x7FF /\ c <> 0xFFFF /\ c < 0x10000) in *.
  assert (HP : forall x, P x -> plainP x) by (intros x H; exact H).
  destruct (serialize_ok P true (bmp_text P)) with (v := v) as (t & E & T); [|exact C|].
  { intros s Hs. apply esc_good; [|exact Hs]. intros c Hc. unfold P. lia. }
  exists t. split; [exact E|]. intros F.
  unfold parseJson. rewrite (proj1 (parse_grammar _ HP) v t T); [|apply may_follow_ends; exact F|rewrite app_length; lia].
  rewrite (norm_canonical (bmp_text P) v); [reflexivity|exact (bmp_bytes P)|exact C].
Qed.
Print Assumptions json_escaped_roundtrip_partial.

(** C42 is refuted: the text of a one-digit number alone is rejected ... *)
Theorem json_roundtrip_refuted : forall d : Z, (0 <= d <= 9)%Z ->
  exists t, serialize false (JInt d) = Ok t /\ parseJson t = Throw.
Proof.
  intros d H. destruct (numberS_ok d ltac:(lia)) as (t & E & T). exists t. split; [exact E|].
  assert (Q : (d = 0 \/ d = 1 \/ d = 2 \/ d = 3 \/ d = 4 \/ d = 5 \/ d = 6 \/ d = 7 \/ d = 8 \/ d = 9)%Z) by lia. clear H T.
  repeat (destruct Q as [-> |Q]; [vm_compute in E; injection E as <-; reflexivity|]).
  subst d. vm_compute in E. injection E as <-. reflexivity.
Qed.
Print Assumptions json_roundtrip_refuted.
(** ... and the smallest integer cannot be serialised *)
Theorem json_smallest_refuted : serialize false (JInt (- 2 ^ 63)) = Undef.
Proof. vm_compute. reflexivity. Qed.
Print Assumptions json_smallest_refuted.

(** C131 is refuted for every code point outside of the basic plane: the text stands for
    another string *)
Lemma unicode_long c : 0x10000 <= c -> c < 0x110000 -> exists a b d e x y,
  unicode c = Ok (92 :: 117 :: a :: b :: d :: e :: x ++ [hexChar y]) /\ y < 16 /\ Forall (fun z => exists q, q < 16 /\ z = hexChar q) [a; b; d; e] /\
  Forall (fun z => exists q, q < 16 /\ z = hexChar q) x.
Proof.
  intros H1 H2. unfold unicode, numberU. replace (c =? 0) with false by lia. change 64%nat with (S (S (S (S (S 59))))).
  do 5 (rewrite formatUnsigned_step by lia).
  assert (M : forall x, x mod 16 < 16) by (intros; lia).
  destruct (N.eq_dec (c / 16 / 16 / 16 / 16 / 16) 0) as [Z|Z].
  - rewrite Z, formatUnsigned_0. cbn [obind app length Nat.sub repeat].
    eexists _, _, _, _, [], _. split; [reflexivity|]. split; [apply M|]. split; [|constructor].
    repeat constructor; eexists; (split; [apply M|reflexivity]).
  - change 59%nat with (S 58). rewrite formatUnsigned_step by exact Z. replace (c / 16 / 16 / 16 / 16 / 16 / 16) with 0 by lia.
    rewrite formatUnsigned_0. cbn [obind app length Nat.sub repeat].
    eexists _, _, _, _, [_], _. split; [reflexivity|]. split; [apply M|]. split; repeat constructor; eexists; (split; [apply M|reflexivity]).
Qed.
Lemma raw_hex x rest : Forall (fun z => exists q, q < 16 /\ z = hexChar q) x ->
  rawString (x ++ rest) = let! (l, r) := rawString rest in Ok (x ++ l, r).
Proof.
  induction 1 as [|z x (q & Hq & ->) _ IH]; [cbn [app]; destruct (rawString rest) as [[l r]| | |]; reflexivity|].
  cbn [app rawString]. assert (hexChar q <> 34 /\ hexChar q <> 92) as [N1 N2] by (unfold hexChar; destruct (q <? 10); lia).
  rewrite (proj2 (N.eqb_neq _ _) N1), (proj2 (N.eqb_neq _ _) N2), IH. destruct (rawString rest) as [[l r]| | |]; reflexivity.
Qed.
Theorem json_escaped_text_refuted : forall c, 0x10000 <= c -> c <= 0x10FFFF ->
  exists t s, serialize true (JStr (utf8_standard c)) = Ok t /\ parseJson t = Ok (JStr s, []) /\ s <> utf8_standard c.
Proof.
  intros c H1 H2. destruct (unicode_long c H1 ltac:(lia)) as (a & b & d & e & x & y & E & Hy & Ha & Hx).
  assert (ES : serialize true (JStr (utf8_standard c)) = Ok (34 :: (92 :: 117 :: a :: b :: d :: e :: x ++ [hexChar y]) ++ [34])).
  { cbn [serialize]. unfold stringText. rewrite <- (app_nil_r (utf8_standard c)), (esc_char c [] ltac:(lia) ltac:(lia)).
    rewrite E. cbn [obind escString]. rewrite app_nil_r. reflexivity. }
  eexists. assert (Hh : exists w, hex4 a b d e = Some w /\ w < 0x10000).
  { repeat (apply Forall_cons_iff in Ha as [(? & ? & ->) Ha]).
    assert (Q : forall q, q < 16 -> hexVal (hexChar q) = Some q) by (intros q Hq; exact (hexVal_ok _ _ (hexChar_hex q Hq))).
    unfold hex4. rewrite !Q by assumption. eexists. split; [reflexivity|]. lia. }
  destruct Hh as (w & Hw & Lw). destruct (utf_roundtrip_lem false [w]) as (u & Eu & _). { repeat constructor. unfold wide_ok. lia. }
  exists (u ++ x ++ [hexChar y]). split; [exact ES|]. split.
  - unfold parseJson. cbn [length Nat.mul Nat.add app]. rewrite !Nat.add_1_r. cbn [parse nextToken]. change (skipped 34) with false. cbn [obind].
    change (34 =? 34) with true. cbn [rawString]. change (92 =? 34) with false. change (92 =? 92) with true. change (117 =? 117) with true. cbn iota.
    rewrite Hw, Eu. cbn [obind]. rewrite <- app_assoc, (raw_hex x) by exact Hx.
    rewrite (raw_hex [hexChar y]) by (repeat constructor; exists y; auto). cbn [rawString]. change (34 =? 34) with true. cbn [obind app]. reflexivity.
  - intros Q. apply (f_equal (fun l => last l 0)) in Q. rewrite !app_assoc, last_last in Q.
    unfold utf8_standard in Q. replace (c <=? 0x7F) with false in Q by lia. replace (c <=? 0x7FF) with false in Q by lia.
    replace (c <=? 0xFFFF) with false in Q by lia. cbn [last] in Q. unfold hexChar in Q. destruct (y <? 10) eqn:?; lia.
Qed.
Print Assumptions json_escaped_text_refuted.

(** C132 is refuted: every escaped pair of surrogates is read as two characters ... *)
Theorem json_surrogates_refuted : exists t c, jtext (fun _ => True) (JStr (utf8_standard c)) t /\
  exists s, parseJson t = Ok (JStr s, []) /\ s <> utf8_standard c.
Proof.
  exists [34; 92; 117; 68; 56; 51; 68; 92; 117; 68; 69; 48; 48; 34], 0x1F600. split.
  - apply (T_str (fun _ => True) _ [92; 117; 68; 56; 51; 68; 92; 117; 68; 69; 48; 48]).
    apply (jcs_cons _ [92; 117; 68; 56; 51; 68; 92; 117; 68; 69; 48; 48] (utf8_standard 0x1F600) [] []); [|constructor].
    apply (jc_pair _ [92; 117; 68; 56; 51; 68] [92; 117; 68; 69; 48; 48] 0xD83D 0xDE00); [| |lia|lia|exact I].
    + apply (unit16_i 68 56 51 68 13 8 3 13); [apply (hex_upper 13)|apply (hex_num 8)|apply (hex_num 3)|apply (hex_upper 13)]; lia.
    + apply (unit16_i 68 69 48 48 13 14 0 0); [apply (hex_upper 13)|apply (hex_upper 14)|apply (hex_num 0)|apply (hex_num 0)]; lia.
  - eexists. split; [vm_compute; reflexivity|discriminate].
Qed.
Print Assumptions json_surrogates_refuted.
(** ... and the escape 07FF becomes an overlong encoding *)
Theorem json_overlong_refuted : exists t s, jtext (fun _ => True) (JStr (utf8_standard 0x7FF)) t /\
  parseJson t = Ok (JStr s, []) /\ s <> utf8_standard 0x7FF.
Proof.
  exists [34; 92; 117; 48; 55; 70; 70; 34]. eexists. split.
  - apply (T_str (fun _ => True) _ [92; 117; 48; 55; 70; 70]).
    apply (jcs_cons _ [92; 117; 48; 55; 70; 70] (utf8_standard 0x7FF) [] []); [|constructor].
    apply (jc_unit _ [92; 117; 48; 55; 70; 70] 0x7FF); [|left; lia|exact I].
    apply (unit16_i 48 55 70 70 0 7 15 15); [apply (hex_num 0)|apply (hex_num 7)|apply (hex_upper 15)|apply (hex_upper 15)]; lia.
  - split; [vm_compute; reflexivity|discriminate].
Qed.
Print Assumptions json_overlong_refuted.

(** C133 is refuted: integers that need more than 64 bits, up to 22 digits, are accepted and
    become other integers *)
Theorem json_big_integer_refuted : forall t v, digits t v -> (2 ^ 63 <= v)%Z -> (length t <= 22)%nat ->
  exists z, parseJson (t ++ [44]) = Ok (JInt z, [44]) /\ z <> v.
Proof.
  intros t v D Hv Hl. exists (s64 v). split.
  - pose proof (digits_dig _ _ D) as Dd. destruct t as [|c t]; [destruct (digits_nonnil _ _ D eq_refl)|].
    apply Forall_cons_iff in Dd as [Hc Dt]. unfold parseJson. rewrite Nat.add_1_r.
    cbn [app parse nextToken]. assert (Sk : skipped c = false) by (apply numch_go; unfold numch; tauto). rewrite Sk. cbn [obind].
    pose proof Hc as Hc'. unfold dig in Hc'.
    replace (c =? 34) with false by lia. replace (c =? 123) with false by lia. replace (c =? 91) with false by lia.
    replace (c =? 116) with false by lia. replace (c =? 102) with false by lia. replace (c =? 110) with false by lia.
    unfold parseValue. destruct (t ++ [44]) as [|y q] eqn:Et; [destruct t; discriminate|]. rewrite <- Et. clear Et y q.
    assert (Sp : isspace c = false) by (apply numch_go; unfold numch; tauto). rewrite Sp. cbn [obind].
    rewrite collect_app by (try exact (Forall_dig_numch _ Dt); reflexivity).
    assert (F : existsb (fun c0 => (c0 =? 46) || (c0 =? 69) || (c0 =? 101)) t = false).
    { clear - Dt. induction Dt as [|d l Hd _ IH]; [reflexivity|]. cbn [existsb]. rewrite IH. unfold dig in Hd. lia. }
    rewrite F. apply Nat.leb_le in Hl. cbn [app]. rewrite Hl. cbn [negb andb]. unfold parseS. cbn [map].
    replace (Z.of_N c =? 43)%Z with false by lia. replace (Z.of_N c =? 45)%Z with false by lia.
    destruct D as [Hn _]. pose proof (parseU_s64 10 _ v [] Hn I) as E. rewrite app_nil_r in E. cbn [map] in E. rewrite E. reflexivity.
  - unfold s64. pose proof (Z.mod_pos_bound (v + 2 ^ 63) (2 ^ 64) ltac:(lia)). lia.
Qed.
Print Assumptions json_big_integer_refuted.

(** C134.  Whatever the input, the parser ends; it ends with a value or an exception
    if the input contains no minus sign ... *)
Theorem json_parse_ends_partial : forall s, parseJson s <> NoFuel /\
  (parseJson s = Undef -> In 45 s) /\
  (forall v r, parseJson s = Ok (v, r) -> exists p, s = p ++ r /\ p <> []).
Proof.
  intros s. pose proof (proj1 (parse_good (2 * length s + 1)) s (le_n _)) as G. unfold parseJson.
  destruct (parse _ s) as [[v r]| | |]; cbn in G.
  - split; [discriminate|]. split; [discriminate|]. intros v' r' [= <- <-]. exact G.
  - repeat split; discriminate.
  - repeat split; try discriminate. intros _. exact G.
  - contradiction.
Qed.
Print Assumptions json_parse_ends_partial.
(** ... and is undefined for the smallest integer: "-9223372036854775808," *)
Theorem json_parse_safe_refuted : exists s, Forall byte_ok s /\ parseJson s = Undef.
Proof.
  exists [45; 57; 50; 50; 51; 51; 55; 50; 48; 51; 54; 56; 53; 52; 55; 55; 53; 56; 48; 56; 44].
  split; [repeat constructor|vm_compute; reflexivity].
Qed.
Print Assumptions json_parse_safe_refuted.

(** {"b":[1,-20],"a\n":"<00>x<E9>"} *)
Definition sample : json :=
  JObj [([97; 10], JStr [0; 120; 233]); ([98], JArr [JInt 1; JInt (-20); JNull; JBool true])].
Example sample_canonical : canonical bytes_ok sample.
Proof.
  constructor.
  - assert (B : forall s, forallb (fun c => c <? 256) s = true -> bytes_ok s).
    { intros s H. apply Forall_forall. intros x Hx. rewrite forallb_forall in H. apply H in Hx. unfold byte_ok. lia. }
    apply Forall_cons; [split; [apply B; reflexivity|apply can_str, B; reflexivity]|].
    apply Forall_cons; [split; [apply B; reflexivity|apply can_arr]|apply Forall_nil].
    apply Forall_cons; [apply can_int; lia|]. apply Forall_cons; [apply can_int; lia|].
    apply Forall_cons; [apply can_null|]. apply Forall_cons; [apply can_bool|apply Forall_nil].
  - cbn. repeat split. left. unfold sbyte. cbn. lia.
Qed.
Definition sample_bytes : list N :=
  [123; 34; 97; 92; 110; 34; 58; 34; 92; 117; 48; 48; 48; 48; 120; 233; 34; 44; 34; 98; 34; 58; 91; 49; 44; 45; 50; 48; 44;
   110; 117; 108; 108; 44; 116; 114; 117; 101; 93; 125].
Example sample_text : serialize false sample = Ok sample_bytes.
Proof. vm_compute. reflexivity. Qed.
Example sample_parse : parseJson sample_bytes = Ok (sample, []).
Proof. vm_compute. reflexivity. Qed.
Example sample_escaped : canonical (bmp_text (fun c => c <> 0x7FF /\ c <> 0xFFFF /\ c < 0x10000)) (JStr [0xE2; 0x82; 0xAC]) /\
  serialize true (JStr [0xE2; 0x82; 0xAC]) = Ok [34; 92; 117; 50; 48; 65; 67; 34].
Proof.
  split; [|vm_compute; reflexivity]. constructor. exists [0x20AC]. split; [|reflexivity].
  repeat constructor; lia.
Qed.
(** the members come in another order, one name twice: { "b" : 1 , "a":2,"b":3} *)
Example sample_members : parseJson [123; 32; 34; 98; 34; 32; 58; 32; 49; 32; 44; 32; 34; 97; 34; 58; 50; 44; 34; 98; 34; 58; 51; 125]
  = Ok (JObj [([97], JInt 2); ([98], JInt 1)], []).
Proof. vm_compute. reflexivity. Qed.
Example sample_single : parseJson [53] = Throw /\ parseJson [53; 10] = Ok (JInt 5, [10]) /\ parseJson [53; 53] = Ok (JInt 55, []).
Proof. vm_compute. repeat split; reflexivity. Qed.
Example sample_jtext : jtext (fun c => c <> 0x7FF /\ c <> 0xFFFF /\ c < 0x10000) (JArr [JFloat [49; 46; 53]; JNull])
  [91; 32; 49; 46; 53; 32; 44; 110; 117; 108; 108; 93].
Proof.
  apply (T_arr _ _ [32; 49; 46; 53; 32; 44; 110; 117; 108; 108]).
  apply (E_more _ (JFloat [49; 46; 53]) [49; 46; 53] [32] [32] [JNull] [110; 117; 108; 108]).
  - repeat constructor.
  - constructor. exists [49], [46; 53], [], 1%Z. split; [reflexivity|]. split.
    { constructor. split; [|exact I]. cbn. apply (numeral_one 10 49 1); [apply (digit_num 1); lia|lia]. }
    split; [right; exists [53]; repeat split; try discriminate; repeat constructor; unfold dig; lia|]. split; [left; reflexivity|left; discriminate].
  - repeat constructor.
  - apply (E_one _ JNull [110; 117; 108; 108] [] []); constructor.
Qed.
