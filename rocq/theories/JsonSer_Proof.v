(** Proofs about the JSON serializer: its output is a text of the value. *)
From Verif Require Import Common Conv_Model Utf_Model Utf_Spec Utf_Proof Rational_Model Rational_Proof IntText_Model IntText_Spec IntText_Proof
  Json_Spec Json_Model Json_Proof JsonNorm_Proof.
Local Open Scope N_scope.

(** ** Numbers *)
Lemma formatUnsigned_step f n b : n <> 0 ->
  formatUnsigned (S f) n b = let! l := formatUnsigned f (n / b) b in Ok (l ++ [hexChar (n mod b)]).
Proof. intros H. cbn [formatUnsigned]. rewrite (proj2 (N.eqb_neq _ _) H). reflexivity. Qed.
Lemma formatUnsigned_0 f b : formatUnsigned f 0 b = Ok [].
Proof. destruct f; reflexivity. Qed.
Lemma hexChar_digit d : d < 10 -> digit (Z.of_N (hexChar d)) (Z.of_N d).
Proof.
  intros H. unfold hexChar. rewrite (proj2 (N.ltb_lt _ _) H). rewrite N2Z.inj_add.
  change (Z.of_N 48) with 48%Z. constructor. lia.
Qed.
Lemma format10 f : forall n, n < 2 ^ N.of_nat f -> 0 < n ->
  exists l, formatUnsigned f n 10 = Ok l /\ numeral 10 (map Z.of_N l) (Z.of_N n) /\
    match l with [] => False | c :: _ => c <> 48 end.
Proof.
  induction f as [|f IH]; intros n H P; [change (2 ^ N.of_nat 0) with 1 in H; lia|].
  rewrite formatUnsigned_step by lia.
  assert (Hm : n mod 10 < 10) by (apply N.mod_lt; discriminate).
  destruct (N.eq_dec (n / 10) 0) as [E|E].
  - rewrite E, formatUnsigned_0. cbn [obind app]. eexists. split; [reflexivity|].
    assert (n mod 10 = n) by lia. rewrite H0. split.
    + cbn [map]. constructor; [apply hexChar_digit; lia|lia].
    + unfold hexChar. replace (n <? 10) with true by lia. lia.
  - assert (L : n / 10 < 2 ^ N.of_nat f).
    { rewrite Nnat.Nat2N.inj_succ, N.pow_succ_r' in H. lia. }
    destruct (IH _ L ltac:(lia)) as (l & El & Nu & Hd). rewrite El. cbn [obind]. eexists. split; [reflexivity|]. split.
    + rewrite map_app. cbn [map].
      replace (Z.of_N n) with (Z.of_N (n / 10) * 10 + Z.of_N (n mod 10))%Z by lia.
      constructor; [exact Nu|apply hexChar_digit; exact Hm|lia].
    + destruct l; [contradiction|exact Hd].
Qed.
Lemma format10_digits n : 0 < n -> n < 2 ^ 64 -> exists l, formatUnsigned 64 n 10 = Ok l /\ digits l (Z.of_N n).
Proof.
  intros P H. destruct (format10 64 n H P) as (l & E & Nu & Hd). exists l. split; [exact E|]. split; [exact Nu|].
  destruct l as [|a [|b l]]; cbn; auto. lia.
Qed.
Lemma numberS_ok z : (- 2 ^ 63 < z < 2 ^ 63)%Z -> exists t, numberS z 10 = Ok t /\ int_text t z.
Proof.
  intros H. unfold numberS. destruct (Z.eqb_spec z 0) as [->|N].
  - exists [48]. split; [reflexivity|]. constructor. split; [|exact I]. cbn [map]. apply (numeral_one 10 48 0); [|lia].
    apply (digit_num 0). lia.
  - destruct (Z.ltb_spec z 0) as [L|L].
    + rewrite signed_ok by lia. cbn [obind].
      destruct (format10_digits (Z.to_N (- z)) ltac:(lia) ltac:(lia)) as (l & E & D). rewrite E. cbn [obind].
      exists (45 :: l). split; [reflexivity|]. replace z with (- Z.of_N (Z.to_N (- z)))%Z at 1 by lia. apply int_neg. exact D.
    + destruct (format10_digits (Z.to_N z) ltac:(lia) ltac:(lia)) as (l & E & D). exists l. split; [exact E|].
      replace z with (Z.of_N (Z.to_N z)) at 1 by lia. apply int_pos. exact D.
Qed.

(** ** Hexadecimal escapes *)
Lemma hexChar_hex d : d < 16 -> hexdig (hexChar d) d.
Proof.
  intros H. unfold hexChar. destruct (N.ltb_spec d 10) as [L|L]; [apply hex_num; lia|apply hex_upper; lia].
Qed.
Lemma unicode_ok c : c < 0x10000 -> exists t, unicode c = Ok t /\ unit16 t c.
Proof.
  intros H. unfold unicode, numberU. destruct (N.eqb_spec c 0) as [->|N].
  - cbn [obind]. eexists. split; [reflexivity|]. exact (unit16_i 48 48 48 48 0 0 0 0 (hex_num 0 ltac:(lia)) (hex_num 0 ltac:(lia)) (hex_num 0 ltac:(lia)) (hex_num 0 ltac:(lia))).
  - set (a := c / 16). set (b := a / 16). set (d := b / 16).
    assert (E0 : c = a * 16 + c mod 16) by (unfold a; lia). assert (E1 : a = b * 16 + a mod 16) by (unfold b; lia).
    assert (E2 : b = d * 16 + b mod 16) by (unfold d; lia). assert (E3 : d < 16) by (unfold d, b, a; lia).
    assert (L0 : c mod 16 < 16) by lia. assert (L1 : a mod 16 < 16) by lia. assert (L2 : b mod 16 < 16) by lia.
    assert (Z0 : 48 = hexChar 0) by reflexivity.
    change 64%nat with (S (S (S (S 60)))). rewrite formatUnsigned_step by exact N. fold a.
    destruct (N.eq_dec a 0) as [A|A].
    { rewrite A, formatUnsigned_0. cbn [obind app length repeat Nat.sub]. eexists. split; [reflexivity|].
      assert (EQ : c = ((0 * 16 + 0) * 16 + 0) * 16 + c mod 16) by lia. rewrite EQ at 2. clear EQ. rewrite Z0. constructor; apply hexChar_hex; lia. }
    rewrite formatUnsigned_step by exact A. fold b.
    destruct (N.eq_dec b 0) as [B|B].
    { rewrite B, formatUnsigned_0. cbn [obind app length repeat Nat.sub]. eexists. split; [reflexivity|].
      assert (EQ : c = ((0 * 16 + 0) * 16 + a mod 16) * 16 + c mod 16) by lia. rewrite EQ at 2. clear EQ. rewrite Z0. constructor; apply hexChar_hex; lia. }
    rewrite formatUnsigned_step by exact B. fold d.
    destruct (N.eq_dec d 0) as [D|D].
    { rewrite D, formatUnsigned_0. cbn [obind app length repeat Nat.sub]. eexists. split; [reflexivity|].
      assert (EQ : c = ((0 * 16 + b mod 16) * 16 + a mod 16) * 16 + c mod 16) by lia. rewrite EQ at 2. clear EQ. rewrite Z0. constructor; apply hexChar_hex; lia. }
    rewrite formatUnsigned_step by exact D. replace (d / 16) with 0 by lia. rewrite formatUnsigned_0.
    cbn [obind app length repeat Nat.sub]. eexists. split; [reflexivity|].
    assert (EQ : c = ((d mod 16 * 16 + b mod 16) * 16 + a mod 16) * 16 + c mod 16) by lia. rewrite EQ at 2. clear EQ. constructor; apply hexChar_hex; lia.
Qed.
Lemma jc_unicode (P : N -> Prop) c : c < 0xD800 \/ 0xE000 <= c < 0x10000 -> P c -> exists t, unicode c = Ok t /\ jchar P t (utf8_standard c).
Proof.
  intros H Hp. destruct (unicode_ok c ltac:(lia)) as (t & E & U). exists t. split; [exact E|].
  apply jc_unit; [exact U|lia|exact Hp].
Qed.

Section Ser.
  Variable P : N -> Prop.
  Hypothesis HP32 : forall c, c < 32 -> P c.
  Lemma writeChar_ok c : c < 256 -> exists t, writeChar c = Ok t /\ jchar P t [c].
  Proof.
    intros H. unfold writeChar.
    destruct (N.eqb_spec c 13) as [->|]; [eexists; split; [reflexivity|apply jc_short; constructor]|].
    destruct (N.eqb_spec c 12) as [->|]; [eexists; split; [reflexivity|apply jc_short; constructor]|].
    destruct (N.eqb_spec c 10) as [->|]; [eexists; split; [reflexivity|apply jc_short; constructor]|].
    destruct (N.eqb_spec c 9) as [->|]; [eexists; split; [reflexivity|apply jc_short; constructor]|].
    destruct (N.eqb_spec c 8) as [->|]; [eexists; split; [reflexivity|apply jc_short; constructor]|].
    destruct (N.eqb_spec c 92) as [->|]; [eexists; split; [reflexivity|apply jc_short; constructor]|].
    destruct (N.eqb_spec c 34) as [->|]; [eexists; split; [reflexivity|apply jc_short; constructor]|].
    destruct (N.ltb_spec c 32) as [L|L].
    - destruct (jc_unicode P c ltac:(lia) (HP32 c L)) as (t & E & J). exists t. split; [exact E|].
      replace [c] with (utf8_standard c); [exact J|]. unfold utf8_standard. replace (c <=? 0x7F) with true by lia. reflexivity.
    - eexists. split; [reflexivity|]. apply jc_plain; [lia|assumption..].
  Qed.
  Lemma plainString_ok s : bytes_ok s -> exists t, plainString s = Ok t /\ jchars P t s.
  Proof.
    induction 1 as [|c s Hc _ (t & E & J)]; [eexists; split; [reflexivity|constructor]|].
    destruct (writeChar_ok c Hc) as (a & Ea & Ja). cbn [plainString]. rewrite Ea, E. cbn [obind].
    eexists. split; [reflexivity|]. change (c :: s) with ([c] ++ s). constructor; assumption.
  Qed.

  (** what is needed of strings *)
  Variable esc : bool.
  Variable good : list N -> Prop.
  Hypothesis Hgood : forall s, good s -> exists t, stringText esc s = Ok (34 :: t ++ [34]) /\ jchars P t s.

  Definition elemsText := fix rest (first : bool) (l : list json) : outcome (list N) :=
    match l with
    | [] => Ok []
    | v :: l =>
        let! a := serialize esc v in
        let! b := rest false l in
        Ok ((if first then [] else [44]) ++ a ++ b)
    end.
  Definition membersText := fix rest (first : bool) (m : list (list N * json)) : outcome (list N) :=
    match m with
    | [] => Ok []
    | (k, v) :: m =>
        let! tk := stringText esc k in
        let! a := serialize esc v in
        let! b := rest false m in
        Ok ((if first then [] else [44]) ++ tk ++ 58 :: a ++ b)
    end.
  Lemma serialize_arr l : serialize esc (JArr l) = let! t := elemsText true l in Ok (91 :: t ++ [93]).
  Proof. reflexivity. Qed.
  Lemma serialize_obj m : serialize esc (JObj m) = let! t := membersText true m in Ok (123 :: t ++ [125]).
  Proof. reflexivity. Qed.
  Definition done (v : json) : Prop := exists t, serialize esc v = Ok t /\ jtext P v t.
  Lemma elems_done l : Forall done l -> forall first, exists t, elemsText first l = Ok t /\
    (l = [] /\ t = [] \/ exists ts, jelems P l ts /\ t = (if first then [] else [44]) ++ ts).
  Proof.
    induction 1 as [|v l (tv & Ev & Jv) _ IH]; intros first; [exists []; split; [reflexivity|left; auto]|].
    cbn [elemsText]. rewrite Ev. destruct (IH false) as (t & E & D). rewrite E. cbn [obind]. eexists. split; [reflexivity|]. right.
    destruct D as [[-> ->]|(ts & J & ->)].
    - exists (tv ++ []). split; [|reflexivity]. apply (E_one P v tv [] []); [constructor|exact Jv|constructor].
    - exists (tv ++ 44 :: ts). split; [|reflexivity]. apply (E_more P v tv [] [] l ts); [constructor|exact Jv|constructor|exact J].
  Qed.
  Lemma members_done m : Forall (fun kv => good (fst kv) /\ done (snd kv)) m -> forall first, exists t, membersText first m = Ok t /\
    (m = [] /\ t = [] \/ exists ts, jmembers P m ts /\ t = (if first then [] else [44]) ++ ts).
  Proof.
    induction 1 as [|[k v] m (Hk & tv & Ev & Jv) _ IH]; intros first; [exists []; split; [reflexivity|left; auto]|].
    cbn [fst snd] in *. destruct (Hgood k Hk) as (tk & Ek & Jk).
    cbn [membersText]. rewrite Ek, Ev. destruct (IH false) as (t & E & D). rewrite E. cbn [obind]. eexists. split; [reflexivity|]. right.
    destruct D as [[-> ->]|(ts & J & ->)].
    - exists (34 :: tk ++ 34 :: 58 :: tv ++ []). split; [|f_equal; cbn [app]; rewrite <- app_assoc; reflexivity].
      apply (M_one P k tk v tv [] [] [] []); try constructor; assumption.
    - exists (34 :: tk ++ 34 :: 58 :: tv ++ 44 :: ts). split; [|f_equal; cbn [app]; rewrite <- app_assoc; reflexivity].
      apply (M_more P k tk v tv [] [] [] [] m ts); try constructor; assumption.
  Qed.
  Lemma serialize_ok v : canonical good v -> done v.
  Proof.
    induction v as [|b|z|t|s|l IH|m IH] using json_deep; intros C.
    - eexists. split; [reflexivity|constructor].
    - destruct b; eexists; (split; [reflexivity|constructor]).
    - inversion C; subst. destruct (numberS_ok z ltac:(assumption)) as (t & E & T). exists t. split; [exact E|].
      apply T_int; assumption.
    - inversion C.
    - inversion C; subst. destruct (Hgood s ltac:(assumption)) as (t & E & T). eexists. split; [exact E|].
      apply T_str. exact T.
    - inversion C as [| | | |l' Hl E|]; subst.
      assert (D : Forall done l). { rewrite Forall_forall in *. intros x Hx. apply IH; [exact Hx|]. apply Hl. exact Hx. }
      unfold done. rewrite serialize_arr. destruct (elems_done l D true) as (t & E & R). rewrite E. cbn [obind].
      eexists. split; [reflexivity|]. destruct R as [[-> ->]|(ts & J & ->)].
      + apply (T_arr0 P []). constructor.
      + apply T_arr. exact J.
    - inversion C as [| | | | |m' Hm Hi E]; subst.
      assert (D : Forall (fun kv => good (fst kv) /\ done (snd kv)) m).
      { rewrite Forall_forall in *. intros x Hx. split; [apply Hm; exact Hx|]. apply IH; [exact Hx|]. apply Hm. exact Hx. }
      unfold done. rewrite serialize_obj. destruct (members_done m D true) as (t & E & R). rewrite E. cbn [obind].
      eexists. split; [reflexivity|]. destruct R as [[-> ->]|(ts & J & ->)].
      + apply (T_obj0 P []). constructor.
      + apply T_obj. exact J.
  Qed.
End Ser.

Lemma plain_good (P : N -> Prop) s : (forall c, c < 32 -> P c) -> bytes_ok s ->
  exists t, stringText false s = Ok (34 :: t ++ [34]) /\ jchars P t s.
Proof.
  intros HP Hs. destruct (plainString_ok P HP s Hs) as (t & E & J). exists t. split; [|exact J].
  unfold stringText. rewrite E. reflexivity.
Qed.

(** ** Escaping of UTF-8 *)
Lemma lead2 x : x < 32 -> wdec_write false wdec_init (0xC0 + x) = Ok (mkWD (Some x) 1 false true).
Proof.
  intros H. unfold wdec_write, wdec_init. cbn [wd_st wd_out]. change (255 =? 0) with false. change (255 =? 255) with true. cbn iota.
  replace (0xC0 + x <? 0x80) with false by lia. replace (0xC0 + x <? 0xc0) with false by lia. rewrite andb_false_r.
  replace (0xC0 <=? 0xC0 + x) with true by lia. replace (0xC0 + x <? 0xE0) with true by lia. cbn [andb].
  change 0x1F with (N.ones 5). rewrite land_mod. change (2 ^ 5) with 32. replace ((192 + x) mod 32) with x by lia. reflexivity.
Qed.
Lemma lead3 x : x < 16 -> wdec_write false wdec_init (0xE0 + x) = Ok (mkWD (Some x) 2 false true).
Proof.
  intros H. unfold wdec_write, wdec_init. cbn [wd_st wd_out]. change (255 =? 0) with false. change (255 =? 255) with true. cbn iota.
  replace (0xE0 + x <? 0x80) with false by lia. replace (0xE0 + x <? 0xc0) with false by lia. rewrite andb_false_r.
  replace (0xE0 + x <? 0xE0) with false by lia. rewrite andb_false_r.
  replace (0xE0 <=? 0xE0 + x) with true by lia. replace (0xE0 + x <? 0xF0) with true by lia. cbn [andb].
  change 0x0F with (N.ones 4). rewrite land_mod. change (2 ^ 4) with 16. replace ((224 + x) mod 16) with x by lia. reflexivity.
Qed.
Lemma lead4 x : x < 8 -> wdec_write false wdec_init (0xF0 + x) = Ok (mkWD (Some x) 3 false true).
Proof.
  intros H. unfold wdec_write, wdec_init. cbn [wd_st wd_out]. change (255 =? 0) with false. change (255 =? 255) with true. cbn iota.
  replace (0xF0 + x <? 0x80) with false by lia. replace (0xF0 + x <? 0xc0) with false by lia. rewrite andb_false_r.
  replace (0xF0 + x <? 0xE0) with false by lia. rewrite andb_false_r.
  replace (0xF0 + x <? 0xF0) with false by lia. rewrite andb_false_r.
  replace (0xF0 <=? 0xF0 + x) with true by lia. replace (0xF0 + x <? 0xF8) with true by lia. cbn [andb].
  change 0x07 with (N.ones 3). rewrite land_mod. change (2 ^ 3) with 8. replace ((240 + x) mod 8) with x by lia. reflexivity.
Qed.
Lemma esc_char c s : c < 0x110000 -> 0x80 <= c ->
  escString None (utf8_standard c ++ s) = let! a := unicode c in let! b := escString None s in Ok (a ++ b).
Proof.
  intros H1 H2. unfold utf8_standard. replace (c <=? 0x7F) with false by lia.
  destruct (N.leb_spec c 0x7FF) as [L|L]; [|destruct (N.leb_spec c 0xFFFF) as [L'|L']].
  - cbn [app escString]. replace (0xC0 + c / 64 <? 128) with false by lia. rewrite lead2 by lia. cbn [obind wd_has].
    replace (0x80 + c mod 64) with (128 + c mod 64) by lia.
    rewrite cont_step by lia. replace (c / 64 * 64 + c mod 64) with c by lia. reflexivity.
  - cbn [app escString]. replace (0xE0 + c / 4096 <? 128) with false by lia. rewrite lead3 by lia. cbn [obind wd_has].
    rewrite (cont_step false (c / 4096) 2 (c / 64)) by lia. cbn [obind]. change (wdec_update (Some (c / 4096 * 64 + (c / 64) mod 64)) (2 - 1))
      with (mkWD (Some (c / 4096 * 64 + (c / 64) mod 64)) 1 false true). cbn [wd_has].
    replace (c / 4096 * 64 + (c / 64) mod 64) with (c / 64) by lia.
    rewrite cont_step by lia. replace (c / 64 * 64 + c mod 64) with c by lia. reflexivity.
  - cbn [app escString]. replace (0xF0 + c / 262144 <? 128) with false by lia. rewrite lead4 by lia. cbn [obind wd_has].
    rewrite (cont_step false (c / 262144) 3 (c / 4096)) by lia. cbn [obind]. change (wdec_update (Some (c / 262144 * 64 + (c / 4096) mod 64)) (3 - 1))
      with (mkWD (Some (c / 262144 * 64 + (c / 4096) mod 64)) 2 false true). cbn [wd_has].
    replace (c / 262144 * 64 + (c / 4096) mod 64) with (c / 4096) by lia.
    rewrite (cont_step false (c / 4096) 2 (c / 64)) by lia. cbn [obind]. change (wdec_update (Some (c / 4096 * 64 + (c / 64) mod 64)) (2 - 1))
      with (mkWD (Some (c / 4096 * 64 + (c / 64) mod 64)) 1 false true). cbn [wd_has].
    replace (c / 4096 * 64 + (c / 64) mod 64) with (c / 64) by lia.
    rewrite cont_step by lia. replace (c / 64 * 64 + c mod 64) with c by lia. reflexivity.
Qed.
Lemma esc_ascii c s : c < 0x80 ->
  escString None (utf8_standard c ++ s) = let! a := writeChar c in let! b := escString None s in Ok (a ++ b).
Proof.
  intros H. unfold utf8_standard. replace (c <=? 0x7F) with true by lia. cbn [app escString].
  replace (c <? 128) with true by lia. reflexivity.
Qed.
(** texts of the basic plane *)
Definition bmp (P : N -> Prop) (c : N) : Prop := (c < 0xD800 \/ 0xE000 <= c < 0x10000) /\ (32 <= c -> P c).
Definition bmp_text (P : N -> Prop) (s : list N) : Prop := exists cs, Forall (bmp P) cs /\ s = flat_map utf8_standard cs.
Lemma esc_good (P : N -> Prop) s : (forall c, c < 32 -> P c) -> bmp_text P s ->
  exists t, stringText true s = Ok (34 :: t ++ [34]) /\ jchars P t s.
Proof.
  intros HP (cs & Hcs & ->).
  assert (Q : exists t, escString None (flat_map utf8_standard cs) = Ok t /\ jchars P t (flat_map utf8_standard cs)).
  { induction Hcs as [|c cs [Hc Hp] _ (t & E & J)]; [exists []; split; [reflexivity|constructor]|]. cbn [flat_map].
    destruct (N.lt_ge_cases c 0x80) as [L|L].
    - rewrite esc_ascii by exact L. destruct (writeChar_ok P HP c ltac:(lia)) as (a & Ea & Ja). rewrite Ea, E. cbn [obind].
      eexists. split; [reflexivity|]. constructor; [|exact J]. replace (utf8_standard c) with [c]; [exact Ja|].
      unfold utf8_standard. replace (c <=? 0x7F) with true by lia. reflexivity.
    - rewrite esc_char by lia. destruct (jc_unicode P c Hc (Hp ltac:(lia))) as (a & Ea & Ja). rewrite Ea, E. cbn [obind].
      eexists. split; [reflexivity|]. constructor; assumption. }
  destruct Q as (t & E & J). exists t. split; [|exact J]. unfold stringText. rewrite E. reflexivity.
Qed.
Lemma bmp_bytes P s : bmp_text P s -> bytes_ok s.
Proof.
  intros (cs & Hcs & ->). induction Hcs as [|c cs [Hc _] _ IH]; [constructor|]. cbn [flat_map]. apply Forall_app. split; [|exact IH].
  apply standard_bytes. lia.
Qed.
