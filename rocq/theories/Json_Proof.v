(** Proofs about the JSON parser. *)
From Verif Require Import Common Conv_Model Utf_Model Utf_Spec Utf_Proof Rational_Model IntText_Model Rational_Proof IntText_Spec IntText_Proof Json_Spec Json_Model.
Local Open Scope N_scope.

(** ** Blanks *)
Lemma blank_space c : blank c -> isspace c = true.
Proof. intros [->|[->|[->| ->]]]; reflexivity. Qed.
Lemma blank_skipped c : blank c -> skipped c = true.
Proof. intros [->|[->|[->| ->]]]; reflexivity. Qed.
Lemma nextNonSpace_ws w s : ws w -> nextNonSpace (w ++ s) = nextNonSpace s.
Proof. induction 1 as [|c w Hc _ IH]; [reflexivity|]. cbn. rewrite (blank_space _ Hc). exact IH. Qed.
Lemma peekNonSpace_ws w s : ws w -> peekNonSpace (w ++ s) = peekNonSpace s.
Proof. induction 1 as [|c w Hc _ IH]; [reflexivity|]. cbn. rewrite (blank_space _ Hc). exact IH. Qed.
Lemma nextToken_ws w s : ws w -> nextToken (w ++ s) = nextToken s.
Proof. induction 1 as [|c w Hc _ IH]; [reflexivity|]. cbn. rewrite (blank_skipped _ Hc). exact IH. Qed.
Lemma parse_ws w s f : ws w -> parse f (w ++ s) = parse f s.
Proof. intros H. destruct f as [|f]; [reflexivity|]. cbn [parse]. rewrite nextToken_ws by exact H. reflexivity. Qed.
Lemma elems_ws w s f l : ws w -> elems f (w ++ s) l = elems f s l.
Proof. intros H. destruct f as [|f]; [reflexivity|]. cbn [elems]. rewrite parse_ws by exact H. reflexivity. Qed.
Lemma nextNonSpace_at c s : isspace c = false -> nextNonSpace (c :: s) = Ok (c, s).
Proof. intros H. cbn. rewrite H. reflexivity. Qed.
Lemma members_ws w c s c' s' f m : ws w -> w ++ c :: s = c' :: s' -> isspace c = false ->
  members f c' s' m = members f c s m.
Proof.
  intros Hw E Hc. destruct Hw as [|x w Hx Hw].
  - injection E as -> ->. reflexivity.
  - cbn in E. injection E as -> <-. destruct f as [|f]; [reflexivity|]. cbn [members].
    rewrite (blank_space _ Hx), Hc, (nextNonSpace_ws _ _ Hw), (nextNonSpace_at _ _ Hc). reflexivity.
Qed.

(** ** Strings *)
Definition plainP (c : N) : Prop := c <> 0x7FF /\ c <> 0xFFFF /\ c < 0x10000.
Lemma hexVal_ok c d : hexdig c d -> hexVal c = Some d.
Proof.
  unfold hexVal. intros [d' H|d' H|d' H].
  - replace (48 <=? 48 + d') with true by lia. replace (48 + d' <=? 57) with true by lia. cbn [andb]. f_equal. lia.
  - replace (65 + (d' - 10) <=? 57) with false by lia. rewrite andb_false_r.
    replace (65 <=? 65 + (d' - 10)) with true by lia. replace (65 + (d' - 10) <=? 70) with true by lia. cbn [andb]. f_equal. lia.
  - replace (97 + (d' - 10) <=? 57) with false by lia. rewrite andb_false_r.
    replace (97 + (d' - 10) <=? 70) with false by lia. rewrite andb_false_r.
    replace (97 <=? 97 + (d' - 10)) with true by lia. replace (97 + (d' - 10) <=? 102) with true by lia. cbn [andb]. f_equal. lia.
Qed.
Lemma shortEscape_ok e c : short_esc e c -> shortEscape e = Some c /\ e <> 117.
Proof. intros []; split; (reflexivity || lia). Qed.
Lemma encode_one c : plainP c -> utf8_encode [c] = Ok (utf8_standard c).
Proof.
  intros (H1 & H2 & H3). rewrite utf_standard_lem.
  - cbn [flat_map]. rewrite app_nil_r. reflexivity.
  - repeat constructor. unfold code_point. lia.
  - cbn. intuition.
  - cbn. intuition.
Qed.
Lemma rawString_char (P : N -> Prop) t c s : (forall x : N, P x -> plainP x) -> jchar P t c ->
  rawString (t ++ s) = let! (l, r) := rawString s in Ok (c ++ l, r).
Proof.
  intros HP [c' H1 H2 H3|e c' H|t' c' Hu Hc Hp|t1 t2 hi lo Hh Hl Ha Hb Hp].
  - cbn [app rawString]. rewrite (proj2 (N.eqb_neq _ _) H2), (proj2 (N.eqb_neq _ _) H3). reflexivity.
  - destruct (shortEscape_ok _ _ H) as [E N]. cbn [app rawString].
    change (92 =? 34) with false. change (92 =? 92) with true. cbn iota.
    rewrite (proj2 (N.eqb_neq _ _) N), E. reflexivity.
  - destruct Hu as [a1 b1 c1 d1 va vb vc vd A B C D]. cbn [app rawString].
    change (92 =? 34) with false. change (92 =? 92) with true. change (117 =? 117) with true. cbn iota.
    unfold hex4. rewrite (hexVal_ok _ _ A), (hexVal_ok _ _ B), (hexVal_ok _ _ C), (hexVal_ok _ _ D).
    rewrite (encode_one _ (HP _ Hp)). reflexivity.
  - apply HP in Hp. destruct Hp as (_ & _ & Hp). lia.
Qed.
Lemma rawString_ok (P : N -> Prop) t s rest : (forall x, P x -> plainP x) -> jchars P t s ->
  rawString (t ++ 34 :: rest) = Ok (s, rest).
Proof.
  intros HP. induction 1 as [|t c ts cs H _ IH]; [reflexivity|].
  rewrite <- app_assoc, (rawString_char P t c _ HP H), IH. reflexivity.
Qed.

(** ** Numbers *)
Lemma numeral10_digits s v : numeral 10 s v -> Forall (fun c => (48 <= c <= 57)%Z) s.
Proof.
  induction 1 as [c d [d' Hd|d' Hd|d' Hd] L|s v c d _ IH [d' Hd|d' Hd|d' Hd] L]; try lia.
  - repeat constructor; lia.
  - apply Forall_app. split; [exact IH|]. repeat constructor; lia.
Qed.
Lemma numeral_length s v : numeral 10 s v -> match s with [] => False | c :: _ => c <> 48%Z end ->
  (10 ^ Z.of_nat (length s - 1) <= v)%Z.
Proof.
  induction 1 as [c d [d' Hd|d' Hd|d' Hd] L|s v c d Hn IH Hd L]; intros Hz; try lia.
  - cbn [length Nat.sub]. change (Z.of_nat 0) with 0%Z. rewrite Z.pow_0_r. lia.
  - destruct s as [|x s]; [inversion Hn as [? ? ? ? E|s0 ? ? ? ? ? ? E]; destruct s0; discriminate E|].
    cbn [app] in Hz. specialize (IH Hz). rewrite app_length. cbn [length] in *.
    replace (S (length s) + 1 - 1)%nat with (S (length s)) by lia.
    replace (S (length s) - 1)%nat with (length s) in IH by lia.
    rewrite Nat2Z.inj_succ, Z.pow_succ_r by lia. pose proof (digit_nonneg _ _ Hd). lia.
Qed.
Lemma numeral_nonnil s v : numeral 10 s v -> s <> [].
Proof. intros [|s0]; [discriminate|]. destruct s0; discriminate. Qed.
Lemma digits_length t v : digits t v -> (v < 2 ^ 63)%Z -> (length t <= 19)%nat.
Proof.
  intros [Hn Hz] Hv. destruct (Nat.le_gt_cases (length t) 19) as [|H]; [assumption|exfalso].
  assert (Q := numeral_length _ _ Hn). destruct t as [|a [|b t]]; cbn [length] in H; try lia.
  cbn [map] in *. specialize (Q Hz). cbn [length] in Q. rewrite map_length in Q.
  assert (10 ^ 19 <= 10 ^ Z.of_nat (S (S (length t)) - 1))%Z by (apply Z.pow_le_mono_r; lia).
  lia.
Qed.
Lemma digits_dig t v : digits t v -> Forall dig t.
Proof.
  intros [Hn _]. apply numeral10_digits in Hn. rewrite Forall_map in Hn.
  eapply Forall_impl; [|exact Hn]. cbn. unfold dig. intros. lia.
Qed.
Lemma digits_nonnil t v : digits t v -> t <> [].
Proof. intros [Hn _] ->. exact (numeral_nonnil _ _ Hn eq_refl). Qed.
Lemma parseS_int t z : (- 2 ^ 63 < z < 2 ^ 63)%Z -> int_text t z -> parseS 10 (map Z.of_N t) = Ok (true, z, []).
Proof.
  intros Hz H0. revert Hz. destruct H0 as [t' v H|t' v H]; intros Hz.
  - pose proof (digits_dig _ _ H) as D. destruct H as [Hn _]. destruct t' as [|c t']; [destruct (numeral_nonnil _ _ Hn eq_refl)|].
    apply Forall_cons_iff in D as [Hc _]. unfold dig in Hc. unfold parseS. cbn [map] in *.
    replace (Z.of_N c =? 43)%Z with false by lia. replace (Z.of_N c =? 45)%Z with false by lia.
    pose proof (parseU_s64 10 _ v [] Hn I) as E. rewrite app_nil_r in E. rewrite E.
    rewrite s64_small by lia. reflexivity.
  - destruct H as [Hn _]. unfold parseS. cbn [map].
    change (Z.of_N 45) with 45%Z. change (45 =? 43)%Z with false. change (45 =? 45)%Z with true. cbn iota.
    pose proof (parseU_s64 10 _ v [] Hn I) as E. rewrite app_nil_r in E. rewrite E.
    rewrite s64_small by lia. rewrite signed_ok by lia. reflexivity.
Qed.

(** characters of numbers *)
Definition numch (c : N) : Prop := dig c \/ c = 43 \/ c = 45 \/ c = 46 \/ c = 69 \/ c = 101.
Lemma numch_go c : numch c -> stops c = false /\ isspace c = false /\ skipped c = false.
Proof. intros [H|[->|[->|[->|[->| ->]]]]]; [|repeat split; reflexivity..]. unfold dig in H. unfold stops, isspace, skipped. lia. Qed.
Lemma collect_app l rest : Forall numch l -> match rest with [] => True | c :: _ => stops c = true end ->
  collect (l ++ rest) = (l, rest).
Proof.
  intros Hl Hr. induction Hl as [|c l Hc _ IH].
  - destruct rest as [|c r]; [reflexivity|]. cbn. rewrite Hr. reflexivity.
  - cbn. destruct (numch_go _ Hc) as [-> _]. rewrite IH. reflexivity.
Qed.
Lemma dig_numch c : dig c -> numch c. Proof. left. assumption. Qed.
Lemma Forall_dig_numch l : Forall dig l -> Forall numch l.
Proof. apply Forall_impl. exact dig_numch. Qed.
Lemma int_numch t z : int_text t z -> exists c r, t = c :: r /\ (dig c \/ c = 45) /\ Forall dig r.
Proof.
  intros [t' v H|t' v H].
  - pose proof (digits_dig _ _ H) as D. destruct t' as [|c t']; [destruct (digits_nonnil _ _ H eq_refl)|].
    apply Forall_cons_iff in D as [Hc D]. exists c, t'. auto.
  - exists 45, t'. split; [reflexivity|]. split; [right; reflexivity|]. exact (digits_dig _ _ H).
Qed.
Lemma frac_numch f : f = [] \/ frac f -> Forall numch f.
Proof.
  intros [->|(ds & -> & _ & D)]; [constructor|]. constructor; [unfold numch; tauto|]. apply Forall_dig_numch. exact D.
Qed.
Lemma expo_numch e : e = [] \/ expo e -> Forall numch e.
Proof.
  intros [->|(m & sg & ds & -> & Hm & Hs & _ & D)]; [constructor|].
  constructor; [unfold numch; tauto|]. apply Forall_app. split; [|apply Forall_dig_numch; exact D].
  destruct Hs as [->|[->| ->]]; [constructor|..]; (constructor; [unfold numch; tauto|constructor]).
Qed.

Definition ends (v : json) (t rest : list N) : Prop :=
  is_number v -> match rest with [] => (2 <= length t)%nat | c :: _ => stops c = true end.
Lemma parseValue_int t z rest c r : t = c :: r -> (- 2 ^ 63 < z < 2 ^ 63)%Z -> int_text t z -> ends (JInt z) t rest ->
  parseValue c (r ++ rest) = Ok (JInt z, rest).
Proof.
  intros -> Hz Ht He. destruct (int_numch _ _ Ht) as (c' & r' & E & Hc & Hr). injection E as <- <-.
  specialize (He I). pose proof (parseS_int _ _ Hz Ht) as Hp.
  assert (Hn : r ++ rest <> []). { destruct rest as [|x rest]; [|destruct r; discriminate]. cbn in He. destruct r; [cbn in He; lia|discriminate]. }
  unfold parseValue. destruct (r ++ rest) as [|x y] eqn:E; [congruence|]. rewrite <- E. clear E Hn x y.
  assert (Sp : isspace c = false). { apply numch_go. unfold numch. tauto. }
  rewrite Sp. cbn [obind]. rewrite collect_app.
  2: { apply Forall_dig_numch. exact Hr. } 2: { destruct rest; [exact I|exact He]. }
  assert (F : existsb (fun c0 => (c0 =? 46) || (c0 =? 69) || (c0 =? 101)) r = false).
  { clear - Hr. induction Hr as [|d l Hd _ IH]; [reflexivity|]. cbn [existsb]. rewrite IH. unfold dig in Hd. lia. }
  rewrite F. cbn [app].
  assert (L : (length (c :: r) <= 22)%nat).
  { inversion Ht as [t' v D E|t' v D E]; subst.
    - pose proof (digits_length _ _ D). lia.
    - pose proof (digits_length _ _ D ltac:(lia)). cbn [length]. lia. }
  apply Nat.leb_le in L. rewrite L. cbn [negb andb]. rewrite Hp. reflexivity.
Qed.
Lemma parseValue_float t rest : float_text t -> ends (JFloat t) t rest ->
  exists c r, t = c :: r /\ (dig c \/ c = 45) /\ parseValue c (r ++ rest) = Ok (JFloat t, rest).
Proof.
  intros (i & f & e & v & -> & Hi & Hf & He & Hne) Hends.
  destruct (int_numch _ _ Hi) as (c & r & -> & Hc & Hr). exists c, (r ++ f ++ e). split; [reflexivity|]. split; [exact Hc|].
  specialize (Hends I).
  assert (Nn : f ++ e <> []). { destruct f; [destruct Hne; [congruence|]; assumption|discriminate]. }
  unfold parseValue. destruct ((r ++ f ++ e) ++ rest) as [|x y] eqn:E.
  { destruct r; [|discriminate]. destruct (f ++ e); [congruence|discriminate]. }
  rewrite <- E. clear E x y.
  assert (Sp : isspace c = false). { apply numch_go. unfold numch. tauto. }
  rewrite Sp. cbn [obind]. rewrite collect_app.
  2: { apply Forall_app. split; [apply Forall_dig_numch; exact Hr|]. apply Forall_app. split; [apply frac_numch; exact Hf|apply expo_numch; exact He]. }
  2: { destruct rest; [exact I|exact Hends]. }
  assert (F : existsb (fun c0 => (c0 =? 46) || (c0 =? 69) || (c0 =? 101)) (r ++ f ++ e) = true).
  { rewrite !existsb_app. destruct Hf as [->|(ds & -> & _)].
    - destruct He as [->|(m & sg & ds & -> & Hm & _)]; [destruct Hne; congruence|]. cbn [existsb].
      destruct Hm as [-> | ->]; cbn; rewrite ?orb_true_r; reflexivity.
    - cbn. rewrite ?orb_true_r. reflexivity. }
  rewrite F. reflexivity.
Qed.

(** ** Values *)
Scheme jtext_min := Minimality for jtext Sort Prop
  with jelems_min := Minimality for jelems Sort Prop
  with jmembers_min := Minimality for jmembers Sort Prop.
Combined Scheme json_min from jtext_min, jelems_min, jmembers_min.

(** the value that is built: members sorted, the first of a name kept *)
Fixpoint norm (v : json) : json :=
  match v with
  | JArr l => JArr (map norm l)
  | JObj m => JObj (fold_left (fun acc kv => insertField (fst kv) (norm (snd kv)) acc) m [])
  | _ => v
  end.
Definition ins (acc : list (list N * json)) (kv : list N * json) := insertField (fst kv) (norm (snd kv)) acc.

Lemma jtext_head P v t : jtext P v t -> exists c r, t = c :: r /\ isspace c = false /\ skipped c = false /\ c <> 93.
Proof.
  assert (D : forall c, dig c \/ c = 45 -> isspace c = false /\ skipped c = false /\ c <> 93).
  { intros c [H| ->]; [|split; [reflexivity|split; [reflexivity|discriminate]]].
    unfold dig in H. destruct (numch_go c (or_introl H)) as (_ & A & B). repeat split; [exact A|exact B|lia]. }
  intros [ | | |z t' Hz H|t' H|s t' H|w H|l t' H|w H|m t' H];
    try (eexists _, _; split; [reflexivity|split; [reflexivity|split; [reflexivity|discriminate]]]).
  - destruct (int_numch _ _ H) as (c & r & -> & Hc & _). exists c, r. split; [reflexivity|apply D; exact Hc].
  - destruct H as (i & f & e & v' & -> & Hi & _). destruct (int_numch _ _ Hi) as (c & r & -> & Hc & _).
    exists c, (r ++ f ++ e). split; [reflexivity|apply D; exact Hc].
Qed.
Lemma jelems_head P l t : jelems P l t -> exists w c r, t = w ++ c :: r /\ ws w /\ isspace c = false /\ c <> 93.
Proof.
  intros [v t' w1 w2 H1 Ht H2|v t' w1 w2 l' ts H1 Ht H2 _];
    destruct (jtext_head _ _ _ Ht) as (c & r & -> & A & _ & B); eexists w1, c, _; (split; [reflexivity|auto]).
Qed.
Lemma jmembers_head P m t : jmembers P m t -> exists w r, t = w ++ 34 :: r /\ ws w.
Proof. intros [k tk v t' w1 w2 w3 w4 H1|k tk v t' w1 w2 w3 w4 m' ts H1]; eexists w1, _; (split; [reflexivity|exact H1]). Qed.

Lemma parseCheck_ok str rest : parseCheck str (str ++ rest) = Ok rest.
Proof. induction str as [|x str IH]; [reflexivity|]. cbn [parseCheck app]. rewrite N.eqb_refl. exact IH. Qed.
Lemma stops_blank w rest c : ws w -> stops c = true -> match w ++ c :: rest with [] => False | x :: _ => stops x = true end.
Proof.
  intros [|x l H _] Hc; [exact Hc|]. cbn. apply blank_space in H. unfold stops. rewrite H. apply orb_true_r.
Qed.
Lemma ends_blank v t w c rest : ws w -> stops c = true -> ends v t (w ++ c :: rest).
Proof. intros Hw Hc _. pose proof (stops_blank w rest c Hw Hc). destruct (w ++ c :: rest); [contradiction|assumption]. Qed.

Lemma members_start c s f m : c <> 34 \/ True -> isspace c = false -> members (S f) c s m =
  (if c =? 34 then
        let! (k, s) := rawString s in
        let! (d, s) := nextNonSpace s in
        if d =? 58 then
          let! (v, s) := parse f s in
          let m := insertField k v m in
          let! (c, s) := nextNonSpace s in
          if c =? 44 then
            match s with [] => Throw | c :: s => members f c s m end
          else if c =? 125 then Ok (JObj m, s)
          else Throw
        else Throw
      else Throw).
Proof. intros _ H. cbn [members]. rewrite H. reflexivity. Qed.

Section Grammar.
  Variable P : N -> Prop.
  Hypothesis HP : forall x, P x -> plainP x.
  Lemma member_one k tk v t w1 w2 w3 w4 rest tail acc f c0 s0 :
    ws w1 -> jchars P tk k -> ws w2 -> ws w3 -> ws w4 ->
    (forall rest f, ends v t rest -> (2 * length t + 1 <= f)%nat -> parse f (t ++ rest) = Ok (norm v, rest)) ->
    (2 * length t + 1 <= f)%nat -> stops tail = true -> isspace tail = false ->
    c0 :: s0 = w1 ++ 34 :: tk ++ 34 :: w2 ++ 58 :: w3 ++ t ++ w4 ++ tail :: rest ->
    members (S f) c0 s0 acc =
      if tail =? 44 then match rest with [] => Throw | c :: s => members f c s (ins acc (k, v)) end
      else if tail =? 125 then Ok (JObj (ins acc (k, v)), rest) else Throw.
  Proof.
    intros H1 Hk H2 H3 H4 IH Hf Ht Ht' E.
    rewrite (members_ws w1 34 _ c0 s0 (S f) acc H1 (eq_sym E) eq_refl).
    rewrite members_start by (auto; reflexivity). change (34 =? 34) with true. cbn iota.
    rewrite (rawString_ok P _ _ _ HP Hk). cbn [obind].
    rewrite (nextNonSpace_ws _ _ H2), nextNonSpace_at by reflexivity. cbn [obind]. change (58 =? 58) with true. cbn iota.
    rewrite (parse_ws _ _ _ H3), IH; [|apply ends_blank; assumption|exact Hf]. cbn [obind].
    rewrite (nextNonSpace_ws _ _ H4), (nextNonSpace_at _ _ Ht'). cbn [obind]. reflexivity.
  Qed.

  Lemma parse_grammar :
    (forall v t, jtext P v t -> forall rest f, ends v t rest -> (2 * length t + 1 <= f)%nat ->
       parse f (t ++ rest) = Ok (norm v, rest)) /\
    (forall l t, jelems P l t -> forall rest acc f, (2 * length t + 2 <= f)%nat ->
       elems f (t ++ 93 :: rest) acc = Ok (JArr (acc ++ map norm l), rest)) /\
    (forall m t, jmembers P m t -> forall c s rest acc f, c :: s = t ++ 125 :: rest -> (2 * length t + 2 <= f)%nat ->
       members f c s acc = Ok (JObj (fold_left ins m acc), rest)).
  Proof.
    apply json_min.
    - intros rest [|f] _ Hf; [lia|]. reflexivity.
    - intros rest [|f] _ Hf; [lia|]. reflexivity.
    - intros rest [|f] _ Hf; [lia|]. reflexivity.
    - intros z t Hz Ht rest [|f] He Hf; [lia|]. destruct (int_numch _ _ Ht) as (c & r & E & Hc & Hr).
      pose proof (parseValue_int t z rest c r E Hz Ht He) as Q. subst t. cbn [app parse nextToken].
      assert (Sk : skipped c = false) by (apply numch_go; unfold numch; tauto). rewrite Sk. cbn [obind].
      unfold dig in Hc.
      replace (c =? 34) with false by lia. replace (c =? 123) with false by lia. replace (c =? 91) with false by lia.
      replace (c =? 116) with false by lia. replace (c =? 102) with false by lia. replace (c =? 110) with false by lia.
      exact Q.
    - intros t Ht rest [|f] He Hf; [lia|]. destruct (parseValue_float t rest Ht He) as (c & r & E & Hc & Q).
      subst t. cbn [app parse nextToken].
      assert (Sk : skipped c = false) by (apply numch_go; unfold numch; tauto). rewrite Sk. cbn [obind].
      unfold dig in Hc.
      replace (c =? 34) with false by lia. replace (c =? 123) with false by lia. replace (c =? 91) with false by lia.
      replace (c =? 116) with false by lia. replace (c =? 102) with false by lia. replace (c =? 110) with false by lia.
      exact Q.
    - intros s t Ht rest [|f] _ Hf; [lia|]. cbn [app parse nextToken]. change (skipped 34) with false. cbn [obind].
      change (34 =? 34) with true. cbn iota. rewrite <- app_assoc. cbn [app]. rewrite (rawString_ok P _ _ _ HP Ht). reflexivity.
    - intros w Hw rest [|f] _ Hf; [lia|]. cbn [app parse nextToken]. change (skipped 91) with false. cbn [obind].
      change (91 =? 34) with false. change (91 =? 123) with false. change (91 =? 91) with true. cbn iota.
      rewrite <- app_assoc, (peekNonSpace_ws _ _ Hw). cbn. reflexivity.
    - intros l t Ht IH rest [|f] _ Hf; [lia|]. cbn [app parse nextToken]. change (skipped 91) with false. cbn [obind].
      change (91 =? 34) with false. change (91 =? 123) with false. change (91 =? 91) with true. cbn iota.
      rewrite <- app_assoc. cbn [app]. cbn [length] in Hf. rewrite app_length in Hf. cbn [length] in Hf.
      specialize (IH rest [] f ltac:(lia)).
      destruct (jelems_head _ _ _ Ht) as (w & c & r & -> & Hw & Hc & Hn).
      rewrite <- app_assoc in IH |- *. cbn [app] in IH |- *. rewrite (elems_ws _ _ _ _ Hw) in IH.
      rewrite (peekNonSpace_ws _ _ Hw). cbn [peekNonSpace]. rewrite Hc. cbn [obind].
      rewrite (proj2 (N.eqb_neq _ _) Hn). exact IH.
    - intros w Hw rest [|f] _ Hf; [lia|]. cbn [app parse nextToken]. change (skipped 123) with false. cbn [obind].
      change (123 =? 34) with false. change (123 =? 123) with true. cbn iota.
      rewrite <- app_assoc, (nextNonSpace_ws _ _ Hw). cbn. reflexivity.
    - intros m t Ht IH rest [|f] _ Hf; [lia|]. cbn [app parse nextToken]. change (skipped 123) with false. cbn [obind].
      change (123 =? 34) with false. change (123 =? 123) with true. cbn iota.
      rewrite <- app_assoc. cbn [app]. cbn [length] in Hf. rewrite app_length in Hf. cbn [length] in Hf.
      destruct (jmembers_head _ _ _ Ht) as (w & r & E & Hw).
      rewrite E, <- app_assoc, (nextNonSpace_ws _ _ Hw). cbn [app]. rewrite nextNonSpace_at by reflexivity. cbn [obind].
      change (34 =? 125) with false. cbn iota.
      destruct (t ++ 125 :: rest) as [|c s] eqn:E2; [destruct t; discriminate|].
      specialize (IH c s rest [] f (eq_sym E2) ltac:(lia)). cbn [norm]. unfold ins in IH. rewrite <- IH. symmetry.
      apply (members_ws w 34 (r ++ 125 :: rest)); [exact Hw| |reflexivity].
      rewrite <- E2, E, <- app_assoc. reflexivity.
    - intros v t w1 w2 H1 _ IH H2 rest acc f Hf. rewrite !app_length in Hf. destruct f as [|f]; [lia|].
      rewrite <- !app_assoc, (elems_ws _ _ _ _ H1). cbn [elems]. rewrite IH; [|apply ends_blank; [exact H2|reflexivity]|lia].
      cbn [obind]. rewrite (nextNonSpace_ws _ _ H2), nextNonSpace_at by reflexivity. reflexivity.
    - intros v t w1 w2 l ts H1 _ IH H2 Hl IHl rest acc f Hf. rewrite !app_length in Hf. cbn [length] in Hf. destruct f as [|f]; [lia|].
      rewrite <- !app_assoc, (elems_ws _ _ _ _ H1). cbn [elems app]. rewrite IH; [|apply ends_blank; [exact H2|reflexivity]|lia].
      cbn [obind]. rewrite (nextNonSpace_ws _ _ H2), nextNonSpace_at by reflexivity. cbn [obind]. change (44 =? 44) with true. cbn iota.
      rewrite IHl by lia. rewrite <- app_assoc. reflexivity.
    - intros k tk v t w1 w2 w3 w4 H1 Hk H2 H3 _ IH H4 c s rest acc f E Hf.
      repeat (rewrite app_length in Hf || cbn [length] in Hf). destruct f as [|f]; [lia|].
      rewrite (member_one k tk v t w1 w2 w3 w4 rest 125 acc f c s H1 Hk H2 H3 H4 IH); [reflexivity|lia|reflexivity|reflexivity|].
      rewrite E. repeat (rewrite <- app_assoc || cbn [app]). reflexivity.
    - intros k tk v t w1 w2 w3 w4 m ts H1 Hk H2 H3 _ IH H4 Hm IHm c s rest acc f E Hf.
      repeat (rewrite app_length in Hf || cbn [length] in Hf). destruct f as [|f]; [lia|].
      rewrite (member_one k tk v t w1 w2 w3 w4 (ts ++ 125 :: rest) 44 acc f c s H1 Hk H2 H3 H4 IH); [|lia|reflexivity|reflexivity|].
      2: { rewrite E. repeat (rewrite <- app_assoc || cbn [app]). reflexivity. }
      change (44 =? 44) with true. cbn iota. cbn [fold_left].
      destruct (ts ++ 125 :: rest) as [|c' s'] eqn:E2; [destruct ts; discriminate|].
      apply IHm; [symmetry; exact E2|lia].
  Qed.
End Grammar.
