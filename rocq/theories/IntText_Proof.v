(** Proofs about integer formatting and parsing. *)
From Coq Require Import ZArith Lia.
From Verif Require Import Common Rational_Model Rational_Proof IntText_Model IntText_Spec.
Local Open Scope Z_scope.
Ltac Zify.zify_post_hook ::= Z.div_mod_to_equations.

Lemma digitChar_digit up x : 0 <= x <= 35 -> digit (digitChar up x) x.
Proof.
  intros H. unfold digitChar. destruct (Z.ltb_spec 9 x).
  - destruct up; [replace (65 + x - 10) with (65 + (x - 10)) by lia; apply digit_upper; lia
                 |replace (97 + x - 10) with (97 + (x - 10)) by lia; apply digit_lower; lia].
  - apply digit_num. lia.
Qed.
Lemma digitVal_digit c d : digit c d -> digitVal c = Some d.
Proof.
  intros H. unfold digitVal. destruct H as [d H|d H|d H];
  repeat match goal with |- context [if ?b then _ else _] => let E := fresh in destruct b eqn:E end; f_equal; lia.
Qed.
Lemma digit_digitVal c d : digitVal c = Some d -> digit c d.
Proof.
  unfold digitVal.
  repeat match goal with |- context [if ?b then _ else _] => let E := fresh in destruct b eqn:E end;
    intros [= <-].
  - replace c with (48 + (c - 48)) at 1 by lia. constructor 1. lia.
  - replace c with (65 + ((c - 65 + 10) - 10)) at 1 by lia. constructor 2. lia.
  - replace c with (97 + ((c - 97 + 10) - 10)) at 1 by lia. constructor 3. lia.
Qed.
Lemma digit_nonneg c d : digit c d -> 0 <= d.
Proof. destruct 1; lia. Qed.
Lemma digit_zero c : digit c 0 -> c = 48.
Proof. inversion 1; lia. Qed.

Section Base.
  Variable b : Z.
  Hypothesis Hb : 2 <= b <= 36.

  Lemma numeral_nonneg s v : numeral b s v -> 0 <= v.
  Proof. induction 1 as [c d D H|s v c d N IH D H]; pose proof (digit_nonneg _ _ D); nia. Qed.
  Lemma numeral_nonempty s v : numeral b s v -> s <> [].
  Proof. destruct 1; [discriminate|]. destruct s; discriminate. Qed.

  (** ** formatting *)
  Lemma extract_ok up f : forall v, 0 <= v < b * 2 ^ Z.of_nat f -> exists s, extract f v b up = Ok s /\ numeral b s v
    /\ (0 < v -> exists c t, s = c :: t /\ c <> 48 /\ c <> 43 /\ c <> 45).
  Proof.
    induction f as [|f IH]; intros v Hv; cbn [extract]; destruct (Z.leb_spec b v) as [L|L]; try (cbn in Hv; lia).
    1,3: exists [digitChar up (v mod b)]; rewrite Z.mod_small by lia;
      (split; [reflexivity|]; split; [constructor; [apply digitChar_digit; lia|lia]|];
       intros P; exists (digitChar up v), []; split; [reflexivity|]; unfold digitChar;
       destruct (Z.ltb_spec 9 v); [destruct up|]; lia).
    rewrite Nat2Z.inj_succ, Z.pow_succ_r in Hv by lia.
    destruct (IH (v / b)) as (s & E & N & P).
    { split; [apply Z.div_pos; lia|]. apply Z.div_lt_upper_bound; nia. }
    rewrite E. cbn [obind]. exists (s ++ [digitChar up (v mod b)]). split; [reflexivity|].
    pose proof (Z.mod_pos_bound v b ltac:(lia)). split.
    - rewrite (Z.div_mod v b) at 2 by lia. rewrite (Z.mul_comm b). constructor; auto; [apply digitChar_digit; lia|lia].
    - intros _. assert (0 < v / b) by (apply Z.div_str_pos; lia).
      destruct (P ltac:(lia)) as (c & t & -> & H1 & H2). exists c, (t ++ [digitChar up (v mod b)]). auto.
  Qed.

  Lemma extract_64 up v : 0 <= v < 2 ^ 64 -> exists s, extract 64 v b up = Ok s /\ numeral b s v
    /\ (0 < v -> exists c t, s = c :: t /\ c <> 48 /\ c <> 43 /\ c <> 45).
  Proof. intros H. apply extract_ok. change (Z.of_nat 64) with 64. nia. Qed.

  Lemma numeral_zero : numeral b [48] 0.
  Proof. apply (numeral_one b 48 0); [apply (digit_num 0); lia|lia]. Qed.

  Lemma formatU_ok up v : 0 <= v < 2 ^ 64 -> exists s, formatU v b up = Ok s /\ numeral b s v /\ no_leading_zero s.
  Proof.
    intros H. unfold formatU. destruct (Z.eqb_spec v 0) as [->|N].
    - exists [48]. split; [reflexivity|]. split; [apply numeral_zero|exact I].
    - destruct (extract_64 up v H) as (s & E & Nu & P). exists s. split; [exact E|]. split; [exact Nu|].
      destruct (P ltac:(lia)) as (c & t & -> & Hc & _). cbn [no_leading_zero].
      destruct t; auto.
  Qed.

  (** ** parsing *)
  Section Wrap.
    Variable wrap : Z -> Z.
    Hypothesis wrap_wrap : forall x a, wrap (wrap x * b + a) = wrap (x * b + a).
    Hypothesis wrap_0 : wrap 0 = 0.

    Lemma parseLoop_digits : forall s v n ok rest, numeral b s v ->
      parseLoop wrap b (wrap n) ok (s ++ rest) = parseLoop wrap b (wrap (n * b ^ Z.of_nat (length s) + v)) true rest.
    Proof.
      intros s v n ok rest N. revert n ok rest. induction N as [c d D H|s v c d N IH D H]; intros n ok rest.
      - cbn [app parseLoop length]. rewrite (digitVal_digit _ _ D). destruct (Z.leb_spec b d); [lia|].
        rewrite wrap_wrap. change (Z.of_nat 1) with 1. rewrite Z.pow_1_r. reflexivity.
      - rewrite <- app_assoc. rewrite IH. cbn [app parseLoop]. rewrite (digitVal_digit _ _ D).
        destruct (Z.leb_spec b d); [lia|]. rewrite wrap_wrap.
        rewrite app_length. cbn [length]. rewrite Nat2Z.inj_add, Z.pow_add_r by lia. change (Z.of_nat 1) with 1.
        replace ((n * b ^ Z.of_nat (length s) + v) * b + d) with (n * (b ^ Z.of_nat (length s) * b ^ 1) + (v * b + d)) by ring.
        reflexivity.
    Qed.

    Lemma parseLoop_stop n rest : no_digit b rest -> parseLoop wrap b n true rest = (true, n, rest).
    Proof.
      destruct rest as [|c t]; [reflexivity|]. cbn [no_digit parseLoop]. intros H.
      destruct (digitVal c) as [a|] eqn:E; [|reflexivity].
      pose proof (H a (digit_digitVal _ _ E)). destruct (Z.leb_spec b a); [reflexivity|lia].
    Qed.

    Lemma parseU_ok s v rest : numeral b s v -> no_digit b rest -> parseU wrap b (s ++ rest) = (true, wrap v, rest).
    Proof.
      intros N R. unfold parseU. rewrite <- wrap_0 at 1. rewrite parseLoop_digits with (v := v) by exact N.
      rewrite Z.mul_0_l, Z.add_0_l. apply parseLoop_stop. exact R.
    Qed.
  End Wrap.

  Lemma u64_wrap x a : u64 (u64 x * b + a) = u64 (x * b + a).
  Proof.
    unfold u64. rewrite Zplus_mod, Zmult_mod, Zmod_mod, <- Zmult_mod, <- Zplus_mod. reflexivity.
  Qed.
  Lemma s64_u64r x : u64 (s64 x) = u64 x.
  Proof. unfold s64, u64. change (2 ^ 64) with 18446744073709551616. change (2 ^ 63) with 9223372036854775808. lia. Qed.
  Lemma s64_wrap x a : s64 (s64 x * b + a) = s64 (x * b + a).
  Proof.
    rewrite <- (s64_u64 (s64 x * b + a)), <- (s64_u64 (x * b + a)). f_equal.
    rewrite <- u64_wrap, s64_u64r, u64_wrap. reflexivity.
  Qed.
  Lemma s64_0 : s64 0 = 0. Proof. reflexivity. Qed.
  Lemma u64_0 : u64 0 = 0. Proof. reflexivity. Qed.

  Lemma parseU_u64 s v rest : numeral b s v -> no_digit b rest -> parseU u64 b (s ++ rest) = (true, u64 v, rest).
  Proof. apply parseU_ok; [apply u64_wrap|reflexivity]. Qed.
  Lemma parseU_s64 s v rest : numeral b s v -> no_digit b rest -> parseU s64 b (s ++ rest) = (true, s64 v, rest).
  Proof. apply parseU_ok; [apply s64_wrap|reflexivity]. Qed.

  Lemma formatS_parse up v rest : - 2 ^ 63 < v < 2 ^ 63 -> no_digit b rest ->
    exists s, formatS v b up = Ok s /\ parseS b (s ++ rest) = Ok (true, v, rest)
      /\ exists s', numeral b s' (Z.abs v) /\ s = (if v <? 0 then 45 :: s' else s').
  Proof.
    intros H R. unfold formatS. destruct (Z.eqb_spec v 0) as [->|N].
    - exists [48]. split; [reflexivity|]. split.
      + cbn [app parseS]. change (48 =? 43) with false. change (48 =? 45) with false. cbn iota.
        change (48 :: rest) with ([48] ++ rest). rewrite (parseU_s64 [48] 0 rest numeral_zero R). reflexivity.
      + exists [48]. split; [apply numeral_zero|reflexivity].
    - destruct (Z.ltb_spec v 0) as [L|L].
      + rewrite signed_ok by lia. cbn [obind]. destruct (extract_64 up (- v) ltac:(lia)) as (s & E & Nu & P).
        rewrite E. cbn [obind]. exists (45 :: s). split; [reflexivity|]. split.
        * cbn [app parseS]. change (45 =? 43) with false. change (45 =? 45) with true. cbn iota.
          rewrite (parseU_s64 s (- v) rest Nu R). rewrite s64_small by lia. rewrite signed_ok by lia. cbn [obind].
          rewrite Z.opp_involutive. reflexivity.
        * exists s. rewrite Z.abs_neq by lia. auto.
      + destruct (extract_64 up v ltac:(lia)) as (s & E & Nu & P). exists s. split; [exact E|]. split.
        * destruct (P ltac:(lia)) as (c & t & -> & _ & N1 & N2). cbn [app parseS].
          destruct (Z.eqb_spec c 43); [congruence|]. destruct (Z.eqb_spec c 45); [congruence|].
          change (c :: t ++ rest) with ((c :: t) ++ rest). rewrite (parseU_s64 _ v rest Nu R). rewrite s64_small by lia. reflexivity.
        * exists s. rewrite Z.abs_eq by lia. auto.
  Qed.
End Base.
