(** Lemmas about the text formatter. *)
From Coq Require Import ZArith.
From Verif Require Import Common TextFormat_Spec TextFormat_Model.
Local Open Scope Z_scope.

(** ** Arguments *)
Inductive args_inv : list text -> list ParamItem -> list Z -> Prop :=
| inv_nil : args_inv [] [] []
| inv_direct ts ps b t : args_inv ts ps b -> args_inv (ts ++ [t]) (ps ++ [mkItem (Some t) (length t)]) b
| inv_null ts ps b : args_inv ts ps b -> args_inv (ts ++ [[]]) (ps ++ [mkItem None 0]) b
| inv_copied ts ps b t : args_inv ts ps b ->
    args_inv (ts ++ [t]) (ps ++ [mkItem None (length (b ++ t))]) (b ++ t).

Lemma args_length ts ps b : args_inv ts ps b -> length ts = length ps.
Proof. induction 1; auto; rewrite !app_length; cbn [length]; lia. Qed.

Lemma previous_app ps more p : (p <= length ps)%nat -> previousEnd (ps ++ more) p = previousEnd ps p.
Proof.
  induction p as [|q IH]; intros H; [reflexivity|]. cbn [previousEnd].
  rewrite nth_error_app1 by lia. destruct (nth_error ps q); [|reflexivity].
  destruct (negb _); [reflexivity|]. apply IH; lia.
Qed.

Lemma nth_error_last {A} (l : list A) x more : nth_error ((l ++ [x]) ++ more) (length l) = Some x.
Proof. rewrite <- app_assoc, nth_error_app2, Nat.sub_diag by lia. reflexivity. Qed.

Lemma previous_last ts ps b : args_inv ts ps b -> previousEnd ps (length ps) = length b.
Proof.
  induction 1; [reflexivity|..]; rewrite (app_length ps); cbn [length]; rewrite Nat.add_1_r; cbn [previousEnd];
    rewrite nth_error_app2, Nat.sub_diag by lia; cbn [nth_error isDirectRef ptr negb len].
  - rewrite previous_app by lia. exact IHargs_inv.
  - rewrite previous_app by lia. exact IHargs_inv.
  - destruct (Nat.eqb_spec (length (b ++ t)) 0) as [E|E]; cbn [negb]; [|reflexivity].
    rewrite previous_app by lia. rewrite IHargs_inv, E. rewrite app_length in E. lia.
Qed.

Definition fragAt (ps : list ParamItem) (b : list Z) (i : nat) : outcome (list Z) :=
  match nth_error ps i with
  | None => Undef
  | Some itm =>
      if isDirectRef itm then Ok (match ptr itm with Some t => t | None => [] end)
      else if Nat.eqb i 0 then Ok (head b (len itm))
      else
        let from := previousEnd ps i in
        if Nat.ltb (len itm) from then Ok (skipn from b)
        else Ok (mid b from (len itm - from))
  end.

Lemma mid_end (b t ext : list Z) : mid ((b ++ t) ++ ext) (length b) (length t) = t.
Proof.
  unfold mid. rewrite !app_length. destruct (Nat.leb_spec (length b + length t + length ext) (length b)) as [L|L].
  - destruct t; [reflexivity|cbn [length] in L; lia].
  - rewrite <- app_assoc, skipn_app, skipn_all, Nat.sub_diag. cbn [skipn app].
    rewrite firstn_app, firstn_all, Nat.sub_diag. cbn [firstn]. apply app_nil_r.
Qed.

Lemma fragAt_ok ts ps b : args_inv ts ps b ->
  forall more ext i, (i < length ts)%nat -> fragAt (ps ++ more) (b ++ ext) i = Ok (nth i ts []).
Proof.
  induction 1 as [|ts ps b t H IH|ts ps b H IH|ts ps b t H IH]; intros more ext i Hi;
    [cbn [length] in Hi; lia|..]; pose proof (args_length _ _ _ H) as L;
    rewrite app_length in Hi; cbn [length] in Hi;
    (destruct (Nat.eq_dec i (length ts)) as [->|D];
     [rewrite app_nth2, Nat.sub_diag by lia; cbn [nth]
     |rewrite app_nth1 by lia; rewrite <- app_assoc; try rewrite <- (app_assoc b); apply IH; lia]);
    rewrite L; unfold fragAt; rewrite nth_error_last; cbn [isDirectRef ptr len]; try reflexivity.
  destruct (Nat.eqb_spec (length (b ++ t)) 0) as [E|E].
  { destruct t; [reflexivity|rewrite app_length in E; cbn [length] in E; lia]. }
  destruct (Nat.eqb_spec (length ps) 0) as [E0|E0].
  { destruct ps; [|discriminate]. inversion H; subst; try (destruct ps; discriminate).
    cbn [app]. unfold head. rewrite firstn_app, Nat.sub_diag, firstn_all. cbn [firstn]. f_equal. apply app_nil_r. }
  cbv zeta. rewrite <- app_assoc, previous_app, (previous_last _ _ _ H) by lia.
  rewrite app_length. destruct (Nat.ltb_spec (length b + length t) (length b)) as [X|X]; [lia|].
  replace (length b + length t - length b)%nat with (length t) by lia.
  rewrite mid_end. reflexivity.
Qed.

(** the formatter holds the arguments [ts] *)
Definition holds (st : formatter) (ts : list text) : Prop := args_inv ts (paramList st) (buff st).

Lemma fragment_ok st ts idx : holds st ts -> 0 <= idx -> fragment st idx = Ok (argument ts idx).
Proof.
  intros H Hi. unfold fragment, argument. pose proof (args_length _ _ _ H) as L.
  destruct (Z.leb_spec 1 idx) as [A|A]; cbn [andb].
  2:{ destruct (Z.leb_spec idx 0); [reflexivity|lia]. }
  destruct (Z.leb_spec idx 0); [lia|].
  destruct (Z.leb_spec idx (Z.of_nat (length (paramList st)))) as [B|B].
  - change (fragAt (paramList st) (buff st) (Z.to_nat (idx - 1)) = Ok (nth (Z.to_nat (idx - 1)) ts [])).
    rewrite <- (app_nil_r (paramList st)), <- (app_nil_r (buff st)).
    apply (fragAt_ok _ _ _ H). lia.
  - rewrite nth_overflow by lia. reflexivity.
Qed.

(** ** Integers *)
Lemma hexChars_ok d : 0 <= d <= 61 -> exists c, nth_error hexChars (Z.to_nat d) = Some c /\ digit62 d c.
Proof.
  intros H.
  assert (Q : forall k, (k < 62)%nat -> exists c, nth_error hexChars k = Some c /\ digit62 (Z.of_nat k) c).
  { intros k Hk. unfold hexChars.
    destruct (Nat.lt_ge_cases k 10) as [A|A].
    { rewrite nth_error_app1 by (rewrite map_length, seq_length; lia).
      exists (48 + Z.of_nat k). split; [|left; lia].
      rewrite nth_error_map, (nth_error_nth' _ 0%nat), seq_nth by (rewrite ?seq_length; lia). reflexivity. }
    rewrite nth_error_app2 by (rewrite map_length, seq_length; lia). rewrite map_length, seq_length.
    destruct (Nat.lt_ge_cases k 36) as [B|B].
    { rewrite nth_error_app1 by (rewrite map_length, seq_length; lia).
      exists (65 + Z.of_nat (k - 10)). split; [|right; left; lia].
      rewrite nth_error_map, (nth_error_nth' _ 0%nat), seq_nth by (rewrite ?seq_length; lia). reflexivity. }
    rewrite nth_error_app2 by (rewrite map_length, seq_length; lia). rewrite map_length, seq_length.
    rewrite nth_error_app1 by (rewrite map_length, seq_length; lia).
    exists (97 + Z.of_nat (k - 10 - 26)). split; [|right; right; lia].
    rewrite nth_error_map, (nth_error_nth' _ 0%nat), seq_nth by (rewrite ?seq_length; lia). reflexivity. }
  destruct (Q (Z.to_nat d) ltac:(lia)) as (c & A & B). exists c. split; [exact A|].
  replace d with (Z.of_nat (Z.to_nat d)) by lia. exact B.
Qed.

Lemma digit62_fun d c c' : digit62 d c -> digit62 d c' -> c = c'.
Proof. unfold digit62. lia. Qed.

Lemma numeral62_pos b t v : numeral62 b t v -> 1 < b -> 0 <= v /\ t <> [].
Proof.
  induction 1 as [d c D L|s v d c N IH P D L]; intros B.
  - split; [unfold digit62 in D; lia|discriminate].
  - split; [specialize (IH B); unfold digit62 in D; nia|destruct s; discriminate].
Qed.

Lemma numeral62_fun b t v t' : 1 < b -> numeral62 b t v -> numeral62 b t' v -> t = t'.
Proof.
  intros B H. revert t'. induction H as [d c D L|s v d c N IH P D L]; intros t' H'.
  - inversion H' as [d' c' D' L' E1 E2|s' v' d' c' N' P' D' L' E1 E2]; subst.
    + f_equal. eapply digit62_fun; eauto.
    + exfalso. unfold digit62 in D, D'. nia.
  - inversion H' as [d' c' D' L' E1 E2|s' v' d' c' N' P' D' L' E1 E2]; subst.
    + exfalso. unfold digit62 in D, D'. nia.
    + assert (B1 : 0 <= d < b) by (unfold digit62 in D; lia).
      assert (B2 : 0 <= d' < b) by (unfold digit62 in D'; lia).
      assert (v' = v /\ d' = d) as [-> ->].
      { apply (Z.div_mod_unique b); [left; exact B2|left; exact B1|lia]. }
      rewrite (IH _ N'). f_equal. f_equal. eapply digit62_fun; eauto.
Qed.

Lemma formatUnsigned_ok base : 2 <= base <= 62 -> forall fuel room v,
  0 < v < 2 ^ Z.of_nat fuel -> (fuel <= room)%nat ->
  exists t, formatUnsigned fuel room v base = Ok t /\ numeral62 base t v /\ (length t <= fuel)%nat.
Proof.
  intros B. induction fuel as [|f IH]; intros room v V R; [cbn in V; lia|].
  cbn [formatUnsigned].
  destruct (Z.eqb_spec v 0) as [|_]; [lia|]. destruct (Z.eqb_spec base 0) as [|_]; [lia|].
  assert (M : 0 <= v mod base < base) by (apply Z.mod_pos_bound; lia).
  destruct (hexChars_ok (v mod base) ltac:(lia)) as (c & HC & HD).
  destruct (Z.eq_dec (v / base) 0) as [Q|Q].
  - rewrite Q.
    assert (E : formatUnsigned f room 0 base = Ok []) by (destruct f; reflexivity).
    rewrite E. cbn [obind length]. destruct (Nat.leb_spec room 0); [lia|].
    rewrite HC. exists [c]. split; [reflexivity|]. split; [|cbn; lia].
    pose proof (Z.div_mod v base ltac:(lia)) as DM. rewrite Q in DM.
    replace (v mod base) with v in * by lia. apply numeral62_one; [exact HD|lia].
  - assert (P : 0 < v / base < 2 ^ Z.of_nat f).
    { assert (0 <= v / base) by (apply Z.div_pos; lia). split; [lia|].
      apply Z.div_lt_upper_bound; [lia|].
      rewrite Nat2Z.inj_succ, Z.pow_succ_r in V by lia. nia. }
    destruct (IH room (v / base) P ltac:(lia)) as (t & E & N & L).
    rewrite E. cbn [obind]. destruct (Nat.leb_spec room (length t)); [lia|].
    rewrite HC. exists (t ++ [c]). split; [reflexivity|]. split; [|rewrite app_length; cbn [length]; lia].
    pose proof (Z.div_mod v base ltac:(lia)) as DM.
    replace v with (v / base * base + v mod base) by lia.
    replace ((v / base * base + v mod base)) with (v / base * base + v mod base) by lia.
    apply numeral62_more; [exact N|lia|exact HD|lia].
Qed.

(** what an argument shows, for the number base [b] *)
Definition arg_shows (b : Z) (a : arg) (t : text) : Prop :=
  match a with
  | ADirect (Some s) | ACopied s => t = s
  | ADirect None => t = []
  | AChar c => t = [c]
  | AInt v => - 2 ^ 31 < v < 2 ^ 31 /\ number_text b v t
  | ALong v => - 2 ^ 63 < v < 2 ^ 63 /\ number_text b v t
  | AUInt v => 0 <= v < 2 ^ 64 /\ number_text b v t
  end.

Lemma unsigned_ok base v t : 2 <= base <= 62 -> 0 <= v < 2 ^ 64 -> number_text base v t ->
  numberToStringUnsigned v 100 base = Ok t.
Proof.
  intros B V N. unfold number_text in N. destruct (Z.ltb_spec v 0) as [|_]; [lia|].
  unfold numberToStringUnsigned. destruct (Z.eqb_spec v 0) as [->|NZ].
  - f_equal. apply (numeral62_fun base _ 0); [lia| |exact N].
    apply numeral62_one; [left; lia|lia].
  - destruct (formatUnsigned_ok base B 64 100 v ltac:(change (Z.of_nat 64) with 64; lia) ltac:(lia)) as (s & E & M & L).
    rewrite E. cbn [obind]. destruct (Nat.leb_spec 100 (length s)); [lia|].
    f_equal. eapply numeral62_fun; eauto; lia.
Qed.

Lemma signed_ok w base v t : 2 <= base <= 62 -> 1 <= w <= 64 -> - 2 ^ (w - 1) < v < 2 ^ (w - 1) ->
  number_text base v t -> numberToStringSigned w v 100 base = Ok t.
Proof.
  intros B W V N. unfold number_text in N. unfold numberToStringSigned.
  assert (P : 2 ^ (w - 1) <= 2 ^ 63) by (apply Z.pow_le_mono_r; lia).
  assert (Q : 2 ^ 63 < 2 ^ 64) by reflexivity.
  destruct (Z.eqb_spec v 0) as [->|NZ].
  - f_equal. cbn [Z.ltb Z.compare] in N. apply (numeral62_fun base _ 0); [lia| |exact N].
    apply numeral62_one; [left; lia|lia].
  - destruct (Z.ltb_spec v 0) as [Neg|Pos].
    + destruct N as (s & -> & N). destruct (Z.eqb_spec v (- 2 ^ (w - 1))); [lia|].
      destruct (formatUnsigned_ok base B 64 (100 - 1) (- v) ltac:(change (Z.of_nat 64) with 64; lia) ltac:(lia)) as (s' & E & M & L).
      rewrite E. cbn [obind]. destruct (Nat.leb_spec (100 - 1) (length s')); [lia|].
      f_equal. f_equal. eapply numeral62_fun; eauto; lia.
    + destruct (formatUnsigned_ok base B 64 100 v ltac:(change (Z.of_nat 64) with 64; lia) ltac:(lia)) as (s & E & M & L).
      rewrite E. cbn [obind]. destruct (Nat.leb_spec 100 (length s)); [lia|].
      f_equal. eapply numeral62_fun; eauto; lia.
Qed.

(** every number has a text *)
Lemma number_text_exists base v : 2 <= base <= 62 -> - 2 ^ 64 < v < 2 ^ 64 -> exists t, number_text base v t.
Proof.
  intros B V. unfold number_text.
  assert (Q : forall u, 0 <= u < 2 ^ 64 -> exists t, numeral62 base t u).
  { intros u U. destruct (Z.eq_dec u 0) as [->|NZ].
    - exists [48]. apply numeral62_one; [left; lia|lia].
    - destruct (formatUnsigned_ok base B 64 100 u ltac:(change (Z.of_nat 64) with 64; lia) ltac:(lia)) as (s & E & M & L).
      exists s. exact M. }
  destruct (Z.ltb_spec v 0).
  - destruct (Q (- v) ltac:(lia)) as (s & S). exists (45 :: s). exists s. auto.
  - apply Q. lia.
Qed.

(** ** Adding arguments *)
Lemma addParam_ok st i : (length (paramList st) < param_max)%nat ->
  addParam st i = Ok (mkFormatter (pattern st) (buff st) (paramList st ++ [i]) (base st) (newline st)).
Proof. intros H. unfold addParam. destruct (Nat.leb_spec param_max (length (paramList st))); [lia|reflexivity]. Qed.

Definition same_settings (st st' : formatter) : Prop :=
  pattern st' = pattern st /\ base st' = base st /\ newline st' = newline st.

Lemma setArgChar_ok st ts t : holds st ts -> (length ts < 30)%nat ->
  exists st', setArgChar st t = Ok st' /\ holds st' (ts ++ [t]) /\ same_settings st st'.
Proof.
  intros H L. unfold setArgChar. pose proof (args_length _ _ _ H) as E.
  rewrite addParam_ok by (cbn [paramList]; unfold param_max; lia). cbn [pattern buff paramList base newline].
  eexists. split; [reflexivity|]. split; [|repeat split].
  unfold holds. cbn [paramList buff]. apply inv_copied. exact H.
Qed.

Lemma addArg_ok st ts a t : holds st ts -> (length ts < 30)%nat -> 2 <= base st <= 62 -> arg_shows (base st) a t ->
  exists st', addArg st a = Ok st' /\ holds st' (ts ++ [t]) /\ same_settings st st'.
Proof.
  intros H L B S. pose proof (args_length _ _ _ H) as E.
  destruct a as [[s|]|s|c|v|v|v]; cbn [arg_shows] in S; unfold addArg.
  - subst t. rewrite addParam_ok by (unfold param_max; lia). eexists. split; [reflexivity|].
    split; [|repeat split]. unfold holds. cbn [paramList buff]. apply inv_direct. exact H.
  - subst t. rewrite addParam_ok by (unfold param_max; lia). eexists. split; [reflexivity|].
    split; [|repeat split]. unfold holds. cbn [paramList buff]. apply inv_null. exact H.
  - subst t. apply setArgChar_ok; assumption.
  - subst t. apply setArgChar_ok; assumption.
  - destruct S as [V N]. rewrite (signed_ok 32 _ _ _ B ltac:(lia) V N). cbn [obind]. apply setArgChar_ok; assumption.
  - destruct S as [V N]. rewrite (signed_ok 64 _ _ _ B ltac:(lia) V N). cbn [obind]. apply setArgChar_ok; assumption.
  - destruct S as [V N]. rewrite (unsigned_ok _ _ _ B V N). cbn [obind]. apply setArgChar_ok; assumption.
Qed.

Lemma addArgs_ok l : forall st ts us, holds st ts -> (length ts + length l <= 30)%nat -> 2 <= base st <= 62 ->
  Forall2 (arg_shows (base st)) l us ->
  exists st', addArgs st l = Ok st' /\ holds st' (ts ++ us) /\ same_settings st st'.
Proof.
  induction l as [|a l IH]; intros st ts us H L B F; inversion F as [|? u ? us' S F']; subst; cbn [addArgs].
  - exists st. rewrite app_nil_r. repeat split; auto.
  - cbn [length] in L.
    destruct (addArg_ok st ts a u H ltac:(lia) B S) as (st1 & E & H1 & Q). rewrite E. cbn [obind].
    destruct Q as (Q1 & Q2 & Q3).
    destruct (IH st1 (ts ++ [u]) us' H1) as (st2 & E2 & H2 & R1 & R2 & R3).
    + rewrite app_length. cbn [length]. lia.
    + rewrite Q2. exact B.
    + rewrite Q2. exact F'.
    + exists st2. split; [exact E2|]. split; [rewrite <- app_assoc in H2; exact H2|].
      repeat split; congruence.
Qed.

(** ** Reading patterns *)
Lemma dec_mono ds : forall v, Forall is_digit ds -> 0 <= v ->
  v <= fold_left (fun v c => v * 10 + (c - 48)) ds v.
Proof.
  induction ds as [|c ds IH]; intros v F V; cbn [fold_left]; [lia|].
  apply Forall_cons_iff in F as [A F]. unfold is_digit in A.
  specialize (IH (v * 10 + (c - 48)) F ltac:(lia)). lia.
Qed.

Lemma digit_test c : is_digit c -> (48 <=? c) && (c <=? 57) = true.
Proof. unfold is_digit. lia. Qed.
Lemma no_digit_test c : ~ is_digit c -> (48 <=? c) && (c <=? 57) = false.
Proof. unfold is_digit. lia. Qed.

Definition no_digit_ahead (rest : list Z) : Prop := match rest with c :: _ => ~ is_digit c | [] => True end.

Lemma loop_step v c ds : 0 <= v -> is_digit c -> Forall is_digit ds ->
  fold_left (fun v c => v * 10 + (c - 48)) (c :: ds) v < 2 ^ 64 ->
  wrap64 (v * 10 + (c - 48)) = v * 10 + (c - 48).
Proof.
  intros V A F B. cbn [fold_left] in B. unfold is_digit in A.
  pose proof (dec_mono ds (v * 10 + (c - 48)) F ltac:(lia)).
  unfold wrap64. apply Z.mod_small. lia.
Qed.

Lemma indexLoop_ok ds : forall v rest, Forall is_digit ds -> 0 <= v ->
  fold_left (fun v c => v * 10 + (c - 48)) ds v < 2 ^ 64 -> no_digit_ahead rest ->
  indexLoop v (ds ++ rest) = (fold_left (fun v c => v * 10 + (c - 48)) ds v, rest).
Proof.
  induction ds as [|c ds IH]; intros v rest F V B N; cbn [app].
  - cbn [fold_left]. destruct rest as [|c r]; [reflexivity|]. cbn [indexLoop]. cbn [no_digit_ahead] in N.
    rewrite (no_digit_test _ N). reflexivity.
  - apply Forall_cons_iff in F as [A F]. cbn [indexLoop]. rewrite (digit_test _ A), (loop_step v c ds V A F B).
    cbn [fold_left] in *. unfold is_digit in A. apply IH; auto; lia.
Qed.

Lemma spaceLoop_ok ds : forall v rest, Forall is_digit ds -> 0 <= v ->
  fold_left (fun v c => v * 10 + (c - 48)) ds v < 2 ^ 64 -> no_digit_ahead rest ->
  spaceLoop v (ds ++ rest) = (fold_left (fun v c => v * 10 + (c - 48)) ds v, rest).
Proof.
  induction ds as [|c ds IH]; intros v rest F V B N; cbn [app].
  - cbn [fold_left]. destruct rest as [|c r]; [reflexivity|]. cbn [spaceLoop]. cbn [no_digit_ahead] in N.
    rewrite (no_digit_test _ N). reflexivity.
  - apply Forall_cons_iff in F as [A F]. cbn [spaceLoop]. rewrite (digit_test _ A), (loop_step v c ds V A F B).
    cbn [fold_left] in *. unfold is_digit in A. apply IH; auto; lia.
Qed.

Definition sign_info (s : option bool) : FormatInfo :=
  match s with
  | Some true => mkInfo 8 None true true false
  | Some false => mkInfo 8 None true false false
  | None => defaultInfo
  end.

(** the settings a field stands for *)
Definition field_info (f : field) : FormatInfo :=
  mkInfo (decimal (f_width f))
         (match f_after f, f_fill f with Some c, _ => Some c | None, Some c => Some c | None, None => None end)
         (is_some (f_sign f) || is_some (f_fill f))
         (match f_sign f with Some true => true | _ => false end)
         (is_some (f_sign f) && is_some (f_fill f)).

Lemma decimal_pos ds : Forall is_digit ds -> 0 <= decimal ds.
Proof. intros F. unfold decimal. apply (dec_mono ds 0 F). lia. Qed.

Lemma parseEnd_ok nfo sp after rest : match after with Some c => ~ is_digit c /\ c <> 125 | None => True end ->
  parseEnd nfo sp (opt after ++ 125 :: rest) =
  Ok (true, mkInfo sp (match after with Some c => Some c | None => fillchar nfo end)
                   (alignRight nfo) (forceSign nfo) (signBeforeFill nfo), rest).
Proof.
  intros H. destruct after as [c|]; cbn [opt app parseEnd].
  - destruct H as [_ H]. destruct (Z.eqb_spec c 125); [contradiction|]. reflexivity.
  - reflexivity.
Qed.

Lemma parseFill_ok f rest : field_ok f ->
  parseFill (sign_info (f_sign f)) (opt (f_fill f) ++ f_width f ++ opt (f_after f) ++ 125 :: rest)
  = Ok (true, field_info f, rest).
Proof.
  intros (FD & FW & FF & FA). unfold parseFill.
  assert (ND : no_digit_ahead (opt (f_after f) ++ 125 :: rest)).
  { destruct (f_after f) as [c|]; cbn [opt app no_digit_ahead]; [tauto|unfold is_digit; lia]. }
  unfold field_info. unfold decimal in *.
  destruct (f_fill f) as [c|] eqn:EF; cbn [opt app].
  - destruct FF as [FF _]. cbn [peek obind skip].
    assert (T : (c <? 49) || (57 <? c) = true) by lia. rewrite T.
    rewrite (spaceLoop_ok _ 0 _ FD ltac:(lia) FW ND).
    assert (NE : exists z r, f_width f ++ opt (f_after f) ++ 125 :: rest = z :: r).
    { destruct (f_width f); [|cbn [app]; eauto]. destruct (f_after f); cbn [opt app]; eauto. }
    destruct NE as (z & r & NE). rewrite NE. rewrite (parseEnd_ok _ _ _ _ FA).
    cbn [fillchar alignRight forceSign signBeforeFill].
    destruct (f_sign f) as [[|]|], (f_after f); reflexivity.
  - destruct (f_width f) as [|z ds] eqn:EW; [contradiction|].
    cbn [app peek obind].
    assert (T : (z <? 49) || (57 <? z) = false) by lia. rewrite T.
    change (z :: ds ++ opt (f_after f) ++ 125 :: rest) with ((z :: ds) ++ opt (f_after f) ++ 125 :: rest).
    rewrite (spaceLoop_ok _ 0 _ FD ltac:(lia) FW ND), (parseEnd_ok _ _ _ _ FA).
    cbn [fillchar alignRight forceSign signBeforeFill].
    destruct (f_sign f) as [[|]|], (f_after f); reflexivity.
Qed.

Lemma parseFormatInfo_ok f rest : field_ok f ->
  parseFormatInfo (write_field f ++ rest) = Ok (true, field_info f, rest).
Proof.
  intros H. unfold write_field. cbn [app]. unfold parseFormatInfo. cbn [peek obind skip].
  cbn [Z.eqb Pos.eqb negb].
  pose proof (parseFill_ok f rest H) as P.
  assert (NE : exists z r, opt (f_fill f) ++ f_width f ++ opt (f_after f) ++ 125 :: rest = z :: r).
  { destruct (f_fill f); cbn [opt app]; eauto. destruct (f_width f); [|cbn [app]; eauto].
    destruct (f_after f); cbn [opt app]; eauto. }
  destruct NE as (z & r & NE).
  assert (EQ : forall pre, (pre ++ opt (f_fill f) ++ f_width f ++ opt (f_after f) ++ [125]) ++ rest
                           = pre ++ opt (f_fill f) ++ f_width f ++ opt (f_after f) ++ 125 :: rest).
  { intros pre. rewrite <- !app_assoc. reflexivity. }
  rewrite EQ.
  destruct (f_sign f) as [[|]|] eqn:ES; cbn [app].
  - cbn [Z.eqb Pos.eqb]. cbn [sign_info] in P. rewrite NE in *. exact P.
  - cbn [Z.eqb Pos.eqb]. cbn [sign_info] in P. rewrite NE in *. exact P.
  - cbn [sign_info] in P. rewrite NE in *.
    destruct H as (FD & _ & FF & _).
    assert (Z1 : z <> 43 /\ z <> 45).
    { destruct (f_fill f) as [c|] eqn:EF; cbn [opt app] in NE.
      - injection NE as -> _. destruct FF as [_ FF]. apply FF. exact ES.
      - destruct (f_width f) as [|d ds]; [contradiction|]. cbn [app] in NE. injection NE as -> _. lia. }
    destruct (Z.eqb_spec z 43); [lia|]. destruct (Z.eqb_spec z 45); [lia|]. exact P.
Qed.

Lemma formatted_ok f t : Forall is_digit (f_width f) -> formatted (field_info f) t = show_field f t.
Proof.
  intros FD. pose proof (decimal_pos _ FD) as DP.
  unfold formatted, show_field, field_info. cbn [space fillchar alignRight forceSign signBeforeFill].
  set (W := decimal (f_width f)) in *.
  assert (FC : forall A (x y : A), True) by auto.
  assert (EC : match match f_after f, f_fill f with Some c, _ => Some c | None, Some c => Some c | None, None => None end with
               | Some c => c | None => 32 end
               = match f_after f, f_fill f with Some c, _ => c | None, Some c => c | None, None => 32 end)
    by (destruct (f_after f), (f_fill f); reflexivity).
  rewrite EC. set (ch := match f_after f, f_fill f with Some c, _ => c | None, Some c => c | None, None => 32 end).
  clearbody ch. clear EC FC.
  set (forced := match f_sign f with Some true => true | _ => false end).
  assert (FS : forced = true -> is_some (f_sign f) = true) by (unfold forced; destruct (f_sign f) as [[|]|]; [reflexivity|discriminate..]).
  clearbody forced. set (sg := is_some (f_sign f)) in *. set (fi := is_some (f_fill f)). clearbody sg fi.
  set (n := Z.of_nat (length t)).
  set (rn := if W <? n then 0 else W - n).
  assert (RN : Z.to_nat rn = (Z.to_nat W - length t)%nat) by (unfold rn, n; destruct (Z.ltb_spec W (Z.of_nat (length t))); lia).
  assert (RP : 0 <= rn) by (unfold rn, n; destruct (Z.ltb_spec W (Z.of_nat (length t))); lia).
  clearbody rn. clear n.
  destruct t as [|c r].
  - cbn [split_sign length] in *. destruct forced; cbn [orb andb negb].
    + rewrite FS by reflexivity. cbn [orb andb negb length].
      assert (E : Z.to_nat (if 0 <? rn then rn - 1 else rn) = (Z.to_nat W - 1)%nat) by (destruct (Z.ltb_spec 0 rn); lia).
      rewrite ?andb_true_r.
      replace (Z.to_nat (if 0 <? rn then rn - 1 else rn)) with (Z.to_nat W - (1 + 0))%nat by lia.
      destruct fi; cbn [negb app andb orb]; rewrite ?app_nil_r; reflexivity.
    + replace (Z.to_nat rn) with (Z.to_nat W - (0 + 0))%nat by lia.
      destruct sg, fi; cbn [negb app andb orb]; rewrite ?app_nil_r; reflexivity.
  - cbn [split_sign].
    destruct (Z.eqb_spec c 45) as [->|N45]; cbn [orb andb].
    + rewrite orb_true_r. cbn [andb negb orb]. rewrite andb_false_r. cbn [length] in *.
      replace (Z.to_nat rn) with (Z.to_nat W - (1 + length r))%nat by lia.
      cbn [skipn].
      destruct sg, fi; cbn [negb app andb orb]; rewrite ?app_nil_r; reflexivity.
    + rewrite orb_false_r. destruct forced; cbn [andb negb orb].
      * rewrite FS by reflexivity. cbn [andb negb orb].
        destruct (Z.eqb_spec c 43) as [->|N43]; cbn [negb].
        -- rewrite andb_false_r. cbn [length skipn] in *.
           replace (Z.to_nat rn) with (Z.to_nat W - (1 + length r))%nat by lia.
           destruct fi; cbn [negb app andb orb]; rewrite ?app_nil_r; reflexivity.
        -- rewrite ?andb_true_r. cbn [length] in *.
           replace (Z.to_nat (if 0 <? rn then rn - 1 else rn)) with (Z.to_nat W - (1 + S (length r)))%nat
             by (destruct (Z.ltb_spec 0 rn); lia).
           destruct fi; cbn [negb app andb orb]; rewrite ?app_nil_r; reflexivity.
      * cbn [length] in *.
        replace (Z.to_nat rn) with (Z.to_nat W - (0 + S (length r)))%nat by lia.
        destruct sg, fi; cbn [negb app andb orb]; rewrite ?app_nil_r; reflexivity.
Qed.

(** ** The output *)
Lemma closed_index st ts fmt nfo idx closed rest : holds st ts -> number_ok idx ->
  (closed = false -> ends_number rest) ->
  (let '(i, s2) := indexLoop 0 (idx ++ close closed ++ rest) in
   let s3 := match s2 with c :: r => if c =? 37 then r else s2 | [] => s2 end in
   let! fr := fragment st i in Ok (if fmt : bool then formatted nfo fr else fr, s3))
  = Ok (if fmt then formatted nfo (argument ts (decimal idx)) else argument ts (decimal idx), rest).
Proof.
  intros H (NE & FD & B) C.
  assert (ND : no_digit_ahead (close closed ++ rest)).
  { destruct closed; cbn [close app no_digit_ahead]; [unfold is_digit; lia|].
    specialize (C eq_refl). destruct rest; cbn in *; tauto. }
  rewrite (indexLoop_ok idx 0 _ FD ltac:(lia) B ND). fold (decimal idx). cbv zeta.
  rewrite (fragment_ok st ts _ H (decimal_pos _ FD)). cbn [obind].
  replace (match close closed ++ rest with c :: r => if c =? 37 then r else close closed ++ rest | [] => close closed ++ rest end) with rest.
  { reflexivity. }
  destruct closed; cbn [close app]; [reflexivity|].
  specialize (C eq_refl). destruct rest as [|c r]; [reflexivity|]. cbn in C.
  destruct (Z.eqb_spec c 37); [tauto|reflexivity].
Qed.

Lemma digits_head idx : number_ok idx -> exists c r, idx = c :: r /\ is_digit c.
Proof.
  intros (NE & FD & _). destruct idx as [|c r]; [contradiction|].
  apply Forall_cons_iff in FD as [A _]. eauto.
Qed.

Lemma outputLoop_ok st ts nl : holds st ts -> newline st = nl -> forall ps fuel,
  pieces_ok ps -> (length (write ps) <= fuel)%nat ->
  outputLoop fuel st (write ps) = Ok (show nl ts ps).
Proof.
  intros H NL. induction ps as [|p ps IH]; intros fuel W F; cbn [write].
  { destruct fuel; reflexivity. }
  cbn [write] in F. rewrite app_length in F. cbn [pieces_ok] in W. destruct W as [WP W].
  unfold show in *. cbn [map concat].
  destruct p as [c| | | | | |idx closed|f idx closed]; cbn [write_piece piece_ok show_piece length app] in *;
    (destruct fuel as [|fuel]; [lia|]); cbn [outputLoop].
  - destruct WP as [A B]. destruct (Z.eqb_spec c 10); [contradiction|]. destruct (Z.eqb_spec c 37); [contradiction|].
    cbn [negb]. rewrite IH by (auto; lia). reflexivity.
  - cbn [Z.eqb Pos.eqb]. rewrite IH by (auto; lia). cbn [obind]. rewrite NL. reflexivity.
  - cbn [Z.eqb Pos.eqb negb orb]. rewrite IH by (auto; lia). reflexivity.
  - cbn [Z.eqb Pos.eqb negb orb]. rewrite IH by (auto; lia). reflexivity.
  - cbn [Z.eqb Pos.eqb negb orb]. rewrite WP in *.
    destruct ps as [|q ps]; [destruct fuel; reflexivity|].
    exfalso. cbn [write] in WP. destruct q; cbn [write_piece app] in WP; discriminate.
  - cbn [Z.eqb Pos.eqb negb]. destruct (write ps) as [|c r] eqn:EW; [contradiction|].
    destruct WP as (A & B & C & D).
    destruct (Z.eqb_spec c 37); [contradiction|]. destruct (Z.eqb_spec c 10); [contradiction|]. cbn [orb].
    unfold parameter. cbn [peek obind]. destruct (Z.eqb_spec c 123); [contradiction|]. cbn [obind].
    cbn [indexLoop]. rewrite (no_digit_test _ A).
    destruct (Z.eqb_spec c 37); [contradiction|].
    cbn [fragment Z.leb Z.compare andb obind]. rewrite IH by (auto; lia). reflexivity.
  - destruct WP as [N C]. destruct (digits_head idx N) as (d & r & -> & D).
    cbn [app]. cbn [Z.eqb Pos.eqb negb]. unfold is_digit in D.
    destruct (Z.eqb_spec d 37); [lia|]. destruct (Z.eqb_spec d 10); [lia|]. cbn [orb].
    unfold parameter. cbn [peek obind]. destruct (Z.eqb_spec d 123); [lia|]. cbn [obind].
    rewrite <- app_assoc.
    pose proof (closed_index st ts false defaultInfo (d :: r) closed (write ps) H N C) as Q.
    cbn [app] in Q. rewrite Q. cbn [obind].
    rewrite IH by (auto; cbn [length] in F; rewrite app_length in F; lia). reflexivity.
  - destruct WP as (FO & N & C). cbn [Z.eqb Pos.eqb negb].
    assert (EF : forall l, write_field f ++ l = 123 :: tl (write_field f) ++ l) by (intros; reflexivity).
    rewrite <- app_assoc, EF. cbn [Z.eqb Pos.eqb orb]. rewrite <- EF. rewrite <- app_assoc.
    unfold parameter. rewrite EF at 1. cbn [peek obind Z.eqb Pos.eqb].
    rewrite (parseFormatInfo_ok f _ FO). cbn [obind].
    pose proof (closed_index st ts true (field_info f) idx closed (write ps) H N C) as Q.
    cbv zeta iota in Q. rewrite Q. cbn [obind]. rewrite formatted_ok by apply FO.
    rewrite IH by (auto; rewrite !app_length in F; lia). reflexivity.
Qed.

Lemma output_ok st ts ps : holds st ts -> pieces_ok ps -> ps <> [] -> pattern st = write ps ->
  output st = Ok (show (newline st) ts ps, resetArgs st).
Proof.
  intros H W NE P. unfold output. rewrite P.
  pose proof (outputLoop_ok st ts (newline st) H eq_refl ps (length (write ps)) W ltac:(lia)) as Q.
  destruct (write ps) as [|c r] eqn:E.
  - exfalso. destruct ps as [|p ps]; [contradiction|]. cbn [write] in E. destruct p; discriminate.
  - rewrite Q. reflexivity.
Qed.

Lemma message_ok st l us ps : 2 <= base st <= 62 -> (length l <= 30)%nat ->
  Forall2 (arg_shows (base st)) l us -> pieces_ok ps -> ps <> [] ->
  exists st', message st (write ps) l = Ok (show (newline st) us ps, st') /\
    base st' = base st /\ newline st' = newline st /\ holds st' [].
Proof.
  intros B L F W NE. unfold message.
  destruct (addArgs_ok l (setPattern st (write ps)) [] us) as (st1 & E & H & P & Q & R).
  - apply inv_nil.
  - cbn [length]. lia.
  - exact B.
  - exact F.
  - rewrite E. cbn [obind]. cbn [app] in H.
    rewrite (output_ok st1 us ps H W NE P). rewrite R. cbn [setPattern resetArgs newline].
    eexists. split; [reflexivity|]. cbn [resetArgs base newline]. rewrite Q, R.
    split; [reflexivity|]. split; [reflexivity|]. apply inv_nil.
Qed.

(** ** Any pattern at all *)
Lemma spaceLoop_len s : forall v, (length (snd (spaceLoop v s)) <= length s)%nat.
Proof.
  induction s as [|c s IH]; intros v; cbn [spaceLoop]; [cbn; lia|].
  destruct (_ && _); [|cbn; lia]. etransitivity; [apply IH|cbn; lia].
Qed.
Lemma indexLoop_len s : forall v, (length (snd (indexLoop v s)) <= length s)%nat.
Proof.
  induction s as [|c s IH]; intros v; cbn [indexLoop]; [cbn; lia|].
  destruct (_ && _); [|cbn; lia]. etransitivity; [apply IH|cbn; lia].
Qed.
Lemma indexLoop_pos s : forall v, 0 <= v -> 0 <= fst (indexLoop v s).
Proof.
  induction s as [|c s IH]; intros v V; cbn [indexLoop]; [exact V|].
  destruct (_ && _) eqn:E; [|exact V]. apply IH. unfold wrap64. apply Z.mod_pos_bound. lia.
Qed.

Lemma parseEnd_total nfo sp s : exists b i r, parseEnd nfo sp s = Ok (b, i, r) /\ (length r <= length s)%nat.
Proof.
  destruct s as [|z r]; cbn [parseEnd]; [eexists _, _, _; split; [reflexivity|cbn; lia]|].
  destruct (negb _).
  - destruct r as [|z1 r1]; [eexists _, _, _; split; [reflexivity|cbn; lia]|].
    destruct (negb _); eexists _, _, _; (split; [reflexivity|cbn; lia]).
  - eexists _, _, _; split; [reflexivity|cbn; lia].
Qed.

Lemma parseFill_total nfo s : s <> [] -> exists b i r, parseFill nfo s = Ok (b, i, r) /\ (length r <= length s)%nat.
Proof.
  intros NE. destruct s as [|z r]; [contradiction|]. unfold parseFill. cbn [peek obind skip].
  destruct (_ || _).
  - destruct r as [|z1 r1]; [eexists _, _, _; split; [reflexivity|cbn; lia]|].
    pose proof (spaceLoop_len (z1 :: r1) 0) as L. destruct (spaceLoop 0 (z1 :: r1)) as [sp r2]. cbn [snd] in L.
    destruct (parseEnd_total (mkInfo (space nfo) (Some z) true (forceSign nfo) (alignRight nfo)) sp r2) as (b & i & r3 & E & L3).
    exists b, i, r3. split; [exact E|cbn [length] in *; lia].
  - pose proof (spaceLoop_len (z :: r) 0) as L. destruct (spaceLoop 0 (z :: r)) as [sp r2]. cbn [snd] in L.
    destruct (parseEnd_total (mkInfo (space nfo) None (alignRight nfo) (forceSign nfo) false) sp r2) as (b & i & r3 & E & L3).
    exists b, i, r3. split; [exact E|lia].
Qed.

Lemma parseFormatInfo_total s : s <> [] -> exists b i r, parseFormatInfo s = Ok (b, i, r) /\ (length r <= length s)%nat.
Proof.
  intros NE. destruct s as [|x s]; [contradiction|]. unfold parseFormatInfo. cbn [peek obind skip].
  destruct (negb _); [eexists _, _, _; split; [reflexivity|cbn; lia]|].
  destruct s as [|z s2]; [eexists _, _, _; split; [reflexivity|cbn; lia]|].
  assert (T : forall nfo s', (length s' <= length (z :: s2))%nat -> s' <> [] ->
     exists b i r, parseFill nfo s' = Ok (b, i, r) /\ (length r <= length (x :: z :: s2))%nat).
  { intros nfo s' L N. destruct (parseFill_total nfo s' N) as (b & i & r & E & L'). exists b, i, r.
    split; [exact E|cbn [length] in *; lia]. }
  destruct (z =? 43).
  { destruct s2; [eexists _, _, _; split; [reflexivity|cbn; lia]|]. apply T; [cbn; lia|discriminate]. }
  destruct (z =? 45).
  { destruct s2; [eexists _, _, _; split; [reflexivity|cbn; lia]|]. apply T; [cbn; lia|discriminate]. }
  apply T; [lia|discriminate].
Qed.

Lemma parameter_total st ts s : holds st ts -> s <> [] ->
  exists t r, parameter st s = Ok (t, r) /\ (length r <= length s)%nat.
Proof.
  intros H NE. destruct s as [|y s]; [contradiction|]. unfold parameter. cbn [peek obind].
  assert (T : exists b i r, (if y =? 123 then parseFormatInfo (y :: s) else Ok (false, defaultInfo, y :: s)) = Ok (b, i, r)
               /\ (length r <= length (y :: s))%nat).
  { destruct (y =? 123); [apply parseFormatInfo_total; discriminate|].
    eexists _, _, _; split; [reflexivity|lia]. }
  destruct T as (b & i & r & E & L). rewrite E. cbn [obind].
  pose proof (indexLoop_len r 0) as L2. pose proof (indexLoop_pos r 0 ltac:(lia)) as P.
  destruct (indexLoop 0 r) as [idx s2]. cbn [fst snd] in *.
  rewrite (fragment_ok st ts idx H P). cbn [obind].
  eexists _, _. split; [reflexivity|].
  destruct s2 as [|c r2]; [lia|]. destruct (c =? 37); cbn [length] in *; lia.
Qed.

Lemma outputLoop_total st ts : holds st ts -> forall fuel s, (length s <= fuel)%nat ->
  exists o, outputLoop fuel st s = Ok o.
Proof.
  intros H. induction fuel as [|fuel IH]; intros s L.
  { destruct s; [exists []; reflexivity|cbn in L; lia]. }
  destruct s as [|x r]; [exists []; reflexivity|]. cbn [outputLoop]. cbn [length] in L.
  destruct (x =? 10). { destruct (IH r ltac:(lia)) as (o & E). rewrite E. eexists; reflexivity. }
  destruct (negb _). { destruct (IH r ltac:(lia)) as (o & E). rewrite E. eexists; reflexivity. }
  destruct r as [|y r1]. { destruct (IH [] ltac:(cbn; lia)) as (o & E). rewrite E. eexists; reflexivity. }
  destruct (_ || _). { destruct (IH r1 ltac:(cbn in L; lia)) as (o & E). rewrite E. eexists; reflexivity. }
  destruct (parameter_total st ts (y :: r1) H ltac:(discriminate)) as (t & r2 & E & L2).
  rewrite E. cbn [obind]. destruct (IH r2 ltac:(lia)) as (o & E2). rewrite E2. eexists; reflexivity.
Qed.

Lemma message_total st p l us : 2 <= base st <= 62 -> (length l <= 30)%nat ->
  Forall2 (arg_shows (base st)) l us -> exists o st', message st p l = Ok (o, st') /\
    base st' = base st /\ newline st' = newline st.
Proof.
  intros B L F. unfold message.
  destruct (addArgs_ok l (setPattern st p) [] us) as (st1 & E & H & P & Q & R).
  - apply inv_nil.
  - cbn [length]. lia.
  - exact B.
  - exact F.
  - rewrite E. cbn [obind]. unfold output. cbn [app] in H.
    destruct (outputLoop_total st1 us H (length (pattern st1)) (pattern st1) ltac:(lia)) as (o & EO).
    destruct (pattern st1) as [|c r]; [eexists _, _; split; [reflexivity|split; assumption]|].
    rewrite EO. eexists _, _; split; [reflexivity|split; assumption].
Qed.
