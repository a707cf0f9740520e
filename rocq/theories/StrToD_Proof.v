(** Scanning of a numeral by strtod. *)
From Coq Require Import SpecFloat ZifyBool.
From Verif Require Import Common StrToD_Spec StrToD_Model StrToDF_Proof.
Open Scope Z_scope.

(** numbers written by digits *)
Lemma num_app : forall a b, num (a ++ b) = num a * 10 ^ Z.of_nat (length b) + num b.
Proof.
  assert (G : forall b x, fold_left (fun a d => 10 * a + d) b x = x * 10 ^ Z.of_nat (length b) + num b).
  { unfold num. induction b as [|d b IH]; intros x; cbn [fold_left length]; [change (10 ^ Z.of_nat 0) with 1; lia|].
    rewrite IH, (IH (10 * 0 + d)). rewrite Nat2Z.inj_succ, Z.pow_succ_r by lia. ring. }
  intros a b. unfold num at 1. rewrite fold_left_app. apply G.
Qed.
Lemma num_cons : forall d l, num (d :: l) = d * 10 ^ Z.of_nat (length l) + num l.
Proof. intros d l. change (d :: l) with ([d] ++ l). rewrite num_app. reflexivity. Qed.
Lemma num_range : forall l, Forall is_dig l -> 0 <= num l < 10 ^ Z.of_nat (length l).
Proof.
  induction 1 as [|d l D _ IH]; [cbn; lia|]. rewrite num_cons. cbn [length]. rewrite Nat2Z.inj_succ, Z.pow_succ_r by lia. unfold is_dig in D. nia.
Qed.
Lemma num_le : forall l x, Forall is_dig l -> 0 <= x -> x <= fold_left (fun a d => 10 * a + d) l x.
Proof.
  induction l as [|d l IH]; intros x D X; cbn [fold_left]; [lia|]. inversion D as [|? ? D1 D2]. unfold is_dig in D1. specialize (IH (10 * x + d) D2 ltac:(lia)). lia.
Qed.
Lemma num_small : forall l, Forall is_dig l -> (length l <= 9)%nat -> 0 <= num l < 10 ^ 9.
Proof.
  intros l D L. pose proof (num_range l D). assert (10 ^ Z.of_nat (length l) <= 10 ^ 9) by (apply Z.pow_le_mono_r; lia). lia.
Qed.

Lemma skipSpace_spec : forall b r, Forall is_blank b -> isspace (chr r) = false -> skipSpace (b ++ r) = r.
Proof.
  induction 1 as [|c b B _ IH]; intros R; cbn [app skipSpace].
  - destruct r as [|c r]; [reflexivity|]. cbn in *. rewrite R. reflexivity.
  - replace (isspace c) with true; [apply IH; exact R|]. unfold isspace, is_blank in *. lia.
Qed.
Lemma readSign_spec : forall s r, chr r <> 45 -> chr r <> 43 -> readSign (sign_text s ++ r) = Ok (match s with Some true => true | _ => false end, r).
Proof.
  intros [[]|] r N P; [reflexivity|reflexivity|]. cbn [sign_text app]. unfold readSign. replace (chr r =? 45) with false by lia. replace (chr r =? 43) with false by lia. reflexivity.
Qed.

(** counting of the mantissa *)
Lemma count_digits : forall ds r n d, Forall is_dig ds -> countMant (map dig ds ++ r) n d = countMant r (n + Z.of_nat (length ds)) d.
Proof.
  induction ds as [|x ds IH]; intros r n d D; cbn [map app length]; [f_equal; lia|]. inversion D as [|? ? D1 D2]. cbn [countMant].
  replace (isdigit (dig x)) with true by (unfold isdigit, dig, is_dig in *; lia). rewrite IH by exact D2. f_equal. lia.
Qed.
Definition frac_text (f : option (list Z)) : list Z := match f with None => [] | Some f => 46 :: map dig f end.
Definition frac_list (f : option (list Z)) : list Z := match f with None => [] | Some f => f end.
Lemma count_mant : forall ints f r, Forall is_dig ints -> Forall is_dig (frac_list f) ->
  isdigit (chr r) = false -> (f = None -> chr r <> 46) ->
  countMant (map dig ints ++ frac_text f ++ r) 0 (-1) =
    match f with None => (Z.of_nat (length ints), -1, r) | Some f => (Z.of_nat (length ints) + Z.of_nat (length f) + 1, Z.of_nat (length ints), r) end.
Proof.
  intros ints f r I F ND NP. rewrite count_digits by exact I. rewrite Z.add_0_l. destruct f as [f|]; cbn [frac_text app frac_list] in *.
  - cbn [countMant]. change (isdigit 46) with false. cbn [Z.eqb Pos.eqb negb orb]. change (46 =? 46) with true. cbn [negb orb]. change (0 <=? -1) with false. cbv iota.
    rewrite count_digits by exact F. replace (Z.of_nat (length ints) + 1 + Z.of_nat (length f)) with (Z.of_nat (length ints) + Z.of_nat (length f) + 1) by lia. destruct r as [|c r]; cbn [countMant]; [reflexivity|]. cbn in ND. rewrite ND.
    replace (negb (c =? 46) || (0 <=? Z.of_nat (length ints))) with true by lia. reflexivity.
  - destruct r as [|c r]; cbn [countMant]; [reflexivity|]. cbn in ND. rewrite ND. specialize (NP eq_refl). cbn in NP. replace (negb (c =? 46) || (0 <=? -1)) with true by lia. reflexivity.
Qed.

(** collecting of digits; the point may stand at any place among them *)
Inductive spread : list Z -> bool -> list Z -> Prop :=
| sp_nil : forall b, spread [] b []
| sp_dig : forall d ds b l, spread ds b l -> spread (d :: ds) b (dig d :: l)
| sp_point : forall ds l, spread ds false l -> spread ds true (46 :: l).
Lemma spread_digits : forall ds b, spread ds b (map dig ds).
Proof. induction ds; intros b; cbn; constructor; auto. Qed.
Lemma spread_number : forall a f, spread (a ++ frac_list f) true (map dig a ++ frac_text f).
Proof.
  induction a as [|d a IH]; intros f; cbn [app map].
  - destruct f as [f|]; cbn; [constructor; apply spread_digits|constructor].
  - constructor. apply IH.
Qed.
Lemma collect_spread : forall n ds b l r x, spread ds b l -> (n <= length ds)%nat -> Forall is_dig ds -> 0 <= x ->
  fold_left (fun a d => 10 * a + d) (firstn n ds) x < 2 ^ 31 ->
  exists b' l', collect n (l ++ r) x = Ok (fold_left (fun a d => 10 * a + d) (firstn n ds) x, l' ++ r) /\ spread (skipn n ds) b' l'.
Proof.
  induction n as [|n IH]; intros ds b l r x S L D X LT.
  - exists b, l. split; [reflexivity|exact S].
  - destruct ds as [|d ds]; [cbn in L; lia|]. inversion D as [|? ? D1 D2]; subst. cbn [firstn fold_left skipn] in *.
    assert (B : 10 * x + d < 2 ^ 31).
    { assert (Forall is_dig (firstn n ds)) by (apply Forall_forall; intros y Y; rewrite Forall_forall in D2; apply D2; rewrite <- (firstn_skipn n ds); apply in_or_app; left; exact Y).
      pose proof (num_le (firstn n ds) (10 * x + d) H ltac:(unfold is_dig in D1; lia)). lia. }
    assert (CK : forall c, c = dig d -> ckint (10 * x + (c - 48)) = Ok (10 * x + d)).
    { intros c ->. unfold dig, ckint, is_dig in *. replace (10 * x + (48 + d - 48)) with (10 * x + d) by lia.
      replace ((- 2 ^ 31 <=? 10 * x + d) && (10 * x + d <? 2 ^ 31)) with true by lia. reflexivity. }
    inversion S as [|d' ds' b' l0 S0|ds' l0 S0]; subst.
    + cbn [app collect chr adv obind]. replace (dig d =? 46) with false by (unfold dig, is_dig in *; lia). cbn [obind]. rewrite CK by reflexivity. cbn [obind].
      apply (IH ds b l0); auto; cbn in L; unfold is_dig in D1; lia.
    + inversion S0 as [|d' ds' b' l1 S1|]; subst. cbn [app collect chr adv obind]. change (46 =? 46) with true. cbn [obind adv chr]. rewrite CK by reflexivity. cbn [obind].
      apply (IH ds false l1); auto; cbn in L; unfold is_dig in D1; lia.
Qed.
Lemma readExp_spec : forall ds r x, Forall is_dig ds -> 0 <= x -> fold_left (fun a d => 10 * a + d) ds x < 2 ^ 31 -> isdigit (chr r) = false ->
  readExp (map dig ds ++ r) x = Ok (fold_left (fun a d => 10 * a + d) ds x, r).
Proof.
  induction ds as [|d ds IH]; intros r x D X LT ND; cbn [map app fold_left] in *.
  - destruct r as [|c r]; [reflexivity|]. cbn in *. rewrite ND. reflexivity.
  - inversion D as [|? ? D1 D2]; subst. unfold is_dig in D1. cbn [readExp]. replace (isdigit (dig d)) with true by (unfold isdigit, dig; lia).
    pose proof (num_le ds (10 * x + d) D2 ltac:(lia)). unfold ckint, dig. replace (x * 10 + (48 + d - 48)) with (10 * x + d) by lia.
    replace ((- 2 ^ 31 <=? 10 * x + d) && (10 * x + d <? 2 ^ 31)) with true by lia. cbn [obind]. apply IH; auto; lia.
Qed.

(** the part of the exponent *)
Definition exp_text (e : option (bool * option bool * list Z)) : list Z :=
  match e with None => [] | Some (c, s, d) => (if c : bool then 69 else 101) :: sign_text s ++ map dig d end.
Lemma text_parts : forall n, text n = blanks n ++ sign_text (sgn n) ++ (map dig (ints n) ++ frac_text (fracs n)) ++ exp_text (expo n).
Proof. intros n. unfold text, frac_text, exp_text. rewrite <- !app_assoc. reflexivity. Qed.
Lemma chr_digit : forall d l, is_dig d -> isdigit (chr (dig d :: l)) = true /\ chr (dig d :: l) <> 45 /\ chr (dig d :: l) <> 43 /\ isspace (chr (dig d :: l)) = false.
Proof. intros d l D. unfold is_dig, isdigit, isspace, dig in *. cbn [chr]. lia. Qed.
Lemma head_mant : forall n r, wf n -> let p := map dig (ints n) ++ frac_text (fracs n) ++ r in chr p <> 45 /\ chr p <> 43 /\ isspace (chr p) = false.
Proof.
  intros n r (_ & D & NE & _). unfold digits in *. destruct (ints n) as [|d l]; cbn [map app] in *.
  - destruct (fracs n) as [f|]; [|contradiction NE; reflexivity]. cbn. repeat split; discriminate.
  - inversion D as [|? ? D1 D2]. cbn zeta. destruct (chr_digit _ (map dig l ++ frac_text (fracs n) ++ r) D1) as (_ & A & B & C). split; [exact A|]. split; assumption.
Qed.
Definition used (n : numeral) : list Z := firstn 18 (digits n).
Definition dropped (n : numeral) : Z := Z.of_nat (length (digits n) - length (used n)).
Lemma Forall_firstn_dig : forall (l : list Z) k, Forall is_dig l -> Forall is_dig (firstn k l) /\ Forall is_dig (skipn k l).
Proof. intros l k H. rewrite <- (firstn_skipn k l) in H. apply Forall_app in H. exact H. Qed.
Lemma scan_spec : forall n rest, wf n -> ends n rest -> Z.of_nat (length (digits n)) < 10 ^ 9 -> - 10 ^ 9 < exp_of n < 10 ^ 9 ->
  exists f1 f2, scan (text n ++ rest) = Ok (Some (negative n, f1, f2, tens n + dropped n, rest)) /\
    0 <= f1 < 10 ^ 9 /\ 0 <= f2 < 10 ^ 9 /\ f1 * 10 ^ 9 + f2 = num (used n).
Proof.
  intros n rest WF EN LD EX. pose proof WF as (WB & WD & NE & WE). unfold scan. rewrite text_parts. rewrite <- !app_assoc.
  destruct (head_mant n (exp_text (expo n) ++ rest) WF) as (H1 & H2 & H3). cbv zeta in *.
  set (p := map dig (ints n) ++ frac_text (fracs n) ++ exp_text (expo n) ++ rest) in *.
  assert (HS : isspace (chr (sign_text (sgn n) ++ p)) = false) by (destruct (sgn n) as [[]|]; [reflexivity|reflexivity|exact H3]).
  rewrite skipSpace_spec by assumption. rewrite readSign_spec by assumption. cbn [obind].
  assert (DI : Forall is_dig (ints n) /\ Forall is_dig (frac_list (fracs n))) by (apply Forall_app; exact WD). destruct DI as (DI & DF).
  assert (EH : isdigit (chr (exp_text (expo n) ++ rest)) = false /\ (fracs n = None -> chr (exp_text (expo n) ++ rest) <> 46)).
  { destruct (expo n) as [[[[] s] d]|] eqn:E; cbn [exp_text app chr].
    - split; [reflexivity|discriminate].
    - split; [reflexivity|discriminate].
    - unfold ends in EN. destruct rest as [|c r]; cbn [chr]; [split; [reflexivity|discriminate]|]. destruct EN as (A & B). specialize (B E). unfold isdigit. split; [lia|]. intros Q; apply (proj2 (proj2 B)); exact Q. }
  destruct EH as (EH1 & EH2). unfold p at 1. rewrite count_mant by assumption.
  set (L := length (digits n)) in *.
  assert (LEN : L = (length (ints n) + length (frac_list (fracs n)))%nat) by (unfold L, digits, frac_list; rewrite app_length; reflexivity).
  assert (LP : (0 < L)%nat) by (unfold L; destruct (digits n); [contradiction NE; reflexivity|cbn; lia]).
  assert (ST : (let '(mantSize, decPt, pExp) := match fracs n with None => (Z.of_nat (length (ints n)), -1, exp_text (expo n) ++ rest)
      | Some f => (Z.of_nat (length (ints n)) + Z.of_nat (length f) + 1, Z.of_nat (length (ints n)), exp_text (expo n) ++ rest) end in
      (if decPt <? 0 then (mantSize, mantSize) else (mantSize - 1, decPt), pExp)) = ((Z.of_nat L, Z.of_nat (length (ints n))), exp_text (expo n) ++ rest)).
  { rewrite LEN. destruct (fracs n) as [f|]; cbn [frac_list length].
    - replace (Z.of_nat (length (ints n)) <? 0) with false by lia. f_equal. f_equal. lia.
    - rewrite Nat.add_0_r. reflexivity. }
  destruct (match fracs n with None => _ | Some _ => _ end) as [[mantSize decPt] pExp]. destruct (if decPt <? 0 then _ else _) as [mantSize' decPt'].
  injection ST as -> -> ->.
  assert (S2 : (if 18 <? Z.of_nat L then (18, Z.of_nat (length (ints n)) - 18) else (Z.of_nat L, Z.of_nat (length (ints n)) - Z.of_nat L))
    = (Z.of_nat (Nat.min 18 L), Z.of_nat (length (ints n)) - Z.of_nat (Nat.min 18 L))).
  { destruct (Z.ltb_spec 18 (Z.of_nat L)); [rewrite Nat.min_l by lia|rewrite Nat.min_r by lia]; reflexivity. }
  rewrite S2. set (K := Nat.min 18 L) in *. assert (KB : (0 < K <= 18)%nat /\ (K <= L)%nat) by (unfold K; lia).
  replace (Z.of_nat K =? 0) with false by lia.
  replace (Z.to_nat (Z.of_nat K - 9)) with (K - 9)%nat by lia. replace (Z.to_nat (Z.min 9 (Z.of_nat K))) with (Nat.min 9 K) by lia.
  pose proof (spread_number (ints n) (fracs n)) as SP. change (ints n ++ frac_list (fracs n)) with (digits n) in SP.
  unfold p. rewrite (app_assoc (map dig (ints n))).
  destruct (Forall_firstn_dig (digits n) (K - 9) WD) as (F1 & F1').
  assert (N1 : 0 <= num (firstn (K - 9) (digits n)) < 10 ^ 9) by (apply num_small; [exact F1|rewrite firstn_length; lia]).
  destruct (collect_spread (K - 9) (digits n) true _ (exp_text (expo n) ++ rest) 0 SP ltac:(fold L; lia) WD ltac:(lia)) as (b' & l' & C1 & SP1).
  { change (fold_left (fun a d => 10 * a + d) (firstn (K - 9) (digits n)) 0) with (num (firstn (K - 9) (digits n))). lia. }
  rewrite C1. cbn [obind]. change (fold_left (fun a d => 10 * a + d) (firstn (K - 9) (digits n)) 0) with (num (firstn (K - 9) (digits n))).
  destruct (Forall_firstn_dig (skipn (K - 9) (digits n)) (Nat.min 9 K) F1') as (F2 & _).
  assert (N2 : 0 <= num (firstn (Nat.min 9 K) (skipn (K - 9) (digits n))) < 10 ^ 9) by (apply num_small; [exact F2|rewrite firstn_length; lia]).
  destruct (collect_spread (Nat.min 9 K) (skipn (K - 9) (digits n)) b' l' (exp_text (expo n) ++ rest) 0 SP1 ltac:(rewrite skipn_length; fold L; lia) F1' ltac:(lia)) as (b'' & l'' & C2 & _).
  { change (fold_left (fun a d => 10 * a + d) (firstn (Nat.min 9 K) (skipn (K - 9) (digits n))) 0) with (num (firstn (Nat.min 9 K) (skipn (K - 9) (digits n)))). lia. }
  rewrite C2. cbn [obind]. change (fold_left (fun a d => 10 * a + d) (firstn (Nat.min 9 K) (skipn (K - 9) (digits n))) 0) with (num (firstn (Nat.min 9 K) (skipn (K - 9) (digits n)))).
  set (f1 := num (firstn (K - 9) (digits n))) in *. set (f2 := num (firstn (Nat.min 9 K) (skipn (K - 9) (digits n)))) in *.
  assert (MU : f1 * 10 ^ 9 + f2 = num (used n)).
  { unfold used. assert (U : firstn 18 (digits n) = firstn (K - 9) (digits n) ++ firstn (Nat.min 9 K) (skipn (K - 9) (digits n))).
    { replace (firstn 18 (digits n)) with (firstn ((K - 9) + Nat.min 9 K) (digits n)).
      - rewrite <- (firstn_skipn (K - 9) (digits n)) at 1. rewrite firstn_app. rewrite firstn_length. fold L. replace (Nat.min (K - 9) L) with (K - 9)%nat by lia.
        rewrite firstn_firstn. replace (Nat.min (K - 9 + Nat.min 9 K) (K - 9)) with (K - 9)%nat by lia. do 2 f_equal. lia.
      - unfold K. destruct (Nat.le_gt_cases 18 L).
        + f_equal. lia.
        + rewrite !firstn_all2 by (fold L; lia). reflexivity. }
    rewrite U, num_app. fold f1 f2. f_equal. rewrite firstn_length, skipn_length. fold L. destruct (Nat.le_gt_cases K 9) as [Q|Q].
    - unfold f1. replace (K - 9)%nat with 0%nat by lia. reflexivity.
    - replace (Nat.min (Nat.min 9 K) (L - (K - 9))) with 9%nat by lia. reflexivity. }
  assert (DR : dropped n = Z.of_nat L - Z.of_nat K) by (unfold dropped, used; rewrite firstn_length; fold L; unfold K; lia).
  assert (TE : tens n + dropped n = exp_of n + (Z.of_nat (length (ints n)) - Z.of_nat K)).
  { rewrite DR. unfold tens. change (match fracs n with None => [] | Some f => f end) with (frac_list (fracs n)). lia. }
  exists f1, f2. split; [|split; [exact N1|split; [exact N2|exact MU]]].
  rewrite TE. assert (CKE : forall z, z = exp_of n + (Z.of_nat (length (ints n)) - Z.of_nat K) -> ckint z = Ok z).
  { intros z ->. unfold ckint. replace ((- 2 ^ 31 <=? _) && (_ <? 2 ^ 31)) with true by (change (2 ^ 31) with 2147483648; change (10 ^ 9) with 1000000000 in *; lia). reflexivity. }
  destruct (expo n) as [[[c s] d]|] eqn:E; cbn [exp_text].
  - destruct WE as (DN & DD).
    assert (HX : (chr (((if c then 69 else 101) :: sign_text s ++ map dig d) ++ rest) =? 69) || (chr (((if c then 69 else 101) :: sign_text s ++ map dig d) ++ rest) =? 101) = true) by (destruct c; reflexivity).
    rewrite HX. cbn [app adv obind]. rewrite <- app_assoc. 
    assert (HD : chr (map dig d ++ rest) <> 45 /\ chr (map dig d ++ rest) <> 43).
    { destruct d as [|d0 d]; [contradiction DN; reflexivity|]. inversion DD as [|? ? D1 _]. destruct (chr_digit d0 (map dig d ++ rest) D1) as (_ & A & B & _). split; [exact A|exact B]. }
    rewrite readSign_spec by apply HD. cbn [obind].
    assert (XD : 0 <= num d < 10 ^ 9).
    { pose proof (num_range d DD). unfold exp_of in EX. rewrite E in EX. destruct s as [[]|]; lia. }
    rewrite readExp_spec; [|exact DD|lia| |].
    + cbn [obind]. change (fold_left (fun a d => 10 * a + d) d 0) with (num d). unfold negative.
      rewrite CKE.
      * cbn [obind]. do 3 f_equal. unfold exp_of. rewrite E. destruct s as [[]|]; f_equal; lia.
      * unfold exp_of. rewrite E. destruct s as [[]|]; lia.
    + change (fold_left (fun a d => 10 * a + d) d 0) with (num d). change (2 ^ 31) with 2147483648. change (10 ^ 9) with 1000000000 in XD. lia.
    + unfold ends in EN. destruct rest as [|x r]; [reflexivity|]. destruct EN as (A & _). cbn [chr]. unfold isdigit. lia.
  - cbn [app]. unfold ends in EN.
    replace ((chr rest =? 69) || (chr rest =? 101)) with false.
    + cbn [obind]. unfold negative. rewrite CKE by (unfold exp_of; rewrite E; lia). cbn [obind]. do 3 f_equal. unfold exp_of. rewrite E. f_equal. lia.
    + destruct rest as [|x r]; [reflexivity|]. destruct EN as (_ & B). destruct (B E) as (B1 & B2 & _). cbn [chr]. lia.
Qed.

Lemma power_ok : forall fuel e d x, 0 <= e -> e < 2 ^ Z.of_nat fuel -> (fuel <= length d)%nat -> exists y, power fuel e d x = Ok y.
Proof.
  induction fuel as [|f IH]; intros e d x E LT LD.
  - change (2 ^ Z.of_nat 0) with 1 in LT. exists x. cbn [power]. replace (e =? 0) with true by lia. reflexivity.
  - cbn [power]. destruct (Z.eqb_spec e 0); [exists x; reflexivity|]. destruct d as [|y d]; [cbn in LD; lia|].
    assert (H : forall z, exists y', power f (e / 2) d z = Ok y').
    { intros z. apply IH; [apply Z.div_pos; lia| |cbn in LD; lia]. apply Z.div_lt_upper_bound; [lia|]. rewrite Nat2Z.inj_succ, Z.pow_succ_r in LT by lia. lia. }
    destruct (Z.odd e); cbn [obind tl]; apply H.
Qed.
Definition signed (neg : bool) (f : spec_float) : spec_float := if neg then SFopp f else f.
Definition fraction (f1 f2 : Z) : spec_float := SFadd prec emax (SFmul prec emax (dbl (10 ^ 9)) (dbl f1)) (dbl f2).
Lemma strtod_run : forall n rest, wf n -> ends n rest -> Z.of_nat (length (digits n)) < 10 ^ 9 -> - 10 ^ 9 < exp_of n < 10 ^ 9 ->
  let E := tens n + dropped n in
  exists f1 f2, 0 <= f1 < 10 ^ 9 /\ 0 <= f2 < 10 ^ 9 /\ f1 * 10 ^ 9 + f2 = num (used n) /\
  (511 < Z.abs E -> strtod (text n ++ rest) = Throw) /\
  (Z.abs E <= 511 -> exists g, power 9 (Z.abs E) powersOf10 (dbl 1) = Ok g /\
     strtod (text n ++ rest) = Ok (signed (negative n) (scaled (E <? 0) (fraction f1 f2) g), length (text n))).
Proof.
  intros n rest WF EN LD EX E. destruct (scan_spec n rest WF EN LD EX) as (f1 & f2 & S & F1 & F2 & M). exists f1, f2.
  split; [exact F1|]. split; [exact F2|]. split; [exact M|]. fold E in S.
  assert (EB : ckint (Z.abs E) = Ok (Z.abs E)).
  { unfold ckint, E, dropped, tens. change (match fracs n with None => [] | Some f => f end) with (frac_list (fracs n)).
    assert (length (digits n) = (length (ints n) + length (frac_list (fracs n)))%nat) by (unfold digits, frac_list; rewrite app_length; reflexivity).
    replace ((- 2 ^ 31 <=? _) && (_ <? 2 ^ 31)) with true; [reflexivity|]. change (2 ^ 31) with 2147483648. change (10 ^ 9) with 1000000000 in *. lia. }
  unfold strtod. rewrite S. cbn [obind]. rewrite EB. cbn [obind]. split; intros H.
  - replace (511 <? Z.abs E) with true by lia. reflexivity.
  - replace (511 <? Z.abs E) with false by lia. destruct (power_ok 9 (Z.abs E) powersOf10 (dbl 1) ltac:(lia) ltac:(change (2 ^ Z.of_nat 9) with 512; lia) ltac:(cbn; lia)) as (g & G).
    exists g. split; [exact G|]. rewrite G. cbn [obind]. rewrite app_length. replace (length (text n) + length rest - length rest)%nat with (length (text n)) by lia. reflexivity.
Qed.
Lemma fraction_rep : forall f1 f2, 0 <= f1 -> 0 <= f2 < 10 ^ 9 -> f1 * 10 ^ 9 + f2 < 2 ^ 53 -> rep (fraction f1 f2) (f1 * 10 ^ 9 + f2).
Proof.
  intros f1 f2 F1 F2 LT. unfold fraction. rewrite (Z.mul_comm f1). change (2 ^ 53) with 9007199254740992 in *. change (10 ^ 9) with 1000000000 in *.
  apply add_rep; [apply mul_rep; [apply dbl_rep|apply dbl_rep|]|apply dbl_rep|]; change (2 ^ 53) with 9007199254740992; lia.
Qed.
Lemma used_all : forall n, (length (digits n) <= 18)%nat -> used n = digits n /\ dropped n = 0.
Proof. intros n L. assert (U : used n = digits n) by (apply firstn_all2; exact L). split; [exact U|]. unfold dropped. rewrite U. lia. Qed.
Lemma is_int_signed : forall neg f v, is_int f v -> is_int (signed neg f) (if neg then - v else v).
Proof.
  intros [] f v H; [|exact H]. destruct f as [s|s| |s m e]; cbn [signed SFopp is_int] in *; try contradiction; [lia|]. destruct s; cbn [negb] in *; lia.
Qed.
Lemma nearest_signed : forall neg f m t, nearest f false m t -> nearest (signed neg f) neg m t.
Proof. intros [] f m t H; [|exact H]. destruct f as [s|s| |s a e]; cbn [signed SFopp nearest] in *; try contradiction. destruct H as (-> & H). split; [reflexivity|exact H]. Qed.

(** no number *)
Definition no_number (p : list Z) : Prop := match p with c :: d :: _ => ~ (48 <= c <= 57) /\ (c = 46 -> ~ (48 <= d <= 57)) | [c] => ~ (48 <= c <= 57) | [] => True end.
Lemma strtod_none : forall b s p, Forall is_blank b -> no_number p -> ~ is_blank (chr (sign_text s ++ p)) -> (s = None -> chr p <> 45 /\ chr p <> 43) ->
  strtod (b ++ sign_text s ++ p) = Ok (S754_zero (match s with Some true => true | _ => false end), 0%nat).
Proof.
  intros b s p B NN NB NS. unfold strtod, scan.
  assert (HS : isspace (chr (sign_text s ++ p)) = false) by (unfold is_blank, isspace in *; lia).
  rewrite skipSpace_spec by assumption.
  assert (R : readSign (sign_text s ++ p) = Ok (match s with Some true => true | _ => false end, p)).
  { destruct s as [[]|]; [reflexivity|reflexivity|]. apply (readSign_spec None); apply NS; reflexivity. }
  rewrite R. cbn [obind].
  assert (C : exists q, countMant p 0 (-1) = (0, -1, q) \/ countMant p 0 (-1) = (1, 0, q)).
  { destruct p as [|c p]; [exists []; left; reflexivity|]. cbn [countMant].
    assert (ND : isdigit c = false) by (unfold no_number in NN; destruct p; unfold isdigit; lia). rewrite ND.
    destruct (Z.eqb_spec c 46) as [->|N]; cbn [negb orb]; [|exists (c :: p); left; reflexivity]. change (0 <=? -1) with false. cbv iota.
    destruct p as [|d p]; [exists []; right; reflexivity|]. cbn [countMant]. assert (ND2 : isdigit d = false) by (unfold no_number in NN; unfold isdigit; lia). rewrite ND2.
    change (0 <=? 0) with true. rewrite Bool.orb_true_r. exists (d :: p). right. reflexivity. }
  destruct C as (q & [->| ->]); cbn [Z.ltb Z.compare obind]; destruct s as [[]|]; reflexivity.
Qed.
