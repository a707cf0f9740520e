(** Lemmas about the binary JSON form. *)
From Verif Require Import Common Utf_Model Utf_Proof Json_Spec Json_Model JsonNorm_Proof BinJson_Spec BinJson_Model.
Local Open Scope N_scope.

(** ** Numbers *)
Lemma bytesOf_S k v : bytesOf (S k) v = v mod 256 :: bytesOf k (v / 256).
Proof.
  unfold bytesOf. cbn [seq map]. change (8 * N.of_nat 0) with 0. rewrite N.shiftr_0_r. f_equal.
  rewrite <- seq_shift, map_map. apply map_ext. intros i.
  replace (8 * N.of_nat (S i)) with (8 + 8 * N.of_nat i) by lia.
  rewrite <- N.shiftr_shiftr. change (v / 256) with (v / 2 ^ 8). rewrite <- N.shiftr_div_pow2. reflexivity.
Qed.

Lemma readBytes_ok k : forall v rest, v < 256 ^ N.of_nat k -> readBytes k (bytesOf k v ++ rest) = Ok (v, rest).
Proof.
  induction k as [|k IH]; intros v rest H.
  - change (256 ^ N.of_nat 0) with 1 in H. replace v with 0 by lia. reflexivity.
  - rewrite bytesOf_S. cbn [app readBytes getByte obind].
    rewrite IH. 2:{ rewrite Nat2N.inj_succ, N.pow_succ_r' in H. apply N.div_lt_upper_bound; lia. }
    cbn [obind]. rewrite N.shiftl_mul_pow2. change (2 ^ 8) with 256. f_equal. f_equal.
    pose proof (N.div_mod v 256 ltac:(lia)). lia.
Qed.

Lemma bytesOf_length k v : length (bytesOf k v) = k.
Proof. unfold bytesOf. rewrite map_length, seq_length. reflexivity. Qed.

(** the number is written with a code of at most 3 more than [op] *)
Lemma writeNumber_ok op v rest : v < 2 ^ 64 ->
  exists i bs, writeNumber op v = op + i :: bs /\ i <= 3 /\ readNumber i (bs ++ rest) = Ok (v, rest) /\ (1 <= length bs)%nat.
Proof.
  intros H. unfold writeNumber.
  destruct (N.leb_spec v 255).
  { exists 0, (bytesOf 1 v). rewrite N.add_0_r, bytesOf_length. repeat split; try lia.
    unfold readNumber. cbn [N.eqb]. apply readBytes_ok. change (256 ^ N.of_nat 1) with 256. lia. }
  destruct (N.leb_spec v 0xFFFF).
  { exists 1, (bytesOf 2 v). rewrite bytesOf_length. repeat split; try lia.
    unfold readNumber. cbn [N.eqb Pos.eqb]. apply readBytes_ok. change (256 ^ N.of_nat 2) with 65536. lia. }
  destruct (N.leb_spec v 0xFFFFFFFF).
  { exists 2, (bytesOf 4 v). rewrite bytesOf_length. repeat split; try lia.
    unfold readNumber. cbn [N.eqb Pos.eqb]. apply readBytes_ok. change (256 ^ N.of_nat 4) with 4294967296. lia. }
  exists 3, (bytesOf 8 v). rewrite bytesOf_length. repeat split; try lia.
  unfold readNumber. cbn [N.eqb Pos.eqb]. apply readBytes_ok. change (256 ^ N.of_nat 8) with (2 ^ 64). lia.
Qed.

(** ** Codes *)
Lemma readCode_small c rest : c < 128 -> readCode wdec_init (c :: rest) = Ok (c, rest).
Proof.
  intros H. cbn [readCode]. unfold wdec_write, wdec_init. cbn [wd_st].
  cbn [N.eqb Pos.eqb]. destruct (N.ltb_spec c 0x80); [|lia]. reflexivity.
Qed.

Lemma readCode_enum i : (i < 2000)%nat ->
  exists bs, utf8_encode [40 + N.of_nat i] = Ok bs /\ (1 <= length bs)%nat /\ hd 0 bs <> 5 /\
    forall rest, readCode wdec_init (bs ++ rest) = Ok (40 + N.of_nat i, rest).
Proof.
  intros H. set (c := 40 + N.of_nat i). assert (C : 40 <= c < 0x7ff) by (unfold c; lia). clearbody c.
  destruct (utf_encode_lem [c]) as [E _]. rewrite E. cbn [flat_map]. rewrite app_nil_r.
  exists (utf_out c). split; [reflexivity|]. unfold utf_out, lead_of.
  destruct (N.ltb_spec c 128) as [L|L].
  - cbn [parts_of]. split; [cbn; lia|]. split; [cbn [hd]; lia|]. intros rest. apply readCode_small; lia.
  - destruct (N.ltb_spec c 0x7ff); [|lia]. cbn [parts_of app length hd]. split; [lia|]. split; [lia|]. intros rest.
    assert (D : c / 64 < 32) by (apply N.div_lt_upper_bound; lia).
    assert (D2 : 2 <= c / 64) by (apply N.div_le_lower_bound; lia).
    assert (M : c mod 64 < 64) by (apply N.mod_lt; lia).
    assert (DM : c = 64 * (c / 64) + c mod 64) by (apply N.div_mod; lia).
    set (q := c / 64) in *. set (m := c mod 64) in *.
    cbn [readCode]. unfold wdec_write at 1, wdec_init. cbn [wd_st N.eqb Pos.eqb].
    destruct (N.ltb_spec (192 + q) 0x80); [lia|].
    destruct (N.leb_spec 0x80 (192 + q)); [|lia]. destruct (N.ltb_spec (192 + q) 0xc0); [lia|]. cbn [andb].
    destruct (N.leb_spec 0xC0 (192 + q)); [|lia]. destruct (N.ltb_spec (192 + q) 0xE0); [|lia]. cbn [andb obind].
    assert (L1 : N.land (192 + q) 0x1F = q).
    { change 0x1F with (N.ones 5). rewrite N.land_ones. change (2 ^ 5) with 32.
      replace (192 + q) with (q + 6 * 32) by lia. rewrite N.mod_add by lia. apply N.mod_small; lia. }
    rewrite L1. cbn [wdec_update wd_has N.ltb N.compare negb].
    unfold wdec_write. cbn [wdec_update wd_st wd_out N.ltb N.compare N.eqb Pos.eqb].
    destruct (N.leb_spec 0x80 (128 + m)); [|lia]. destruct (N.ltb_spec (128 + m) 0xc0); [|lia]. cbn [andb].
    unfold shl6. destruct (N.ltb_spec (q * 64) (2 ^ 31)) as [_|X]; [|change (2 ^ 31) with 2147483648 in X; lia].
    cbn [obind].
    assert (L2 : N.land (128 + m) 0x3F = m).
    { change 0x3F with (N.ones 6). rewrite N.land_ones. change (2 ^ 6) with 64.
      replace (128 + m) with (m + 2 * 64) by lia. rewrite N.mod_add by lia. apply N.mod_small; lia. }
    rewrite L2. replace (q * 64) with (N.shiftl q 6) by (rewrite N.shiftl_mul_pow2; reflexivity).
    rewrite lor_add by (change (2 ^ 6) with 64; lia). change (2 ^ 6) with 64.
    change (1 - 1) with 0. cbn [wdec_update wd_has N.ltb N.compare negb wdec_next wd_out obind].
    f_equal. f_equal. lia.
Qed.

(** ** Strings *)
Lemma position_ok tab s i : position tab s = Some i -> nth_error tab i = Some s /\ (i < length tab)%nat.
Proof.
  revert i. induction tab as [|t tab IH]; intros i H; [discriminate|]. cbn [position] in H.
  destruct (list_eq_dec N.eq_dec t s) as [->|_].
  - injection H as <-. split; [reflexivity|cbn; lia].
  - destruct (position tab s) as [j|]; [|discriminate]. injection H as <-.
    destruct (IH j eq_refl) as [A B]. split; [exact A|cbn; lia].
Qed.

Lemma position_in tab s : In s tab -> exists i, position tab s = Some i.
Proof.
  induction tab as [|t tab IH]; intros H; [contradiction|]. cbn [position].
  destruct (list_eq_dec N.eq_dec t s) as [->|NE]; [eauto|].
  destruct H as [->|H]; [contradiction|]. destruct (IH H) as (i & E). rewrite E. eauto.
Qed.

Lemma position_not tab s : ~ In s tab -> position tab s = None.
Proof.
  induction tab as [|t tab IH]; intros H; [reflexivity|]. cbn [position].
  destruct (list_eq_dec N.eq_dec t s) as [->|NE]; [destruct H; left; reflexivity|].
  rewrite IH; [reflexivity|]. intros X. apply H. right. exact X.
Qed.

(** parsing depends on the code alone *)
Definition parsesTo (tab : list (list N)) (bs : list N) (v : json) : Prop :=
  forall fuel st rest, (length bs < fuel)%nat -> parse fuel tab st (bs ++ rest) = Ok (Some v, st, rest).

Lemma parse_code tab c v : c < 40 -> (forall f st r, 
    (let ok v r := Ok (Some v, st, r) in
     (if c =? 3 then
        let! (l, st1, r1) := parseArray f tab st r in Ok (Some (JArr l), st1, r1)
      else if c =? 21 then ok (JStr []) r
      else if c =? 5 then Ok (None, st, r)
      else if c =? 1 then ok (JBool false) r
      else if (c =? 22) || (c =? 23) then Undef
      else if (16 <=? c) && (c <=? 19) then let! (v, r1) := parseNumber (c - 16) true r in ok v r1
      else if c =? 0 then ok JNull r
      else if c =? 4 then
        let! (m, st1, r1) := parseObject f tab st [] r in Ok (Some (JObj m), st1, r1)
      else if (28 <=? c) && (c <=? 30) then
        let! (n, r1) := readNumber (c - 28) r in
        match nth_error st (N.to_nat n) with Some v => Ok (v, st, r1) | None => Undef end
      else if c =? 7 then
        match st with v :: st1 => Ok (v, st1, r) | [] => Undef end
      else if (12 <=? c) && (c <=? 15) then let! (v, r1) := parseNumber (c - 12) false r in ok v r1
      else if c =? 6 then
        let! (v, st1, r1) := parse f tab st r in parse f tab (v :: st1) r1
      else if c =? 31 then
        let! (n, r1) := readNumber 0 r in parse f tab (skipn (N.to_nat n) st) r1
      else if (8 <=? c) && (c <=? 11) then let! (v, r1) := parseString c r in ok v r1
      else if c =? 2 then ok (JBool true) r
      else if c =? 20 then ok (JInt 0) r
      else if c <? 40 then Throw
      else match nth_error tab (N.to_nat (c - 40)) with
           | Some s => ok (JStr s) r
           | None => ok (JStr (unknownString (c - 40))) r
           end)) = Ok (Some v, st, r)) ->
  parsesTo tab [c] v.
Proof.
  intros C H fuel st rest L. cbn [length] in L. destruct fuel as [|f]; [lia|]. cbn [app parse].
  rewrite readCode_small by lia. cbn [obind]. apply H.
Qed.

Lemma parse_neg tab z : (- 2 ^ 63 < z < 0)%Z -> exists bs, serializeInteger z = Ok bs /\ bs <> [] /\ hd 0 bs <> 5 /\ parsesTo tab bs (JInt z).
Proof.
  intros H. unfold serializeInteger. destruct (Z.ltb_spec z 0); [|lia].
  destruct (Z.eqb_spec z (- 2 ^ 63)); [lia|].
  eexists. split; [reflexivity|].
  assert (V : Z.to_N (- z) < 2 ^ 64) by (change (2 ^ 64) with 18446744073709551616; lia).
  destruct (writeNumber_ok 16 (Z.to_N (- z)) [] V) as (i & bs & E & I & _ & _).
  split; [rewrite E; discriminate|]. split; [rewrite E; cbn [hd]; lia|].
  intros fuel st rest L. destruct (writeNumber_ok 16 (Z.to_N (- z)) rest V) as (i' & bs' & E' & I' & R & _).
  rewrite E'. cbn [app]. destruct fuel as [|f]; [lia|]. cbn [parse]. rewrite readCode_small by lia. cbn [obind].
  assert (C : i' = 0 \/ i' = 1 \/ i' = 2 \/ i' = 3) by lia.
  assert (TI : toInteger (Z.to_N (- z)) = (- z)%Z).
  { unfold toInteger. rewrite Z2N.id by lia. rewrite Z.mod_small by lia. destruct (Z.ltb_spec (- z) (2 ^ 63)); lia. }
  assert (P : parseNumber i' true (bs' ++ rest) = Ok (JInt z, rest)).
  { unfold parseNumber. rewrite R. cbn [obind]. rewrite TI. destruct (Z.eqb_spec (- z) (- 2 ^ 63)); [lia|].
    rewrite Z.opp_involutive. reflexivity. }
  destruct C as [->|[->|[->| ->]]]; cbn in P |- *; rewrite P; reflexivity.
Qed.

Lemma parse_enum tab i s : (i < 2000)%nat -> nth_error tab i = Some s ->
  exists bs, utf8_encode [40 + N.of_nat i] = Ok bs /\ bs <> [] /\ hd 0 bs <> 5 /\ parsesTo tab bs (JStr s).
Proof.
  intros H N. destruct (readCode_enum i H) as (bs & E & L & HD & R). exists bs.
  split; [exact E|]. split; [destruct bs; [cbn in L; lia|discriminate]|]. split; [exact HD|].
  intros fuel st rest F. destruct fuel as [|f]; [lia|]. cbn [parse]. rewrite R. cbn [obind].
  replace (40 + N.of_nat i - 40) with (N.of_nat i) by lia. rewrite Nat2N.id, N.
  repeat match goal with |- context [(?a =? ?b)] => destruct (N.eqb_spec a b); [lia|] end.
  repeat match goal with |- context [(?a <=? ?b)] => destruct (N.leb_spec a b); try lia end.
  destruct (N.ltb_spec (40 + N.of_nat i) 40); [lia|]. reflexivity.
Qed.

(** a name, read by the loop of objects *)
Definition nameReads (tab : list (list N)) (bs k : list N) : Prop :=
  forall f st m rest, parseObject (S f) tab st m (bs ++ rest) =
    let! (v, st1, r3) := parse f tab st rest in parseObject f tab st1 (addField k v m) r3.

Lemma writeString_name tab k : name_ok k -> (length tab <= 2000)%nat ->
  exists bs, writeString tab k = Ok bs /\ bs <> [] /\ nameReads tab bs k.
Proof.
  intros [KB KL] LT. unfold writeString. destruct k as [|a k].
  - eexists. split; [reflexivity|]. split; [discriminate|]. intros f st m rest. cbn [app parseObject].
    rewrite readCode_small by lia. cbn [obind].
    assert (B : blockRead 0 rest = Ok ([], rest)) by (unfold blockRead; destruct (N.leb_spec 0 (N.of_nat (length rest))); [reflexivity|lia]).
    cbn - [blockRead]. rewrite B. reflexivity.
  - set (s := a :: k) in *. destruct (position tab s) as [i|] eqn:E.
    + destruct (position_ok _ _ _ E) as [A B]. destruct (readCode_enum i ltac:(lia)) as (bs & EB & L & HD & R).
      exists bs. split; [exact EB|]. split; [destruct bs; [cbn in L; lia|discriminate]|].
      intros f st m rest. cbn [parseObject]. rewrite R. cbn [obind].
      destruct (N.eqb_spec (40 + N.of_nat i) 5); [lia|]. destruct (N.ltb_spec (40 + N.of_nat i) 40); [lia|].
      replace (40 + N.of_nat i - 40) with (N.of_nat i) by lia. rewrite Nat2N.id, A. reflexivity.
    + eexists. split; [reflexivity|].
      destruct (writeNumber_ok 8 (N.of_nat (length s)) [] KL) as (i & bs & EW & _).
      split; [rewrite EW; discriminate|]. clear i bs EW.
      intros f st m rest. rewrite <- app_assoc.
      destruct (writeNumber_ok 8 (N.of_nat (length s)) (s ++ rest) KL) as (i & bs & EW & I & R & L).
      rewrite EW. cbn [app parseObject]. rewrite readCode_small by lia. cbn [obind].
      destruct (N.eqb_spec (8 + i) 5); [lia|]. destruct (N.ltb_spec (8 + i) 40); [|lia].
      destruct (N.leb_spec 8 (8 + i)); [|lia]. replace (8 + i - 8) with i by lia. rewrite R. cbn [obind].
      unfold blockRead. rewrite app_length.
      destruct (N.leb_spec (N.of_nat (length s)) (N.of_nat (length s + length rest))); [|lia].
      rewrite Nat2N.id, firstn_app, firstn_all, Nat.sub_diag, skipn_app, skipn_all, Nat.sub_diag.
      cbn [firstn skipn app obind]. rewrite app_nil_r. reflexivity.
Qed.

(** ** Values *)
Definition carries (tab : list (list N)) (v : json) : Prop :=
  exists bs, serializeValue tab v = Ok bs /\ bs <> [] /\ hd 0 bs <> 5 /\ parsesTo tab bs v.

Definition members (tab : list (list N)) : list (list N * json) -> outcome (list N) :=
  fix members m := match m with
                   | [] => Ok []
                   | (k, x) :: r =>
                       let! n := writeString tab k in
                       let! a := serializeValue tab x in
                       let! b := members r in Ok (n ++ a ++ b)
                   end.

Lemma members_ok tab : (length tab <= 2000)%nat -> forall m acc, Forall (fun kv => name_ok (fst kv) /\ carries tab (snd kv)) m ->
  bkeys acc -> increasing (map fst m) -> Forall (fun kv => Forall (fun kv' => klt (fst kv') (fst kv)) acc) m ->
  exists b, members tab m = Ok b /\
    forall fuel st rest, (length b < fuel)%nat -> parseObject fuel tab st acc (b ++ 5 :: rest) = Ok (acc ++ m, st, rest).
Proof.
  intros LT. induction m as [|[k v] m IH]; intros acc F KA IN AB; cbn [members].
  - exists []. split; [reflexivity|]. intros fuel st rest L. cbn [app length] in *. destruct fuel as [|f]; [lia|].
    cbn [parseObject]. rewrite readCode_small by lia. cbn. rewrite app_nil_r. reflexivity.
  - apply Forall_cons_iff in F as [[NK (a & EA & NE & HD & PA)] F]. cbn [fst snd] in *.
    apply Forall_cons_iff in AB as [A1 A2]. cbn [fst] in A1.
    destruct (writeString_name tab k NK LT) as (n & EN & NN & RN).
    cbn [map fst] in IN. pose proof (increasing_cons _ _ IN) as [IN1 IN2].
    assert (EI : insertField k v acc = acc ++ [(k, v)]) by (apply insert_last; [apply NK|exact KA|exact A1]).
    destruct (IH (acc ++ [(k, v)])) as (b & EB & PB).
    + exact F.
    + apply Forall_app. split; [exact KA|]. constructor; [apply NK|constructor].
    + exact IN1.
    + rewrite Forall_forall in *. intros kv HI. apply Forall_app. split.
      * rewrite Forall_forall. intros kv' HI'. apply (Forall_forall (fun kv' => klt (fst kv') (fst kv)) acc); auto.
      * constructor; [|constructor]. cbn [fst]. apply IN2. apply in_map. exact HI.
    + rewrite EN, EA. fold (members tab). rewrite EB. cbn [obind].
      exists (n ++ a ++ b). split; [reflexivity|]. intros fuel st rest L. rewrite !app_length in L.
      assert (LN : (1 <= length n)%nat) by (destruct n; [contradiction|cbn; lia]).
      destruct fuel as [|f]; [lia|]. rewrite <- !app_assoc, RN.
      rewrite PA by lia. cbn [obind]. cbn [addField]. rewrite EI.
      rewrite PB by lia. rewrite <- app_assoc. reflexivity.
Qed.

Lemma portable_carries tab : (length tab <= 2000)%nat -> forall v, portable tab v -> carries tab v.
Proof.
  intros LT v. induction v as [|b|z|t|s|l _|m IH] using json_deep; intros P; unfold carries; cbn [serializeValue].
  - exists [0]. repeat split; try (cbn; lia); try discriminate. apply parse_code; [lia|reflexivity].
  - destruct b.
    + exists [2]. repeat split; try (cbn; lia); try discriminate. apply parse_code; [lia|reflexivity].
    + exists [1]. repeat split; try (cbn; lia); try discriminate. apply parse_code; [lia|reflexivity].
  - cbn in P. destruct (Z.eq_dec z 0) as [->|NZ].
    + exists [20]. repeat split; try (cbn; lia); try discriminate. apply parse_code; [lia|reflexivity].
    + apply parse_neg. lia.
  - contradiction.
  - cbn in P. unfold writeString. destruct s as [|a s].
    + exists [21]. repeat split; try (cbn; lia); try discriminate. apply parse_code; [lia|reflexivity].
    + destruct P as [P|P]; [discriminate|]. destruct (position_in _ _ P) as (i & E). rewrite E.
      destruct (position_ok _ _ _ E) as [A B]. apply parse_enum; [lia|exact A].
  - contradiction.
  - cbn [portable] in P. destruct P as [IN P].
    assert (F : Forall (fun kv => name_ok (fst kv) /\ carries tab (snd kv)) m).
    { clear IN. induction IH as [|[k x] m IHx _ IHm]; [constructor|]. destruct P as (A & B & C). constructor.
      - split; [exact A|]. apply IHx. exact B.
      - apply IHm. exact C. }
    destruct (members_ok tab LT m [] F) as (b & EB & PB).
    + constructor.
    + exact IN.
    + apply Forall_forall. intros kv _. constructor.
    + change (exists bs, (let! b := members tab m in Ok (4 :: b ++ [5])) = Ok bs /\ bs <> [] /\ hd 0 bs <> 5 /\ parsesTo tab bs (JObj m)).
      rewrite EB. cbn [obind]. eexists. split; [reflexivity|]. split; [discriminate|]. split; [cbn; lia|].
      intros fuel st rest L. cbn [length app] in *. rewrite app_length in L. cbn [length] in L.
      destruct fuel as [|f]; [lia|]. cbn [parse]. rewrite readCode_small by lia. cbn [obind N.eqb Pos.eqb orb andb N.leb N.compare Pos.compare Pos.compare_cont].
      rewrite <- app_assoc. cbn [app]. rewrite PB by lia. reflexivity.
Qed.

(** ** Arrays *)
Definition items (tab : list (list N)) : list json -> outcome (list N) :=
  fix items l := match l with
                 | [] => Ok []
                 | x :: r => let! a := serializeValue tab x in let! b := items r in Ok (a ++ b)
                 end.

Lemma items_ok tab : forall l, Forall (carries tab) l ->
  exists b, items tab l = Ok b /\
    forall fuel st rest, (S (length b) < fuel)%nat -> parseArray fuel tab st (b ++ 5 :: rest) = Ok (l, st, 5 :: rest).
Proof.
  induction l as [|v l IH]; intros F; cbn [items].
  - exists []. split; [reflexivity|]. intros fuel st rest L. destruct fuel as [|f]; [lia|]. reflexivity.
  - apply Forall_cons_iff in F as [(a & EA & NE & HD & PA) F]. destruct (IH F) as (b & EB & PB).
    rewrite EA. fold (items tab). rewrite EB. cbn [obind]. exists (a ++ b). split; [reflexivity|].
    intros fuel st rest L. rewrite app_length in L.
    assert (LN : (1 <= length a)%nat) by (destruct a; [contradiction|cbn; lia]).
    destruct fuel as [|f]; [lia|]. rewrite <- app_assoc. cbn [parseArray].
    assert (G : exists x y, a ++ b ++ 5 :: rest = x :: y /\ x <> 5).
    { destruct a as [|x a]; [contradiction|]. cbn [hd] in HD. cbn [app]. eauto. }
    destruct G as (x & y & G & X). rewrite G. cbn [getByte obind]. destruct (N.eqb_spec x 5); [contradiction|].
    rewrite <- G. rewrite PA by lia. cbn [obind]. rewrite PB by lia. reflexivity.
Qed.

Lemma array_step tab f st r : parse (S f) tab st (3 :: r) =
  let! (l, st1, r1) := parseArray f tab st r in Ok (Some (JArr l), st1, r1).
Proof. cbn [parse]. rewrite readCode_small by lia. reflexivity. Qed.

(** ** Reading ends *)
Lemma readCode_len : forall bs s c r, readCode s bs = Ok (c, r) -> (length r < length bs)%nat.
Proof.
  induction bs as [|b bs IH]; intros s c r H; [discriminate|]. cbn [readCode] in H.
  destruct (wdec_write false s b) as [s1| | |]; try discriminate. cbn [obind] in H.
  destruct (wd_has s1).
  - destruct (wdec_next s1) as [[c' x]| | |]; try discriminate. cbn [obind] in H. injection H as _ <-. cbn; lia.
  - apply IH in H. cbn [length]. lia.
Qed.
Lemma wdec_write_fuel e s b : wdec_write e s b <> NoFuel.
Proof.
  unfold wdec_write, shl6.
  destruct (wd_out s); destruct e; repeat (match goal with |- context [if ?c then _ else _] => destruct c end; cbn [obind]); discriminate.
Qed.
Lemma readCode_fuel : forall bs s, readCode s bs <> NoFuel.
Proof.
  induction bs as [|b bs IH]; intros s; [discriminate|]. cbn [readCode].
  pose proof (wdec_write_fuel false s b). destruct (wdec_write false s b) as [s1| | |]; try discriminate; [|congruence].
  cbn [obind]. destruct (wd_has s1); [|apply IH]. destruct (wdec_next s1) as [[? ?]| | |] eqn:E; try discriminate.
  unfold wdec_next in E. destruct (wd_out s1); discriminate.
Qed.
Lemma readBytes_len : forall k bs v r, readBytes k bs = Ok (v, r) -> (length r <= length bs)%nat.
Proof.
  induction k as [|k IH]; intros bs v r H; cbn [readBytes] in H; [injection H as _ <-; lia|].
  destruct bs as [|b bs]; [discriminate|]. cbn [getByte obind] in H.
  destruct (readBytes k bs) as [[v1 r1]| | |] eqn:E; try discriminate. cbn [obind] in H. injection H as _ <-.
  apply IH in E. cbn [length]. lia.
Qed.
Lemma readBytes_fuel : forall k bs, readBytes k bs <> NoFuel.
Proof.
  induction k as [|k IH]; intros bs; [discriminate|]. cbn [readBytes]. destruct bs as [|b bs]; [discriminate|].
  cbn [getByte obind]. specialize (IH bs). destruct (readBytes k bs) as [[v r]| | |]; try discriminate; congruence.
Qed.
Lemma readNumber_len o bs v r : readNumber o bs = Ok (v, r) -> (length r <= length bs)%nat.
Proof.
  unfold readNumber. repeat match goal with |- context [if ?c then _ else _] => destruct c; try apply readBytes_len end.
  intros H; injection H as _ <-; lia.
Qed.
Lemma readNumber_fuel o bs : readNumber o bs <> NoFuel.
Proof.
  unfold readNumber. repeat match goal with |- context [if ?c then _ else _] => destruct c; try apply readBytes_fuel end. discriminate.
Qed.
Lemma blockRead_len n bs v r : blockRead n bs = Ok (v, r) -> (length r <= length bs)%nat.
Proof. unfold blockRead. destruct (n <=? _); intros H; [|discriminate]. injection H as _ <-. rewrite skipn_length. lia. Qed.
Lemma blockRead_fuel n bs : blockRead n bs <> NoFuel.
Proof. unfold blockRead. destruct (n <=? _); discriminate. Qed.

Definition endsWell {A} (strict : bool) (bs : list N) (o : outcome (A * vstack * list N)) : Prop :=
  match o with
  | Ok (_, _, r) => (if strict then S (length r) <= length bs else length r <= length bs)%nat
  | NoFuel => False
  | _ => True
  end.

Ltac numstep :=
  match goal with
  | |- context [obind (readNumber ?o ?r) _] =>
      let E := fresh "E" in let a := fresh "n" in let b := fresh "r1" in
      pose proof (readNumber_fuel o r); destruct (readNumber o r) as [[a b]| | |] eqn:E; cbn [obind];
      [apply readNumber_len in E|exact I|exact I|congruence]
  end.

Lemma parseNumber_ends o neg r0 r st : (S (length r) <= length r0)%nat ->
  @endsWell (option json) true r0 (let! (v, r1) := parseNumber o neg r in Ok (Some v, st, r1)).
Proof.
  intros H. unfold parseNumber. numstep. destruct neg; [destruct (_ =? _)%Z|]; cbn; lia || exact I.
Qed.

Lemma reading_ends : forall f tab st bs,
  ((2 * length bs < f)%nat -> endsWell true bs (parse f tab st bs)) /\
  ((2 * length bs + 1 < f)%nat -> endsWell false bs (parseArray f tab st bs)) /\
  (forall m, (2 * length bs < f)%nat -> endsWell true bs (parseObject f tab st m bs)).
Proof.
  induction f as [|f IH]; intros tab st bs; [split; [|split; [|intros m]]; intros H; lia|].
  assert (IHP := fun st bs => proj1 (IH tab st bs)).
  assert (IHA := fun st bs => proj1 (proj2 (IH tab st bs))).
  assert (IHO := fun st bs => proj2 (proj2 (IH tab st bs))). clear IH.
  split; [|split; [|intros m]]; intros H.
  - cbn [parse]. pose proof (readCode_fuel bs wdec_init).
    destruct (readCode wdec_init bs) as [[c r]| | |] eqn:E; cbn [obind]; try exact I; [|congruence].
    apply readCode_len in E.
    destruct (c =? 3).
    { specialize (IHA st r ltac:(lia)). destruct (parseArray f tab st r) as [[[l st1] r1]| | |]; cbn in *; try exact I; lia. }
    destruct (c =? 21); [cbn; lia|]. destruct (c =? 5); [cbn; lia|]. destruct (c =? 1); [cbn; lia|].
    destruct ((c =? 22) || (c =? 23)); [exact I|].
    destruct ((16 <=? c) && (c <=? 19)); [apply parseNumber_ends; lia|].
    destruct (c =? 0); [cbn; lia|].
    destruct (c =? 4).
    { specialize (IHO st r [] ltac:(lia)). destruct (parseObject f tab st [] r) as [[[l st1] r1]| | |]; cbn in *; try exact I; lia. }
    destruct ((28 <=? c) && (c <=? 30)).
    { numstep. destruct (nth_error st _); cbn; try exact I; lia. }
    destruct (c =? 7); [destruct st; cbn; try exact I; lia|].
    destruct ((12 <=? c) && (c <=? 15)); [apply parseNumber_ends; lia|].
    destruct (c =? 6).
    { pose proof (IHP st r ltac:(lia)) as P. destruct (parse f tab st r) as [[[v st1] r1]| | |]; cbn in P |- *; try exact I; try contradiction.
      specialize (IHP (v :: st1) r1 ltac:(lia)).
      destruct (parse f tab (v :: st1) r1) as [[[v2 st2] r2]| | |]; cbn in *; try exact I; lia. }
    destruct (c =? 31).
    { numstep. specialize (IHP (skipn (N.to_nat n) st) r1 ltac:(lia)).
      destruct (parse f tab (skipn (N.to_nat n) st) r1) as [[[v2 st2] r2]| | |]; cbn in *; try exact I; lia. }
    destruct ((8 <=? c) && (c <=? 11)).
    { unfold parseString. numstep. pose proof (blockRead_fuel n r1).
      destruct (blockRead n r1) as [[s r2]| | |] eqn:E2; cbn [obind]; try exact I; [|congruence].
      apply blockRead_len in E2. cbn; lia. }
    destruct (c =? 2); [cbn; lia|]. destruct (c =? 20); [cbn; lia|]. destruct (c <? 40); [exact I|].
    destruct (nth_error tab _); cbn; lia.
  - cbn [parseArray]. destruct bs as [|b bs]; [exact I|]. cbn [getByte obind]. destruct (b =? 5); [cbn; lia|].
    pose proof (IHP st (b :: bs) ltac:(lia)) as P. set (l := b :: bs) in *.
    destruct (parse f tab st l) as [[[v st1] r1]| | |]; cbn in P |- *; try exact I; try contradiction.
    change (S (length bs)) with (length l) in P.
    specialize (IHA st1 r1 ltac:(lia)).
    destruct (parseArray f tab st1 r1) as [[[l2 st2] r2]| | |]; cbn [endsWell obind] in *; try exact I; try contradiction; lia.
  - cbn [parseObject]. pose proof (readCode_fuel bs wdec_init).
    destruct (readCode wdec_init bs) as [[c r]| | |] eqn:E; cbn [obind]; try exact I; [|congruence].
    apply readCode_len in E. destruct (c =? 5); [cbn; lia|].
    assert (STEP : forall k r2, (length r2 <= length r)%nat ->
      endsWell true bs (let! (v, st1, r3) := parse f tab st r2 in parseObject f tab st1 (addField k v m) r3)).
    { intros k r2 L. pose proof (IHP st r2 ltac:(lia)) as P.
      destruct (parse f tab st r2) as [[[v st1] r3]| | |]; cbn in P |- *; try exact I; try contradiction.
      specialize (IHO st1 r3 (addField k v m) ltac:(lia)).
      destruct (parseObject f tab st1 (addField k v m) r3) as [[[m2 st2] r4]| | |]; cbn in *; try exact I; lia. }
    destruct (c <? 40); [|apply STEP; lia].
    numstep. pose proof (blockRead_fuel n r1).
    destruct (blockRead n r1) as [[k r2]| | |] eqn:E2; cbn [obind]; try exact I; [|congruence].
    apply blockRead_len in E2. apply STEP; lia.
Qed.
