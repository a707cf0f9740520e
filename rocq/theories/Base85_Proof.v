(** Proofs about the Base85 converters. *)
From Verif Require Import Common Conv_Model Conv_Proof Base64_Model Base64_Proof Base85_Model Base85_Spec.
Local Open Scope N_scope.
Ltac Zify.zify_post_hook ::= Z.div_mod_to_equations.

Lemma tab85_ok v : v < 85 -> tab alphabet85 v = Ok (chr alphabet85 v).
Proof. intros Hv. unfold tab, chr. rewrite nth_error_nth' with (d := 0); auto. change (length alphabet85) with 85%nat. lia. Qed.

Lemma acc_step acc b : acc < 2 ^ 24 -> byte_ok b ->
  N.lor (u32 (N.shiftl acc 8)) b = acc * 256 + b.
Proof.
  intros Ha Hb. unfold u32. rewrite N.shiftl_mul_pow2. rewrite N.mod_small by (unfold byte_ok in *; lia).
  rewrite <- N.shiftl_mul_pow2. rewrite lor_add by exact Hb. reflexivity.
Qed.

Lemma list_ind4 {A} (P : list A -> Prop) :
  P [] -> (forall a, P [a]) -> (forall a b, P [a; b]) -> (forall a b c, P [a; b; c]) ->
  (forall a b c d l, P l -> P (a :: b :: c :: d :: l)) -> forall l, P l.
Proof.
  intros H0 H1 H2 H3 H4.
  assert (H : forall n l, (length l <= n)%nat -> P l).
  { induction n as [|n IH]; intros [|a [|b [|c [|d l]]]] Hl; simpl in *; auto; try lia.
    apply H4, IH. lia. }
  intros l. apply (H (length l)); auto.
Qed.

Definition word (a b c d : N) : N := ((a * 256 + b) * 256 + c) * 256 + d.
Definition dg (v k : N) : N := (v / 85 ^ k) mod 85.
Notation ch85 := (chr alphabet85).

Lemma put_digits_ok v o0 o1 o2 o3 o4 o5 :
  put_digits 5 0 v [o0;o1;o2;o3;o4;o5]
  = Ok [Some (ch85 (dg v 4)); Some (ch85 (dg v 3)); Some (ch85 (dg v 2)); Some (ch85 (dg v 1)); Some (ch85 (dg v 0)); o5].
Proof.
  assert (H : forall m, (v / m) mod 85 < 85) by (intros; apply N.mod_lt; discriminate).
  cbn -[N.div N.modulo tab]. cbn [tab N.to_nat Pos.to_nat].
  change (tab multiplies85 4) with (@Ok N 52200625). change (tab multiplies85 3) with (@Ok N 614125).
  change (tab multiplies85 2) with (@Ok N 7225). change (tab multiplies85 1) with (@Ok N 85).
  change (tab multiplies85 0) with (@Ok N 1). cbn [obind].
  rewrite !tab85_ok by apply H. cbn [obind]. reflexivity.
Qed.

Lemma write85_small o acc wr rd mx has nd b : (wr < 3)%nat -> acc < 2 ^ 24 -> byte_ok b ->
  enc85_write (mkE85 o acc wr rd mx has nd false) b = Ok (mkE85 o (acc * 256 + b) (S wr) rd mx has nd false).
Proof.
  intros Hw Ha Hb. unfold enc85_write. cbn [e8_eolb e8_acc e8_wr e8_out e8_rd e8_max e8_has e8_need].
  rewrite acc_step by assumption. destruct (Nat.ltb_spec 3 (S wr)); [lia|]. reflexivity.
Qed.
Lemma write85_full o0 o1 o2 o3 o4 o5 acc rd mx has nd b : acc < 2 ^ 24 -> byte_ok b ->
  let v := acc * 256 + b in
  enc85_write (mkE85 [o0;o1;o2;o3;o4;o5] acc 3 rd mx has nd false) b
  = Ok (mkE85 [Some (ch85 (dg v 4)); Some (ch85 (dg v 3)); Some (ch85 (dg v 2)); Some (ch85 (dg v 1)); Some (ch85 (dg v 0)); o5]
          v 4 rd 5 true false false).
Proof.
  intros Ha Hb v. unfold enc85_write. cbn [e8_eolb e8_acc e8_wr e8_out e8_rd e8_max e8_has e8_need].
  rewrite acc_step by assumption. cbn [Nat.ltb Nat.leb]. rewrite put_digits_ok. reflexivity.
Qed.

Section Enc85.
  Notation C := enc85_conv.

  Lemma e85_step acc wr o mx nd b xs : (wr < 3)%nat -> acc < 2 ^ 24 -> byte_ok b ->
    block_loop C (mkE85 o acc wr 0 mx false nd false) (b :: xs)
    = (let! (o1, s, n) := block_loop C (mkE85 o (acc * 256 + b) (S wr) 0 mx false nd false) xs in Ok (o1, s, S n)).
  Proof.
    intros Hw Ha Hb. cbn [block_loop cv_eolb enc85_conv e8_eolb cv_write]. unfold enc85_write.
    cbn [e8_eolb e8_acc e8_wr e8_out e8_rd e8_max e8_has e8_need].
    rewrite acc_step by assumption. destruct (Nat.ltb_spec 3 (S wr)); [lia|].
    cbn [obind]. rewrite drain_empty by reflexivity. cbn [obind app].
    destruct (block_loop _ _ _) as [[[? ?] ?]| | |]; reflexivity.
  Qed.

  Lemma e85_last acc o0 o1 o2 o3 o4 o5 mx nd b xs : acc < 2 ^ 24 -> byte_ok b ->
    let v := acc * 256 + b in
    let cs := [ch85 (dg v 4); ch85 (dg v 3); ch85 (dg v 2); ch85 (dg v 1); ch85 (dg v 0)] in
    block_loop C (mkE85 [o0;o1;o2;o3;o4;o5] acc 3 0 mx false nd false) (b :: xs)
    = (let! (o1, s, n) := block_loop C (mkE85 (map Some cs ++ [o5]) 0 0 0 5 false true false) xs in
       Ok (cs ++ o1, s, S n)).
  Proof.
    intros Ha Hb v cs. cbn [block_loop cv_eolb enc85_conv e8_eolb cv_write]. unfold enc85_write.
    cbn [e8_eolb e8_acc e8_wr e8_out e8_rd e8_max e8_has e8_need].
    rewrite acc_step by assumption. cbn [Nat.ltb Nat.leb]. rewrite put_digits_ok. cbn [obind].
    fold v. subst cs.
    assert (Hd : drain C
       {| e8_out := [Some (ch85 (dg v 4)); Some (ch85 (dg v 3)); Some (ch85 (dg v 2)); Some (ch85 (dg v 1)); Some (ch85 (dg v 0)); o5];
          e8_acc := v; e8_wr := 4; e8_rd := 0; e8_max := 5; e8_has := true; e8_need := false; e8_eolb := false |}
       = Ok ([ch85 (dg v 4); ch85 (dg v 3); ch85 (dg v 2); ch85 (dg v 1); ch85 (dg v 0)],
             mkE85 [Some (ch85 (dg v 4)); Some (ch85 (dg v 3)); Some (ch85 (dg v 2)); Some (ch85 (dg v 1)); Some (ch85 (dg v 0)); o5]
               0 0 0 5 false true false)).
    { cbv -[chr alphabet85 dg v]. reflexivity. }
    rewrite Hd. cbn [obind map app]. reflexivity.
  Qed.

  Definition enc85_done (o2 : list N) (st : enc85) : Prop :=
    exists st2 st3, cv_flush C st = Ok st2 /\ drain C st2 = Ok (o2, st3) /\ e8_eolb st3 = true
                    /\ e8_has st3 = false.

  Lemma group85_4 a b c d :
    map ch85 (group85 [a;b;c;d]) =
    let v := word a b c d in [ch85 (dg v 4); ch85 (dg v 3); ch85 (dg v 2); ch85 (dg v 1); ch85 (dg v 0)].
  Proof. reflexivity. Qed.

  Ltac fl v :=
    repeat (rewrite acc_step; [|assumption || (unfold byte_ok in *; lia)..]).

  Lemma enc85_flush_tail acc wr o0 o1 o2 o3 o4 o5 mx nd : (1 <= wr <= 3)%nat -> acc < 256 ^ N.of_nat wr ->
    let v := acc * 256 ^ N.of_nat (4 - wr) in
    enc85_done (firstn (S wr) [ch85 (dg v 4); ch85 (dg v 3); ch85 (dg v 2); ch85 (dg v 1); ch85 (dg v 0)])
      (mkE85 [o0;o1;o2;o3;o4;o5] acc wr 0 mx false nd false).
  Proof.
    intros Hw Ha v.
    assert (Hb0 : byte_ok 0) by reflexivity.
    set (out := [Some (ch85 (dg v 4)); Some (ch85 (dg v 3)); Some (ch85 (dg v 2)); Some (ch85 (dg v 1)); Some (ch85 (dg v 0)); o5]).
    assert (Hf : cv_flush C (mkE85 [o0;o1;o2;o3;o4;o5] acc wr 0 mx false nd false)
      = Ok (mkE85 out v 4 0 (S wr) true false true)).
    { destruct wr as [|[|[|[|wr]]]]; try lia;
      cbn [cv_flush enc85_conv enc85_flush e8_eolb e8_wr Nat.eqb minus enc85_zeros obind];
      change (N.of_nat 1) with 1 in *; change (N.of_nat 2) with 2 in *; change (N.of_nat 3) with 3 in *;
      repeat (rewrite write85_small; [|lia|lia|exact Hb0]; cbn [obind]);
      (rewrite write85_full; [|lia|exact Hb0]);
      cbn [obind e8_out e8_acc e8_wr e8_rd e8_max e8_has e8_need e8_eolb minus];
      [replace (((acc * 256 + 0) * 256 + 0) * 256 + 0) with v by (subst v; cbn [minus]; change (N.of_nat 3) with 3; lia)
      |replace ((acc * 256 + 0) * 256 + 0) with v by (subst v; cbn [minus]; change (N.of_nat 2) with 2; lia)
      |replace (acc * 256 + 0) with v by (subst v; cbn [minus]; change (N.of_nat 1) with 1; lia)];
      reflexivity. }
    do 2 eexists. split; [exact Hf|]. subst out. clearbody v. clear Hf Ha.
    destruct wr as [|[|[|[|wr]]]]; try lia; (split; [cbv -[chr alphabet85 dg]; reflexivity|split; reflexivity]).
  Qed.

  (** what the encoder emits: the specified text, and after a complete last group that
      group once more *)
  Definition emitted85 (xs : list N) : list N :=
    b85_text alphabet85 xs
    ++ (if Nat.eqb (Nat.modulo (length xs) 4) 0
        then b85_text alphabet85 (skipn (length xs - 4) xs) else []).

  Lemma b85_text_cons a b c d l :
    b85_text alphabet85 (a :: b :: c :: d :: l) = map ch85 (group85 [a;b;c;d]) ++ b85_text alphabet85 l.
  Proof. unfold b85_text. cbn [b85_digits]. rewrite map_app. reflexivity. Qed.

  (** runs from a state whose buffer already holds the group [prev] *)
  Lemma enc85_run xs : bytes_ok xs -> forall o0 o1 o2 o3 o4 o5 mx nd,
    (xs <> [] \/ (mx = 5%nat /\ exists p0 p1 p2 p3 p4, [o0;o1;o2;o3;o4] = map Some [p0;p1;p2;p3;p4])) ->
    exists out1 st1 out2,
      block_loop C (mkE85 [o0;o1;o2;o3;o4;o5] 0 0 0 mx false nd false) xs = Ok (out1, st1, length xs)
      /\ enc85_done out2 st1
      /\ out1 ++ out2 = match xs with [] => map (fun o => match o with Some p => p | None => 0 end) [o0;o1;o2;o3;o4]
                                    | _ => emitted85 xs end.
  Proof.
    induction xs as [|a|a b|a b c|a b c d xs IH] using list_ind4;
      intros Hb o0 o1 o2 o3 o4 o5 mx nd Hst;
      repeat match goal with H : bytes_ok (_ :: _) |- _ => inversion H; clear H; subst
                        | H : Forall byte_ok (_ :: _) |- _ => inversion H; clear H; subst end.
    - destruct Hst as [H|(-> & p0 & p1 & p2 & p3 & p4 & E)]; [congruence|]. injection E as -> -> -> -> ->.
      exists [], (mkE85 [Some p0;Some p1;Some p2;Some p3;Some p4;o5] 0 0 0 5 false nd false), [p0;p1;p2;p3;p4].
      split; [reflexivity|]. split; [|reflexivity].
      do 2 eexists. split; [reflexivity|]. split; [cbv; reflexivity|]. split; reflexivity.
    - rewrite e85_step by (try lia; assumption). cbn [block_loop obind length].
      do 3 eexists. split; [reflexivity|]. split; [apply enc85_flush_tail; [lia|unfold byte_ok in *; cbn; lia]|].
      cbn [app]. unfold emitted85. cbn [length Nat.modulo Nat.divmod snd minus Nat.eqb].
      rewrite app_nil_r. unfold b85_text. cbn [b85_digits group85]. unfold group85.
      cbn [length repeat minus app be_value fold_left digits85 map firstn].
      replace ((0 * 256 + a) * 256 ^ N.of_nat 3) with ((((0 * 256 + a) * 256 + 0) * 256 + 0) * 256 + 0) by (change (N.of_nat 3) with 3; lia). reflexivity.
    - rewrite !e85_step by (try lia; unfold byte_ok in *; assumption || lia). cbn [block_loop obind length].
      do 3 eexists. split; [reflexivity|]. split; [apply enc85_flush_tail; [lia|unfold byte_ok in *; cbn; lia]|].
      cbn [app]. unfold emitted85. cbn [length Nat.modulo Nat.divmod snd minus Nat.eqb].
      rewrite app_nil_r. unfold b85_text. cbn [b85_digits group85]. unfold group85.
      cbn [length repeat minus app be_value fold_left digits85 map firstn].
      replace (((0 * 256 + a) * 256 + b) * 256 ^ N.of_nat 2) with ((((0 * 256 + a) * 256 + b) * 256 + 0) * 256 + 0) by (change (N.of_nat 2) with 2; lia). reflexivity.
    - rewrite !e85_step by (try lia; unfold byte_ok in *; assumption || lia). cbn [block_loop obind length].
      do 3 eexists. split; [reflexivity|]. split; [apply enc85_flush_tail; [lia|unfold byte_ok in *; cbn; lia]|].
      cbn [app]. unfold emitted85. cbn [length Nat.modulo Nat.divmod snd minus Nat.eqb].
      rewrite app_nil_r. unfold b85_text. cbn [b85_digits group85]. unfold group85.
      cbn [length repeat minus app be_value fold_left digits85 map firstn].
      replace ((((0 * 256 + a) * 256 + b) * 256 + c) * 256 ^ N.of_nat 1) with ((((0 * 256 + a) * 256 + b) * 256 + c) * 256 + 0) by (change (N.of_nat 1) with 1; lia). reflexivity.
    - rewrite !e85_step by (try lia; unfold byte_ok in *; assumption || lia).
      rewrite e85_last by (try lia; unfold byte_ok in *; assumption || lia).
      cbn [map app].
      edestruct IH as (out1 & st1 & out2 & E1 & E2 & E3); [assumption| |].
      2:{ rewrite E1. cbn [obind length]. do 3 eexists. split; [reflexivity|]. split; [exact E2|].
          cbn [app]. rewrite E3.
          unfold emitted85 at 2. rewrite b85_text_cons, group85_4.
          change (((0 * 256 + a) * 256 + b) * 256 + c) with ((a * 256 + b) * 256 + c).
          fold (word a b c d). cbn zeta. cbn [app]. do 5 (f_equal; try reflexivity).
          destruct xs as [|x xs].
          - reflexivity.
          - unfold emitted85. f_equal.
            assert (Hm : Nat.modulo (length (a :: b :: c :: d :: x :: xs)) 4 = Nat.modulo (length (x :: xs)) 4).
            { cbn [length]. generalize (length xs) as n. clear. intros n. lia. }
            rewrite Hm. destruct (Nat.eqb_spec (Nat.modulo (length (x :: xs)) 4) 0) as [K|K]; [|reflexivity].
            assert (4 <= length (x :: xs))%nat.
            { revert K. cbn [length]. generalize (length xs) as n. clear. intros n H. lia. }
            replace (length (a :: b :: c :: d :: x :: xs) - 4)%nat with (4 + (length (x :: xs) - 4))%nat
              by (cbn [length] in *; lia).
            reflexivity. }
      right. split; [reflexivity|]. do 5 eexists. reflexivity.
  Qed.
End Enc85.

Lemma enc85_push xs : bytes_ok xs -> xs <> [] -> base85_encode xs = Ok (emitted85 xs).
Proof.
  intros Hb Hne. unfold base85_encode.
  destruct (enc85_run xs Hb None None None None None None 0%nat true (or_introl Hne))
    as (o1 & st & o2 & E1 & (st2 & st3 & E2 & E3 & _ & _) & E4).
  replace (emitted85 xs) with (o1 ++ o2) by (rewrite E4; destruct xs; congruence).
  eapply push_all_block; eauto; reflexivity.
Qed.

Lemma enc85_pull xs : bytes_ok xs -> xs <> [] ->
  forall fuel, (length (emitted85 xs) <= fuel)%nat ->
  pull_n enc85_conv fuel enc85_init xs = Ok (emitted85 xs).
Proof.
  intros Hb Hne fuel Hf.
  destruct (enc85_run xs Hb None None None None None None 0%nat true (or_introl Hne))
    as (o1 & st & o2 & E1 & (st2 & st3 & E2 & E3 & E5 & E6) & E4).
  assert (E : emitted85 xs = o1 ++ o2) by (rewrite E4; destruct xs; congruence).
  rewrite E in *. eapply pull_eq_block; [reflexivity|exact E1|exact E2|exact E3|auto| | |exact Hf].
  - cbn [cv_flush enc85_conv]. unfold enc85_flush. rewrite E5. reflexivity.
  - exact E6.
Qed.

(** ---- decoder ---- *)
Definition dec_char (v : N) : bool :=
  let c := ch85 v in
  negb ((c <? 33) || (128 <=? c)) && match tab decoder85 (c - 32) with Ok d => d =? v | _ => false end.
Lemma dec_char_ok v : v < 85 ->
  ((ch85 v <? 33) || (128 <=? ch85 v)) = false /\ tab decoder85 (ch85 v - 32) = Ok v.
Proof.
  intros Hv.
  assert (H : forallb dec_char (Nrange 85) = true) by (vm_compute; reflexivity).
  rewrite forallb_forall in H. specialize (H v (in_Nrange 85 v Hv)). unfold dec_char in H.
  apply andb_prop in H as [H1 H2]. apply negb_true_iff in H1. split; auto.
  destruct (tab decoder85 (ch85 v - 32)); try discriminate. apply N.eqb_eq in H2. congruence.
Qed.

Lemma dg_lt v k : dg v k < 85.
Proof. apply N.mod_lt. discriminate. Qed.

(** Horner evaluation of the digits *)
Lemma digits_recompose v : v < 2 ^ 32 ->
  (((dg v 4 * 85 + dg v 3) * 85 + dg v 2) * 85 + dg v 1) * 85 + dg v 0 = v.
Proof.
  intros Hv. unfold dg.
  change (85 ^ 4) with (85 * 85 * 85 * 85). change (85 ^ 3) with (85 * 85 * 85).
  change (85 ^ 2) with (85 * 85). change (85 ^ 1) with 85. change (85 ^ 0) with 1.
  rewrite <- !N.div_div by discriminate. rewrite N.div_1_r.
  pose proof (N.div_mod v 85 ltac:(discriminate)).
  pose proof (N.div_mod (v/85) 85 ltac:(discriminate)).
  pose proof (N.div_mod (v/85/85) 85 ltac:(discriminate)).
  pose proof (N.div_mod (v/85/85/85) 85 ltac:(discriminate)).
  pose proof (N.div_mod (v/85/85/85/85) 85 ltac:(discriminate)).
  assert (v/85/85/85/85 < 85).
  { apply N.div_lt_upper_bound; [discriminate|]. repeat (apply N.div_lt_upper_bound; [discriminate|]). lia. }
  rewrite (N.mod_small (v/85/85/85/85)) by assumption.
  revert H H0 H1 H2. generalize (v/85/85/85/85) (v/85/85/85 mod 85) (v/85/85 mod 85) (v/85 mod 85) (v mod 85).
  intros. lia.
Qed.

Definition out4 (acc : N) : list N := map (fun k => N.shiftr acc (8 * k) mod 256) [3; 2; 1; 0].

Section Dec85.
  Notation D := dec85_conv.

  Lemma dwrite_small o acc rd mx wr has nd v : (wr < 4)%nat -> v < 85 ->
    dec85_write (mkD85 o acc rd mx wr has nd false) (ch85 v)
    = Ok (mkD85 o (u32 (acc * 85 + v)) rd mx (S wr) has nd false).
  Proof.
    intros Hw Hv. destruct (dec_char_ok v Hv) as (E1 & E2). unfold dec85_write. rewrite E1.
    cbn [d8_eolb d8_out d8_acc d8_rd d8_max d8_wr d8_has d8_need]. rewrite E2. cbn [obind].
    destruct (Nat.eqb_spec (S wr) 5); [lia|]. reflexivity.
  Qed.
  Lemma dwrite_full o acc rd mx has nd v : v < 85 ->
    dec85_write (mkD85 o acc rd mx 4 has nd false) (ch85 v)
    = Ok (mkD85 (map Some (out4 (u32 (acc * 85 + v)))) (u32 (acc * 85 + v)) rd (Some 4%nat) 5 true false false).
  Proof.
    intros Hv. destruct (dec_char_ok v Hv) as (E1 & E2). unfold dec85_write. rewrite E1.
    cbn [d8_eolb d8_out d8_acc d8_rd d8_max d8_wr d8_has d8_need]. rewrite E2. reflexivity.
  Qed.

  Lemma d85_step o acc mx wr nd v xs : (wr < 4)%nat -> v < 85 ->
    block_loop D (mkD85 o acc 0 mx wr false nd false) (ch85 v :: xs)
    = (let! (o1, s, n) := block_loop D (mkD85 o (u32 (acc * 85 + v)) 0 mx (S wr) false nd false) xs in Ok (o1, s, S n)).
  Proof.
    intros Hw Hv. cbn [block_loop cv_eolb dec85_conv d8_eolb cv_write]. rewrite dwrite_small by assumption.
    cbn [obind]. rewrite drain_empty by reflexivity. cbn [obind app].
    destruct (block_loop _ _ _) as [[[? ?] ?]| | |]; reflexivity.
  Qed.
  Lemma d85_last o acc mx nd v xs : v < 85 ->
    let w := u32 (acc * 85 + v) in
    block_loop D (mkD85 o acc 0 mx 4 false nd false) (ch85 v :: xs)
    = (let! (o1, s, n) := block_loop D (mkD85 (map Some (out4 w)) 0 0 (Some 4%nat) 0 false true false) xs in
       Ok (out4 w ++ o1, s, S n)).
  Proof.
    intros Hv w. cbn [block_loop cv_eolb dec85_conv d8_eolb cv_write]. rewrite dwrite_full by assumption.
    cbn [obind]. fold w. unfold out4. cbn [map].
    generalize (N.shiftr w (8 * 3) mod 256) (N.shiftr w (8 * 2) mod 256) (N.shiftr w (8 * 1) mod 256) (N.shiftr w (8 * 0) mod 256).
    intros p q r s. reflexivity.
  Qed.

  Lemma u32_small x : x < 2 ^ 32 -> u32 x = x.
  Proof. apply N.mod_small. Qed.
  Lemma u32_chain acc v : u32 (u32 acc * 85 + v) = u32 (acc * 85 + v).
  Proof.
    unfold u32. rewrite N.add_mod by discriminate. rewrite N.mul_mod_idemp_l by discriminate.
    rewrite <- N.add_mod by discriminate. reflexivity.
  Qed.

  Lemma out4_word a b c d : byte_ok a -> byte_ok b -> byte_ok c -> byte_ok d ->
    out4 (word a b c d) = [a; b; c; d].
  Proof.
    unfold byte_ok, out4, word. intros. cbn [map]. rewrite !N.shiftr_div_pow2.
    change (2 ^ (8 * 3)) with 16777216. change (2 ^ (8 * 2)) with 65536.
    change (2 ^ (8 * 1)) with 256. change (2 ^ (8 * 0)) with 1.
    repeat (f_equal; try lia).
  Qed.

  (** partial accumulators do not overflow *)
  Lemma acc_small v : v < 2 ^ 32 ->
    u32 (dg v 4 * 85 + dg v 3) = dg v 4 * 85 + dg v 3
    /\ u32 ((dg v 4 * 85 + dg v 3) * 85 + dg v 2) = (dg v 4 * 85 + dg v 3) * 85 + dg v 2
    /\ u32 (((dg v 4 * 85 + dg v 3) * 85 + dg v 2) * 85 + dg v 1) = ((dg v 4 * 85 + dg v 3) * 85 + dg v 2) * 85 + dg v 1.
  Proof.
    intros Hv. pose proof (digits_recompose v Hv) as E. unfold u32.
    revert E. generalize (dg v 4) (dg v 3) (dg v 2) (dg v 1) (dg v 0). intros.
    repeat split; apply N.mod_small; lia.
  Qed.

  Lemma u32_dg v k : u32 (0 * 85 + dg v k) = dg v k.
  Proof. unfold u32. rewrite N.mul_0_l, N.add_0_l. apply N.mod_small. pose proof (dg_lt v k). lia. Qed.

  Lemma dec85_group o mx nd w xs : w < 2 ^ 32 ->
    block_loop D (mkD85 o 0 0 mx 0 false nd false)
      (ch85 (dg w 4) :: ch85 (dg w 3) :: ch85 (dg w 2) :: ch85 (dg w 1) :: ch85 (dg w 0) :: xs)
    = (let! (o1, s, n) := block_loop D (mkD85 (map Some (out4 w)) 0 0 (Some 4%nat) 0 false true false) xs in
       Ok (out4 w ++ o1, s, (5 + n)%nat)).
  Proof.
    intros Hw. rewrite !d85_step by (try apply dg_lt; lia). rewrite d85_last by apply dg_lt. cbn zeta.
    destruct (acc_small w Hw) as (A1 & A2 & A3). rewrite u32_dg, A1, A2, A3.
    rewrite digits_recompose by assumption. rewrite u32_small by assumption.
    destruct (block_loop _ _ _) as [[[? ?] ?]| | |]; reflexivity.
  Qed.

  Definition dec85_done (o2 : list N) (st : dec85) : Prop :=
    exists st2 st3 st4, cv_flush D st = Ok st2 /\ drain D st2 = Ok (o2, st3)
                    /\ cv_flush D st3 = Ok st4 /\ d8_has st4 = false.

  Lemma u32_chain2 a v : u32 (u32 a * 85 + v) = u32 (a * 85 + v).
  Proof. apply u32_chain. Qed.

  Lemma dec85_flush_tail o acc mx nd wr W : (2 <= wr <= 4)%nat ->
    W = (match wr with
         | 2%nat => ((acc * 85 + 84) * 85 + 84) * 85 + 84
         | 3%nat => (acc * 85 + 84) * 85 + 84
         | _ => acc * 85 + 84 end) ->
    W < 2 ^ 32 ->
    dec85_done (firstn (wr - 1) (out4 W)) (mkD85 o acc 0 mx wr false nd false).
  Proof.
    intros Hw HW Hlt.
    set (out := map Some (out4 W)).
    assert (Hf : cv_flush D (mkD85 o acc 0 mx wr false nd false)
      = Ok (mkD85 out W 0 (Some (wr - 1)%nat) 5 true false true)).
    { assert (Hh : tab alphabet85 84 = Ok (ch85 84)) by reflexivity.
      assert (H84 : 84 < 85) by reflexivity.
      destruct wr as [|[|[|[|[|wr]]]]]; try lia;
      cbn [cv_flush dec85_conv dec85_flush d8_wr Nat.eqb minus dec85_hashes]; rewrite ?Hh; cbn [obind];
      unfold dec85_flush; cbn [d8_wr Nat.eqb minus dec85_hashes]; rewrite ?Hh; cbn [obind];
      repeat (rewrite dwrite_small; [|lia|exact H84]; cbn [obind]);
      rewrite dwrite_full by exact H84; repeat match goal with |- context [u32 ?x] => lazymatch x with context [u32 _] => fail | _ => rewrite (u32_small x) by lia end end; rewrite <- HW;
      reflexivity. }
    assert (Hd : forall p q r s, exists st3 st4,
      drain D (mkD85 [Some p; Some q; Some r; Some s] W 0 (Some (wr - 1)%nat) 5 true false true) = Ok (firstn (wr - 1) [p; q; r; s], st3)
      /\ cv_flush D st3 = Ok st4 /\ d8_has st4 = false).
    { clear - Hw. intros p q r s.
      destruct wr as [|[|[|[|[|wr]]]]]; try lia; do 2 eexists; (split; [cbv; reflexivity|split; reflexivity]). }
    subst out. unfold out4 in *. cbn [map] in *.
    edestruct Hd as (st3 & st4 & E1 & E2 & E3).
    do 3 eexists. split; [exact Hf|]. split; [exact E1|]. split; [exact E2|exact E3].
  Qed.

  (** completing a truncated group with the top digit changes only the bytes that the
      group does not have *)
  Lemma tail_word1 a : byte_ok a -> let v := word a 0 0 0 in
    let W := (((dg v 4 * 85 + dg v 3) * 85 + 84) * 85 + 84) * 85 + 84 in
    W < 2 ^ 32 /\ N.shiftr W (8 * 3) mod 256 = a.
  Proof.
    intros Ha v W. unfold byte_ok in *.
    assert (Hv : v < 2 ^ 32) by (unfold v, word; lia).
    pose proof (digits_recompose v Hv) as E.
    pose proof (dg_lt v 2). pose proof (dg_lt v 1). pose proof (dg_lt v 0).
    assert (HW : v <= W < v + 614125).
    { subst W. revert E. generalize (dg v 4) (dg v 3). intros; lia. }
    clearbody W. clear E. unfold v, word in *.
    split; [lia|]. rewrite N.shiftr_div_pow2. change (2 ^ (8 * 3)) with 16777216. lia.
  Qed.
  Lemma tail_word2 a b : byte_ok a -> byte_ok b -> let v := word a b 0 0 in
    let W := (((dg v 4 * 85 + dg v 3) * 85 + dg v 2) * 85 + 84) * 85 + 84 in
    W < 2 ^ 32 /\ N.shiftr W (8 * 3) mod 256 = a /\ N.shiftr W (8 * 2) mod 256 = b.
  Proof.
    intros Ha Hb v W. unfold byte_ok in *.
    assert (Hv : v < 2 ^ 32) by (unfold v, word; lia).
    pose proof (digits_recompose v Hv) as E.
    pose proof (dg_lt v 2). pose proof (dg_lt v 1). pose proof (dg_lt v 0).
    assert (HW : v <= W < v + 7225).
    { subst W. revert E. generalize (dg v 4) (dg v 3) (dg v 2). intros; lia. }
    clearbody W. clear E. unfold v, word in *.
    rewrite !N.shiftr_div_pow2. change (2 ^ (8 * 3)) with 16777216. change (2 ^ (8 * 2)) with 65536.
    repeat split; lia.
  Qed.
  Lemma tail_word3 a b c : byte_ok a -> byte_ok b -> byte_ok c -> let v := word a b c 0 in
    let W := (((dg v 4 * 85 + dg v 3) * 85 + dg v 2) * 85 + dg v 1) * 85 + 84 in
    W < 2 ^ 32 /\ N.shiftr W (8 * 3) mod 256 = a /\ N.shiftr W (8 * 2) mod 256 = b /\ N.shiftr W (8 * 1) mod 256 = c.
  Proof.
    intros Ha Hb Hc v W. unfold byte_ok in *.
    assert (Hv : v < 2 ^ 32) by (unfold v, word; lia).
    pose proof (digits_recompose v Hv) as E.
    pose proof (dg_lt v 2). pose proof (dg_lt v 1). pose proof (dg_lt v 0).
    assert (HW : v <= W < v + 85).
    { subst W. revert E. generalize (dg v 4) (dg v 3) (dg v 2). intros; lia. }
    clearbody W. clear E. unfold v, word in *.
    rewrite !N.shiftr_div_pow2. change (2 ^ (8 * 3)) with 16777216. change (2 ^ (8 * 2)) with 65536. change (2 ^ (8 * 1)) with 256.
    repeat split; lia.
  Qed.

  Lemma dec85_run xs : bytes_ok xs -> forall o mx nd,
    exists o1 st o2,
      block_loop D (mkD85 o 0 0 mx 0 false nd false) (b85_text alphabet85 xs)
        = Ok (o1, st, length (b85_text alphabet85 xs))
      /\ dec85_done o2 st /\ o1 ++ o2 = xs.
  Proof.
    induction xs as [|a|a b|a b c|a b c d xs IH] using list_ind4;
      intros Hb o mx nd;
      repeat match goal with H : bytes_ok (_ :: _) |- _ => inversion H; clear H; subst
                        | H : Forall byte_ok (_ :: _) |- _ => inversion H; clear H; subst end.
    - do 3 eexists. split; [reflexivity|]. split; [|apply app_nil_r].
      do 3 eexists. split; [reflexivity|]. split; [reflexivity|]. split; reflexivity.
    - assert (Hv : word a 0 0 0 < 2 ^ 32) by (unfold word, byte_ok in *; lia).
      destruct (acc_small _ Hv) as (A1 & A2 & A3).
      destruct (tail_word1 a H1) as (T1 & T2).
      assert (Ht : b85_text alphabet85 [a] = [ch85 (dg (word a 0 0 0) 4); ch85 (dg (word a 0 0 0) 3)]) by reflexivity.
      rewrite Ht. rewrite !d85_step by (try apply dg_lt; lia). rewrite u32_dg, A1, ?A2, ?A3.
      do 3 eexists. split; [reflexivity|]. split; [apply dec85_flush_tail; [lia|reflexivity|exact T1]|].
      cbn [app minus firstn out4 map]. rewrite T2. reflexivity.
    - assert (Hv : word a b 0 0 < 2 ^ 32) by (unfold word, byte_ok in *; lia).
      destruct (acc_small _ Hv) as (A1 & A2 & A3).
      destruct (tail_word2 a b) as (T1 & T2 & T3); try assumption.
      assert (Ht : b85_text alphabet85 [a; b] = [ch85 (dg (word a b 0 0) 4); ch85 (dg (word a b 0 0) 3); ch85 (dg (word a b 0 0) 2)]) by reflexivity.
      rewrite Ht. rewrite !d85_step by (try apply dg_lt; lia). rewrite u32_dg, A1, ?A2, ?A3.
      do 3 eexists. split; [reflexivity|]. split; [apply dec85_flush_tail; [lia|reflexivity|exact T1]|].
      cbn [app minus firstn out4 map]. rewrite T2, T3. reflexivity.
    - assert (Hv : word a b c 0 < 2 ^ 32) by (unfold word, byte_ok in *; lia).
      destruct (acc_small _ Hv) as (A1 & A2 & A3).
      destruct (tail_word3 a b c) as (T1 & T2 & T3 & T4); try assumption.
      assert (Ht : b85_text alphabet85 [a; b; c] = [ch85 (dg (word a b c 0) 4); ch85 (dg (word a b c 0) 3); ch85 (dg (word a b c 0) 2); ch85 (dg (word a b c 0) 1)]) by reflexivity.
      rewrite Ht. rewrite !d85_step by (try apply dg_lt; lia). rewrite u32_dg, A1, ?A2, ?A3.
      do 3 eexists. split; [reflexivity|]. split; [apply dec85_flush_tail; [lia|reflexivity|exact T1]|].
      cbn [app minus firstn out4 map]. rewrite T2, T3, T4. reflexivity.
    - rewrite b85_text_cons, group85_4. cbn zeta. cbn [app].
      rewrite dec85_group by (unfold word, byte_ok in *; lia).
      rewrite out4_word by assumption.
      edestruct IH as (o1 & st & o2 & E1 & E2 & E3); [assumption|].
      rewrite E1. cbn [obind]. do 3 eexists. split; [reflexivity|]. split; [exact E2|].
      cbn [app]. rewrite E3. reflexivity.
  Qed.
End Dec85.

Lemma dec85_push xs : bytes_ok xs -> base85_decode (b85_text alphabet85 xs) = Ok xs.
Proof.
  intros Hb. unfold base85_decode.
  destruct (dec85_run xs Hb (repeat None 4) None true) as (o1 & st & o2 & E1 & (s2 & s3 & s4 & E2 & E3 & _ & _) & E4).
  rewrite <- E4 at 2. eapply push_all_block; eauto; reflexivity.
Qed.
Lemma dec85_pull xs : bytes_ok xs -> forall fuel, (length xs <= fuel)%nat ->
  pull_n dec85_conv fuel dec85_init (b85_text alphabet85 xs) = Ok xs.
Proof.
  intros Hb fuel Hf.
  destruct (dec85_run xs Hb (repeat None 4) None true) as (o1 & st & o2 & E1 & (s2 & s3 & s4 & E2 & E3 & E5 & E6) & E4).
  rewrite <- E4 at 2. eapply pull_eq_block; [reflexivity|exact E1|exact E2|exact E3|auto|exact E5|exact E6|].
  rewrite E4. exact Hf.
Qed.

Lemma base85_tail_roundtrip xs : bytes_ok xs -> Nat.modulo (length xs) 4 <> 0%nat ->
  exists txt, base85_encode xs = Ok txt /\ txt = b85_text alphabet85 xs /\ base85_decode txt = Ok xs.
Proof.
  intros Hb Hm. exists (b85_text alphabet85 xs). split; [|split; [reflexivity|apply dec85_push; auto]].
  rewrite enc85_push; auto.
  - unfold emitted85. apply Nat.eqb_neq in Hm. rewrite Hm, app_nil_r. reflexivity.
  - intros ->. apply Hm. reflexivity.
Qed.

Lemma b85_text_app4 xs ys : Nat.modulo (length xs) 4 = 0%nat ->
  b85_text alphabet85 (xs ++ ys) = b85_text alphabet85 xs ++ b85_text alphabet85 ys.
Proof.
  induction xs as [|a|a b|a b c|a b c d xs IH] using list_ind4; try discriminate; intros H.
  - reflexivity.
  - cbn [app]. rewrite !b85_text_cons, IH, app_assoc; auto.
    revert H. cbn [length]. generalize (length xs). clear. intros n H. lia.
Qed.

Lemma base85_aligned xs : bytes_ok xs -> xs <> [] -> Nat.modulo (length xs) 4 = 0%nat ->
  exists txt, base85_encode xs = Ok txt
    /\ base85_decode txt = Ok (xs ++ skipn (length xs - 4) xs)
    /\ length (skipn (length xs - 4) xs) = 4%nat.
Proof.
  intros Hb Hne Hm. exists (emitted85 xs). split; [apply enc85_push; auto|].
  assert (Hl : (4 <= length xs)%nat).
  { destruct xs; [congruence|]. revert Hm. cbn [length]. generalize (length xs). clear. intros. lia. }
  split; [|rewrite skipn_length; lia].
  unfold emitted85. rewrite Hm. cbn [Nat.eqb]. rewrite <- b85_text_app4 by assumption.
  apply dec85_push. apply Forall_app. split; auto.
  apply Forall_forall. intros x Hx. unfold bytes_ok in Hb. rewrite Forall_forall in Hb. apply Hb.
  rewrite <- (firstn_skipn (length xs - 4) xs). apply in_or_app. auto.
Qed.
