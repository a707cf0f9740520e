(** Properties of the text formatter: C148-C156. *)
From Coq Require Import ZArith.
From Verif Require Import Common TextFormat_Spec TextFormat_Model TextFormat_Proof.
Local Open Scope Z_scope.

(** a message is well formed: its pattern is the writing of [ps], its arguments show [us] *)
Definition message_shows (b : Z) (nl : text) (m : text * list arg) (o : text) : Prop :=
  exists ps us, fst m = write ps /\ ps <> [] /\ pieces_ok ps /\ (length (snd m) <= 30)%nat /\
    Forall2 (arg_shows b) (snd m) us /\ o = show nl us ps.

(** C148: one formatter used for any number of messages shows each pattern with the
    arguments of that message *)
Theorem formatter_shows_pattern st ms os : 2 <= base st <= 62 ->
  Forall2 (message_shows (base st) (newline st)) ms os -> messages st ms = Ok os.
Proof.
  revert st os. induction ms as [|[p l] ms IH]; intros st os B F; inversion F as [|? o ? os' M F']; subst; cbn [messages].
  - reflexivity.
  - destruct M as (ps & us & EP & NE & W & L & S & ->). cbn [fst snd] in *. subst p.
    destruct (message_ok st l us ps B L S W NE) as (st' & E & Bs & Nl & _).
    rewrite E. cbn [obind]. rewrite (IH st' os'); [reflexivity|rewrite Bs; exact B|].
    rewrite Bs, Nl. exact F'.
Qed.

Print Assumptions formatter_shows_pattern.

(* "%2, %{06}1;" with a direct text and a negative number, twice with other arguments *)
Example formatter_shows_pattern_ex :
  let st := mkFormatter [] [1; 2] [] 10 [13; 10] in
  let ps := [Param [50] false; Plain 44; Plain 32; Field (mkField None (Some 48) [54] None) [49] false; NewLine] in
  pieces_ok ps /\
  messages st [(write ps, [AInt (-15); ADirect (Some [97; 98])]); (write ps, [ACopied []; AChar 120])]
  = Ok [[97; 98; 44; 32; 48; 48; 48; 45; 49; 53; 13; 10]; [120; 44; 32; 48; 48; 48; 48; 48; 48; 13; 10]] /\
  arg_shows 10 (AInt (-15)) [45; 49; 53].
Proof.
  split; [cbn; unfold number_ok, field_ok, is_digit; repeat split; cbn; unfold is_digit; try congruence; try lia; repeat constructor; lia|].
  split; [vm_compute; reflexivity|].
  cbn. split; [lia|]. exists [49; 53]. split; [reflexivity|].
  apply (numeral62_more 10 [49] 1 5 53); [apply numeral62_one; [left; lia|lia]|lia|left; lia|lia].
Qed.

(** one message with one field *)
Definition field_message (f : field) (idx : text) (st : formatter) (l : list arg) : outcome text :=
  let! (o, st') := message st (write [Field f idx false]) l in Ok o.

Lemma field_message_ok f idx st l us : 2 <= base st <= 62 -> (length l <= 30)%nat ->
  Forall2 (arg_shows (base st)) l us -> field_ok f -> number_ok idx ->
  field_message f idx st l = Ok (show_field f (argument us (decimal idx))).
Proof.
  intros B L F W N. unfold field_message.
  destruct (message_ok st l us [Field f idx false] B L F) as (st' & E & _).
  - cbn [pieces_ok piece_ok write ends_number]. auto.
  - discriminate.
  - rewrite E. cbn [obind show map concat show_piece]. unfold show. cbn [map concat show_piece].
    rewrite app_nil_r. reflexivity.
Qed.

(** C149: the documented forms of fields, for a text [s] [body] with the sign [s] ([s] is
    empty or minus, and a text without sign does not begin with plus) and width [w]: [{w}] aligns left,
    [{-w}] aligns right, [{+w}] aligns right and writes the sign, [{cw}] fills with c in
    front of the sign, [{-cw}] and [{+cw}] behind it *)
Theorem documented_fields st l us idx ds s body c : 2 <= base st <= 62 -> (length l <= 30)%nat ->
  Forall2 (arg_shows (base st)) l us -> number_ok idx -> number_ok ds -> (49 <= hd 0 ds <= 57) ->
  ~ 49 <= c <= 57 -> c <> 43 -> c <> 45 ->
  argument us (decimal idx) = s ++ body -> (s = [] \/ s = [45]) -> (hd 0 body <> 43 /\ hd 0 body <> 45) ->
  let plus := match s with [] => [43] | _ => s end in
  let pad x used := repeat x (Z.to_nat (decimal ds) - length used) in
  let run f := field_message f idx st l in
  run (mkField None None ds None) = Ok (s ++ body ++ pad 32 (s ++ body)) /\
  run (mkField (Some false) None ds None) = Ok (pad 32 (s ++ body) ++ s ++ body) /\
  run (mkField (Some true) None ds None) = Ok (pad 32 (plus ++ body) ++ plus ++ body) /\
  run (mkField None (Some c) ds None) = Ok (pad c (s ++ body) ++ s ++ body) /\
  run (mkField (Some false) (Some c) ds None) = Ok (s ++ pad c (s ++ body) ++ body) /\
  run (mkField (Some true) (Some c) ds None) = Ok (plus ++ pad c (plus ++ body) ++ body).
Proof.
  intros B L F N (NE & FD & DB) H1 C1 C2 C3 A S H2. cbv zeta.
  assert (P0 : match ds with c :: _ => 49 <= c <= 57 | [] => False end) by (destruct ds; [contradiction|exact H1]).
  assert (Z0 : forall b t, (hd 0 t <> 43 /\ hd 0 t <> 45) -> split_sign b t = (if b : bool then ([43], t) else ([], t))).
  { intros b t [X Y]. destruct t as [|x t]; [destruct b; reflexivity|]. cbn [hd] in *. cbn [split_sign].
    destruct (Z.eqb_spec x 45); [contradiction|]. destruct (Z.eqb_spec x 43); [contradiction|].
    rewrite andb_false_r. cbn [orb]. destruct b; reflexivity. }
  repeat match goal with |- _ /\ _ => split end;
    (rewrite (field_message_ok _ idx st l us B L F); [|unfold field_ok; cbn [f_width f_fill f_sign f_after]; repeat split; auto; congruence|exact N]);
    rewrite A; unfold show_field; cbn [f_width f_fill f_sign f_after is_some andb orb];
    f_equal; destruct S as [->| ->]; cbn [app];
    rewrite ?Z0 by exact H2; cbn [split_sign Z.eqb Pos.eqb orb andb app length Nat.add]; try reflexivity.
Qed.

Print Assumptions documented_fields.

Example documented_fields_ex : (* -42 with width 6 *)
  let st := mkFormatter [] [] [] 10 [10] in
  let run f := field_message f [49] st [ALong (-42)] in
  run (mkField None None [54] None) = Ok [45; 52; 50; 32; 32; 32] /\
  run (mkField (Some true) (Some 48) [54] None) = Ok [45; 48; 48; 48; 52; 50] /\
  number_ok [49] /\ number_ok [54].
Proof. cbn; unfold number_ok, is_digit; repeat split; cbn; try congruence; try lia; repeat constructor; lia. Qed.

(** C150: a field takes exactly its width, unless the text and a sign that is asked for but
    missing take more *)
Theorem field_width st l us f idx o : 2 <= base st <= 62 -> (length l <= 30)%nat ->
  Forall2 (arg_shows (base st)) l us -> field_ok f -> number_ok idx ->
  field_message f idx st l = Ok o ->
  let t := argument us (decimal idx) in
  let extra := match f_sign f, t with
               | Some true, c :: _ => if (c =? 43) || (c =? 45) then 0 else 1
               | Some true, [] => 1
               | _, _ => 0
               end in
  Z.of_nat (length o) = Z.max (decimal (f_width f)) (Z.of_nat (length t) + extra).
Proof.
  intros B L F W N E. rewrite (field_message_ok f idx st l us B L F W N) in E. injection E as <-.
  cbv zeta. set (t := argument us (decimal idx)). clearbody t.
  pose proof (decimal_pos _ (proj1 W)) as DP.
  unfold show_field.
  set (forced := match f_sign f with Some true => true | _ => false end).
  assert (Q : Z.of_nat (length (fst (split_sign forced t)) + length (snd (split_sign forced t)))
              = Z.of_nat (length t) + match f_sign f, t with
               | Some true, c :: _ => if (c =? 43) || (c =? 45) then 0 else 1
               | Some true, [] => 1
               | _, _ => 0
               end).
  { unfold forced. destruct (f_sign f) as [[|]|]; destruct t as [|c t]; cbn [split_sign andb orb fst snd length]; try lia.
    - destruct (c =? 45) eqn:E5, (c =? 43) eqn:E3; cbn [orb fst snd length]; lia.
    - destruct (c =? 45) eqn:E5; cbn [orb fst snd length]; lia.
    - destruct (c =? 45) eqn:E5; cbn [orb fst snd length]; lia. }
  destruct (split_sign forced t) as [sg body]. cbn [fst snd] in Q.
  destruct (is_some (f_sign f) && is_some (f_fill f)); [|destruct (is_some (f_sign f) || is_some (f_fill f))];
    rewrite !app_length, repeat_length; lia.
Qed.

Print Assumptions field_width.

Example field_width_ex :
  field_message (mkField (Some true) None [53] None) [49] (mkFormatter [] [] [] 10 [10]) [AUInt 7] = Ok [32; 32; 32; 43; 55] /\
  field_ok (mkField (Some true) None [53] None) /\ number_ok [49].
Proof. cbn; unfold field_ok, number_ok, is_digit; repeat split; cbn; try congruence; try lia; repeat constructor; lia. Qed.

(** C151: whatever the pattern, well formed or not, the output comes to its end, without an
    exception and without reading outside of the pattern or the arguments *)
Theorem any_pattern_is_safe st ms : 2 <= base st <= 62 ->
  Forall (fun m => (length (snd m) <= 30)%nat /\ exists us, Forall2 (arg_shows (base st)) (snd m) us) ms ->
  exists os, messages st ms = Ok os /\ length os = length ms.
Proof.
  revert st. induction ms as [|[p l] ms IH]; intros st B F; cbn [messages].
  - exists []. auto.
  - apply Forall_cons_iff in F as [[L (us & S)] F]. cbn [snd] in *.
    destruct (message_total st p l us B L S) as (o & st' & E & Bs & _). rewrite E. cbn [obind].
    destruct (IH st') as (os & E2 & L2); [rewrite Bs; exact B|rewrite Bs; exact F|].
    rewrite E2. exists (o :: os). split; [reflexivity|cbn; lia].
Qed.

Print Assumptions any_pattern_is_safe.

Example any_pattern_is_safe_ex : (* "%{+" and "%{5xx}1%" *)
  messages (mkFormatter [] [] [] 10 [10]) [([37; 123; 43], []); ([37; 123; 53; 120; 120; 125; 49; 37], [ACopied [97]])]
  = Ok [[]; [120; 125; 49; 37]].
Proof. reflexivity. Qed.

(** C152: without a pattern the arguments should be shown one after the other; texts given
    by pointer are left out *)
Definition copied (a : arg) : bool := match a with ADirect _ => false | _ => true end.

Lemma empty_pattern_buff l : forall st us st', 2 <= base st <= 62 -> Forall2 (arg_shows (base st)) l us ->
  addArgs st l = Ok st' ->
  buff st' = buff st ++ concat (map snd (filter (fun p => copied (fst p)) (combine l us))) /\ pattern st' = pattern st.
Proof.
  assert (AP : forall st i st', addParam st i = Ok st' ->
     buff st' = buff st /\ pattern st' = pattern st /\ base st' = base st).
  { intros st i st' E. unfold addParam in E. destruct (Nat.leb _ _); [discriminate|]. injection E as <-. auto. }
  assert (SA : forall st t st', setArgChar st t = Ok st' ->
     buff st' = buff st ++ t /\ pattern st' = pattern st /\ base st' = base st).
  { intros st t st' E. unfold setArgChar in E. apply AP in E. cbn in E. exact E. }
  induction l as [|a l IH]; intros st us st' B F E; inversion F as [|? u ? us' S F']; subst; cbn [addArgs] in E.
  - injection E as <-. cbn. rewrite app_nil_r. auto.
  - apply obind_ok in E as (st1 & E1 & E).
    assert (Q : buff st1 = buff st ++ (if copied a then u else []) /\ pattern st1 = pattern st /\ base st1 = base st).
    { destruct a as [[s|]|s|c|v|v|v]; cbn [arg_shows copied] in *; unfold addArg in E1.
      - apply AP in E1. rewrite app_nil_r. exact E1.
      - apply AP in E1. rewrite app_nil_r. exact E1.
      - subst u. apply SA in E1. exact E1.
      - subst u. apply SA in E1. exact E1.
      - destruct S as [V N]. rewrite (signed_ok 32 _ _ _ B ltac:(lia) V N) in E1. apply SA in E1. exact E1.
      - destruct S as [V N]. rewrite (signed_ok 64 _ _ _ B ltac:(lia) V N) in E1. apply SA in E1. exact E1.
      - destruct S as [V N]. rewrite (unsigned_ok _ _ _ B V N) in E1. apply SA in E1. exact E1. }
    destruct Q as (Q1 & Q2 & Q3).
    apply (IH st1 us') in E; [|rewrite Q3; exact B|rewrite Q3; exact F'].
    destruct E as [E2 E3]. split; [|congruence]. rewrite E2, Q1, <- app_assoc. f_equal.
    cbn [combine filter fst]. destruct (copied a); reflexivity.
Qed.

Theorem empty_pattern_refuted st l us : 2 <= base st <= 62 -> (length l <= 30)%nat ->
  Forall2 (arg_shows (base st)) l us ->
  exists st', message st [] l = Ok (concat (map snd (filter (fun p => copied (fst p)) (combine l us))), st').
Proof.
  intros B L F. unfold message.
  destruct (addArgs_ok l (setPattern st []) [] us) as (st1 & E & H & P & _).
  - apply inv_nil.
  - cbn [length]. lia.
  - exact B.
  - exact F.
  - rewrite E. cbn [obind]. apply (empty_pattern_buff l _ us) in E; [|exact B|exact F].
    destruct E as [E1 E2]. unfold output. rewrite E2. cbn [setPattern resetArgs pattern obind].
    rewrite E1. eexists. reflexivity.
Qed.

Print Assumptions empty_pattern_refuted.

Example empty_pattern_refuted_ex : (* fmt() << "ab" << 7 << "c" shows 7 *)
  (let! (o, st) := message (mkFormatter [] [] [] 10 [10]) [] [ADirect (Some [97; 98]); AInt 7; ADirect (Some [99])] in Ok o)
  = Ok [55].
Proof. reflexivity. Qed.

(** when no argument is a text given by pointer, all are shown *)
Theorem empty_pattern_partial st l us : 2 <= base st <= 62 -> (length l <= 30)%nat ->
  Forall2 (arg_shows (base st)) l us -> forallb copied l = true ->
  exists st', message st [] l = Ok (concat us, st').
Proof.
  intros B L F C. destruct (empty_pattern_refuted st l us B L F) as (st' & E). exists st'. rewrite E.
  do 3 f_equal. clear E B L. induction F as [|a u l us S F IH]; [reflexivity|].
  cbn [forallb] in C. apply andb_prop in C as [C1 C2]. cbn [combine filter fst]. rewrite C1. cbn [map snd].
  f_equal. apply IH. exact C2.
Qed.

Print Assumptions empty_pattern_partial.

(** C153: two placeholders side by side, %i%j, should show both arguments; the second one is
    not taken for a placeholder *)
Theorem adjacent_parameters_refuted st l us i j : 2 <= base st <= 62 -> (length l <= 30)%nat ->
  Forall2 (arg_shows (base st)) l us -> number_ok i -> number_ok j ->
  exists st', message st (37 :: i ++ 37 :: j) l = Ok (argument us (decimal i) ++ j, st').
Proof.
  intros B L F NI NJ.
  assert (W : write (Param i true :: map Plain j) = 37 :: i ++ 37 :: j).
  { cbn [write write_piece close]. cbn [app]. rewrite <- app_assoc. cbn [app]. do 3 f_equal.
    induction j as [|c j IH]; [reflexivity|]. clear IH NJ. induction (c :: j) as [|d k IH]; [reflexivity|].
    cbn [map write write_piece app]. rewrite IH. reflexivity. }
  destruct (message_ok st l us (Param i true :: map Plain j) B L F) as (st' & E & _).
  - cbn [pieces_ok piece_ok]. split; [split; [exact NI|discriminate]|].
    destruct NJ as (_ & FD & _). clear W. induction j as [|c j IH]; [exact I|].
    apply Forall_cons_iff in FD as [A FD]. cbn [map pieces_ok piece_ok]. unfold is_digit in A. split; [lia|auto].
  - discriminate.
  - rewrite W in E. exists st'. rewrite E. do 2 f_equal. unfold show. cbn [map concat show_piece]. f_equal.
    clear. induction j as [|c j IH]; [reflexivity|]. cbn [map concat show_piece app]. rewrite IH. reflexivity.
Qed.

Print Assumptions adjacent_parameters_refuted.

Example adjacent_parameters_refuted_ex : (* "%1%2" with 7 and 8 shows 72 *)
  (let! (o, st) := message (mkFormatter [] [] [] 10 [10]) [37; 49; 37; 50] [AInt 7; AInt 8] in Ok o) = Ok [55; 50].
Proof. reflexivity. Qed.

(** closing the first placeholder with a percent sign helps *)
Theorem adjacent_parameters_partial st l us i j : 2 <= base st <= 62 -> (length l <= 30)%nat ->
  Forall2 (arg_shows (base st)) l us -> number_ok i -> number_ok j ->
  exists st', message st (37 :: i ++ 37 :: 37 :: j) l = Ok (argument us (decimal i) ++ argument us (decimal j), st').
Proof.
  intros B L F NI NJ.
  destruct (message_ok st l us [Param i true; Param j false] B L F) as (st' & E & _).
  - cbn [pieces_ok piece_ok write ends_number]. split; [split; [exact NI|discriminate]|]. auto.
  - discriminate.
  - cbn [write write_piece close] in E. rewrite !app_nil_r, <- app_comm_cons, <- app_assoc in E. cbn [app] in E.
    exists st'. rewrite E. unfold show. cbn [map concat show_piece]. rewrite app_nil_r. reflexivity.
Qed.

Print Assumptions adjacent_parameters_partial.

(** C154: a message may have any number of arguments; from the 31st on there is an exception *)
Theorem many_arguments_refuted st p l us : 2 <= base st <= 62 -> (30 < length l)%nat ->
  Forall2 (arg_shows (base st)) l us -> message st p l = Throw.
Proof.
  intros B L F. unfold message.
  assert (A : forall l1 l2 s, addArgs s (l1 ++ l2) = let! s1 := addArgs s l1 in addArgs s1 l2).
  { induction l1 as [|a l1 IH]; intros l2 s; [reflexivity|]. cbn [app addArgs].
    destruct (addArg s a); cbn [obind]; auto. }
  assert (SP : exists l1 a l2, l = l1 ++ a :: l2 /\ length l1 = 30%nat).
  { destruct (nth_error l 30) as [a|] eqn:E; [|apply nth_error_None in E; lia].
    destruct (nth_error_split l 30 E) as (l1 & l2 & -> & L1). eauto. }
  destruct SP as (l1 & a & l2 & -> & L1).
  apply Forall2_app_inv_l in F as (us1 & us2 & F1 & F2 & EU).
  inversion F2 as [|? u ? us3 S F3]; subst.
  rewrite A.
  destruct (addArgs_ok l1 (setPattern st p) [] us1) as (st1 & E & H & P & Q & R).
  - apply inv_nil.
  - cbn [length]. lia.
  - exact B.
  - exact F1.
  - rewrite E. cbn [obind addArgs]. cbn [app] in H.
    pose proof (args_length _ _ _ H) as LP. assert (LF : length l1 = length us1) by (clear - F1; induction F1; cbn; congruence).
    assert (TP : forall i s, paramList s = paramList st1 -> addParam s i = Throw).
    { intros i s ES. unfold addParam. rewrite ES. destruct (Nat.leb_spec param_max (length (paramList st1))); [reflexivity|].
      unfold param_max in *. lia. }
    assert (TS : forall t, setArgChar st1 t = Throw) by (intros t; unfold setArgChar; apply TP; reflexivity).
    assert (BE : base st1 = base st) by (rewrite Q; reflexivity).
    assert (TA : addArg st1 a = Throw).
    { destruct a as [[s|]|s|c|v|v|v]; cbn [arg_shows] in S; unfold addArg; rewrite ?BE; auto.
      - destruct S as [V N]. rewrite (signed_ok 32 _ _ _ B ltac:(lia) V N). apply TS.
      - destruct S as [V N]. rewrite (signed_ok 64 _ _ _ B ltac:(lia) V N). apply TS.
      - destruct S as [V N]. rewrite (unsigned_ok _ _ _ B V N). apply TS. }
    rewrite TA. reflexivity.
Qed.

Print Assumptions many_arguments_refuted.

Example many_arguments_refuted_ex :
  message (mkFormatter [] [] [] 10 [10]) [37; 49] (repeat (AChar 97) 31) = Throw /\
  Forall2 (arg_shows 10) (repeat (AChar 97) 31) (repeat [97] 31).
Proof. split; [reflexivity|]. cbn. repeat constructor. Qed.

(** C155: the documented conditional parameter, %{/a/text}1, should show the text only when the
    first argument matches; it shows "/text}1" whatever the argument is *)
Theorem conditional_parameter_refuted st l us s : 2 <= base st <= 62 -> (length l <= 30)%nat ->
  Forall2 (arg_shows (base st)) l us -> Forall (fun c => c <> 37 /\ c <> 10) s ->
  exists st', message st ([37; 123; 47; 97; 47] ++ s ++ [125; 49]) l = Ok ([47] ++ s ++ [125; 49], st').
Proof.
  intros B L F FS. unfold message.
  destruct (addArgs_ok l (setPattern st ([37; 123; 47; 97; 47] ++ s ++ [125; 49])) [] us) as (st1 & E & H & P & _).
  - apply inv_nil.
  - cbn [length]. lia.
  - exact B.
  - exact F.
  - rewrite E. cbn [obind]. cbn [app] in H. unfold output. rewrite P. cbn [setPattern resetArgs pattern app length].
    set (t := 47 :: s ++ [125; 49]).
    assert (T : write (map Plain t) = t).
    { generalize t. clear. induction t as [|c t IH]; [reflexivity|]. cbn [map write write_piece app]. rewrite IH. reflexivity. }
    assert (FT : pieces_ok (map Plain t)).
    { assert (G : Forall (fun c => c <> 37 /\ c <> 10) t).
      { constructor; [lia|]. apply Forall_app. split; [exact FS|]. repeat constructor; lia. }
      clear - G. induction G as [|c t A G IH]; [exact I|]. cbn [map pieces_ok piece_ok]. auto. }
    pose proof (outputLoop_ok st1 us (newline st1) H eq_refl (map Plain t) (4 + length (s ++ [125; 49])) FT) as Q.
    rewrite T in Q. specialize (Q ltac:(unfold t; cbn [length]; lia)).
    assert (ST : show (newline st1) us (map Plain t) = t).
    { generalize t. clear. unfold show. induction t as [|c t IH]; [reflexivity|].
      cbn [map concat show_piece app]. f_equal. exact IH. }
    rewrite ST in Q.
    exists (resetArgs st1).
    assert (ST2 : forall f, outputLoop (S f) st1 (37 :: 123 :: 47 :: 97 :: t) = let! o := outputLoop f st1 t in Ok ([] ++ o)) by reflexivity.
    cbn [Nat.add] in Q. unfold t in ST2, Q. rewrite ST2, Q. reflexivity.
Qed.

Print Assumptions conditional_parameter_refuted.

Example conditional_parameter_refuted_ex : (* "%{/a/x}1" with "b" *)
  (let! (o, st) := message (mkFormatter [] [] [] 10 [10]) [37; 123; 47; 97; 47; 120; 125; 49] [ADirect (Some [98])] in Ok o)
  = Ok [47; 120; 125; 49].
Proof. reflexivity. Qed.

(** C156: every int and every 64 bit integer is shown by its numeral; the smallest ones are not *)
Theorem smallest_number_refuted st :
  addArg st (AInt (- 2 ^ 31)) = Undef /\ addArg st (ALong (- 2 ^ 63)) = Undef.
Proof. split; reflexivity. Qed.

Print Assumptions smallest_number_refuted.

Theorem numbers_shown_partial st v : 2 <= base st <= 62 ->
  (- 2 ^ 31 < v < 2 ^ 31 -> exists t, number_text (base st) v t /\ addArg st (AInt v) = setArgChar st t) /\
  (- 2 ^ 63 < v < 2 ^ 63 -> exists t, number_text (base st) v t /\ addArg st (ALong v) = setArgChar st t) /\
  (0 <= v < 2 ^ 64 -> exists t, number_text (base st) v t /\ addArg st (AUInt v) = setArgChar st t).
Proof.
  intros B. split; [|split]; intros V;
    (destruct (number_text_exists (base st) v B) as (t & N); [lia|]); exists t; split; auto; unfold addArg.
  - rewrite (signed_ok 32 _ _ _ B ltac:(lia) V N). reflexivity.
  - rewrite (signed_ok 64 _ _ _ B ltac:(lia) V N). reflexivity.
  - rewrite (unsigned_ok _ _ _ B V N). reflexivity.
Qed.

Print Assumptions numbers_shown_partial.

Example numbers_shown_partial_ex :
  numberToStringSigned 64 (-255) 100 16 = Ok [45; 70; 70] /\ numberToStringUnsigned 61 100 62 = Ok [122].
Proof. split; reflexivity. Qed.
