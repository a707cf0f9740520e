(** C43, C157, C158: the binary form of JSON values. *)
From Verif Require Import Common Utf_Model Json_Spec Json_Model BinJson_Spec BinJson_Model BinJson_Proof.
Local Open Scope N_scope.

(** ** C43: what was written is read back *)

(** Partial: for the values of [portable] (see the refutations below for the others) and a table
    of at most 2000 strings; the reader takes exactly the bytes that were written and leaves its
    stack alone. *)
Theorem binjson_roundtrip_partial : forall tab v, (length tab <= 2000)%nat -> portable tab v ->
  exists bs, serializeValue tab v = Ok bs /\
    forall fuel st rest, (length bs < fuel)%nat -> parse fuel tab st (bs ++ rest) = Ok (Some v, st, rest).
Proof.
  intros tab v L P. destruct (portable_carries tab L v P) as (bs & E & _ & _ & R). exists bs. split; [exact E|exact R].
Qed.
Print Assumptions binjson_roundtrip_partial.

Example roundtrip_case :
  let tab := [[110; 97; 109; 101]; [120]] in
  let v := JObj [([], JNull); ([97], JInt (-70000)); ([110; 97; 109; 101], JStr [120]);
                 ([112], JObj [([113], JBool true)])] in
  portable tab v /\
  serializeValue tab v = Ok [4; 21; 0; 8; 1; 97; 18; 112; 17; 1; 0; 40; 41; 8; 1; 112; 4; 8; 1; 113; 2; 5; 5].
Proof.
  split; [|vm_compute; reflexivity].
  assert (K : forall k, forallb (fun b => b <? 256) k = true -> N.of_nat (length k) < 2 ^ 64 -> name_ok k).
  { intros k H L. split; [|exact L]. apply Forall_forall. intros b B. rewrite forallb_forall in H. apply N.ltb_lt. exact (H b B). }
  cbn [portable map fst]. split; [repeat split; left; vm_compute; reflexivity|].
  repeat split; try (apply K; vm_compute; reflexivity); try lia.
  right. right. left. reflexivity.
Qed.

(** An array of such values that is not itself inside another array is read back, but its end
    mark is left in the input. *)
Theorem binjson_array_partial : forall tab l, (length tab <= 2000)%nat -> Forall (portable tab) l ->
  exists bs, serializeValue tab (JArr l) = Ok bs /\
    forall fuel st rest, (length bs < fuel)%nat -> parse fuel tab st (bs ++ rest) = Ok (Some (JArr l), st, 5 :: rest).
Proof.
  intros tab l L P.
  destruct (items_ok tab l) as (b & E & R).
  { eapply Forall_impl; [|exact P]. intros v. apply portable_carries. exact L. }
  change (serializeValue tab (JArr l)) with (let! b := items tab l in Ok (3 :: b ++ [5])). rewrite E. cbn [obind].
  eexists. split; [reflexivity|]. intros fuel st rest F. cbn [length app] in *. rewrite app_length in F. cbn [length] in F.
  destruct fuel as [|f]; [lia|]. rewrite array_step, <- app_assoc. cbn [app]. rewrite R by lia. reflexivity.
Qed.
Print Assumptions binjson_array_partial.

Example array_case : serializeValue [] (JArr [JNull; JInt (-1)]) = Ok [3; 0; 16; 1; 5] /\
  parse 6 [] [] [3; 0; 16; 1; 5] = Ok (Some (JArr [JNull; JInt (-1)]), [], [5]).
Proof. vm_compute. split; reflexivity. Qed.

(** Every positive number changes its sign. *)
Theorem binjson_positive_refuted : forall tab z, (0 < z < 2 ^ 63)%Z ->
  exists bs, serializeValue tab (JInt z) = Ok bs /\
    forall fuel st rest, (0 < fuel)%nat -> parse fuel tab st (bs ++ rest) = Ok (Some (JInt (- z)), st, rest).
Proof.
  intros tab z H. cbn [serializeValue]. unfold serializeInteger.
  destruct (Z.ltb_spec z 0); [lia|]. destruct (Z.ltb_spec 0 z); [|lia].
  eexists. split; [reflexivity|]. intros fuel st rest F. destruct fuel as [|f]; [lia|].
  match goal with |- context [writeNumber 12 ?v] => set (n := v) end.
  assert (N : n = Z.to_N (2 ^ 64 - z)).
  { unfold n. f_equal. lia. }
  clearbody n. subst n.
  destruct (writeNumber_ok 12 (Z.to_N (2 ^ 64 - z)) rest) as (i & bs & E & I & R & _).
  { change (2 ^ 64)%N with 18446744073709551616. lia. }
  rewrite E. cbn [app parse]. rewrite readCode_small by lia. cbn [obind].
  assert (TI : toInteger (Z.to_N (2 ^ 64 - z)) = (- z)%Z).
  { unfold toInteger. rewrite Z2N.id by lia. rewrite Z.mod_small by lia. destruct (Z.ltb_spec (2 ^ 64 - z) (2 ^ 63)); lia. }
  assert (P : parseNumber i false (bs ++ rest) = Ok (JInt (- z), rest)).
  { unfold parseNumber. rewrite R. cbn [obind]. rewrite TI. reflexivity. }
  assert (C : i = 0 \/ i = 1 \/ i = 2 \/ i = 3) by lia.
  destruct C as [->|[->|[->| ->]]]; cbn in P |- *; rewrite P; reflexivity.
Qed.
Print Assumptions binjson_positive_refuted.

(** Every string that is not in the table and not empty is read back as the empty string, and
    its length and text stay in the input. *)
Theorem binjson_string_refuted : forall tab s, s <> [] -> ~ In s tab -> N.of_nat (length s) < 2 ^ 64 ->
  exists c bs, serializeValue tab (JStr s) = Ok (c :: bs) /\ (length s < length bs)%nat /\
    forall fuel st rest, (0 < fuel)%nat -> parse fuel tab st (c :: bs ++ rest) = Ok (Some (JStr []), st, bs ++ rest).
Proof.
  intros tab s NE NI L. cbn [serializeValue]. unfold writeString. rewrite position_not by exact NI.
  destruct (writeNumber_ok 8 (N.of_nat (length s)) [] L) as (i & bs & E & I & _ & LB).
  exists (8 + i), (bs ++ s). split; [destruct s; [contradiction|]; rewrite E; reflexivity|].
  split; [rewrite app_length; lia|]. intros fuel st rest F. destruct fuel as [|f]; [lia|].
  set (r := (bs ++ s) ++ rest). cbn [parse]. rewrite readCode_small by lia. cbn [obind].
  assert (B : blockRead 0 r = Ok ([], r)) by (unfold blockRead; destruct (N.leb_spec 0 (N.of_nat (length r))); [reflexivity|lia]).
  assert (C : i = 0 \/ i = 1 \/ i = 2 \/ i = 3) by lia.
  destruct C as [->|[->|[->| ->]]]; cbn - [blockRead]; unfold parseString; cbn - [blockRead]; rewrite B; reflexivity.
Qed.
Print Assumptions binjson_string_refuted.

(** An array inside an array ends both: what follows it is lost. *)
Theorem binjson_nested_refuted : forall tab l v, (length tab <= 2000)%nat -> Forall (portable tab) l -> portable tab v ->
  exists bs, serializeValue tab (JArr [JArr l; v]) = Ok bs /\
    forall fuel, (length bs < fuel)%nat -> exists rest, parse fuel tab [] bs = Ok (Some (JArr [JArr l]), [], rest) /\ rest <> [].
Proof.
  intros tab l v L P V.
  destruct (items_ok tab l) as (b & E & R).
  { eapply Forall_impl; [|exact P]. intros x. apply portable_carries. exact L. }
  destruct (portable_carries tab L v V) as (a & EA & _).
  change (serializeValue tab (JArr [JArr l; v])) with
    (let! bb := (let! x := (let! b := items tab l in Ok (3 :: b ++ [5])) in
                 let! y := (let! z := serializeValue tab v in Ok (z ++ [])) in Ok (x ++ y)) in Ok (3 :: bb ++ [5])).
  rewrite E, EA. cbn [obind]. rewrite app_nil_r.
  eexists. split; [reflexivity|]. intros fuel F. exists (5 :: a ++ [5]). split; [|discriminate].
  cbn [length app] in *. rewrite !app_length in F. cbn [length] in F.
  destruct fuel as [|[|[|f]]]; try lia. rewrite array_step, <- !app_assoc. cbn [app].
  cbn [parseArray]. cbn [getByte obind N.eqb Pos.eqb]. rewrite array_step.
  rewrite R by lia. cbn [obind getByte N.eqb Pos.eqb]. destruct f as [|f]; [lia|]. reflexivity.
Qed.
Print Assumptions binjson_nested_refuted.

Example nested_case :
  serializeValue [] (JArr [JArr [JNull]; JBool true]) = Ok [3; 3; 0; 5; 2; 5] /\
  parse 7 [] [] [3; 3; 0; 5; 2; 5] = Ok (Some (JArr [JArr [JNull]]), [], [5; 2; 5]).
Proof. vm_compute. split; reflexivity. Qed.

(** ** C157: no input breaks the reader *)

(** Refuted: the code that takes a value from the stack is obeyed when the stack is empty, and a
    reference beyond the stack is followed. *)
Theorem binjson_reader_refuted : forall fuel tab n rest, (0 < fuel)%nat -> n < 256 ->
  parse fuel tab [] (7 :: rest) = Undef /\ parse fuel tab [] (28 :: n :: rest) = Undef.
Proof.
  intros fuel tab n rest F H. destruct fuel as [|f]; [lia|]. cbn [parse]. rewrite !readCode_small by lia. split; [reflexivity|].
  cbn [obind]. cbn - [N.shiftl N.add]. destruct (N.to_nat (n + N.shiftl 0 8)); reflexivity.
Qed.
Print Assumptions binjson_reader_refuted.

(** ** C158: reading ends *)

(** Whatever the input, the reader stops (with a value, an exception or an error) after a number
    of steps bounded by the length of the input; a value uses up at least one byte. *)
Theorem binjson_reading_ends : forall fuel tab st bs, (2 * length bs < fuel)%nat ->
  parse fuel tab st bs <> NoFuel /\
  (forall v st' rest, parse fuel tab st bs = Ok (v, st', rest) -> (length rest < length bs)%nat).
Proof.
  intros fuel tab st bs F. pose proof (proj1 (reading_ends fuel tab st bs) F) as E.
  split; [intros X; rewrite X in E; exact E|]. intros v st' rest X. rewrite X in E. exact E.
Qed.
Print Assumptions binjson_reading_ends.

Example reading_ends_case : parse 9 [] [] [3; 3; 3; 3] = Throw /\ parse 5 [] [] [6; 0] = Throw /\
  parse 7 [] [] [6; 2; 7] = Ok (Some (JBool true), [], []).
Proof. vm_compute. repeat split; reflexivity. Qed.
