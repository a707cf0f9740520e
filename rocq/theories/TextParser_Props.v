(** Properties of TextParser (base/text/textParser.h). *)
From Coq Require Import ZArith String Ascii ZifyBool.
From Verif Require Import Common TextParser_Spec TextParser_Model TextParser_Proof.
Local Open Scope Z_scope.

Fixpoint txt (s : string) : list Z :=
  match s with EmptyString => [] | String c t => Z.of_nat (nat_of_ascii c) :: txt t end.

(** ** C220: a pattern of texts, blanks and fields is accepted exactly if the text matches,
    and the fields hold the texts of the first match (shortest searched fields first) *)
Theorem parser_matches (nl : list Z) (is : list item) (src : list Z) (fuel : nat) :
  wf is -> (4 * length (pattern is) + length src < fuel)%nat ->
  exists b st, run nl [] fuel (pattern is) src = Ok (b, st) /\
    (b = true <-> exists fs, matches is src fs) /\
    (b = true -> exists fs, matches is src fs /\ (forall gs, matches is src gs -> sooner fs gs) /\
                 forall n t, n <> 0%nat -> last_field fs n = Some t -> result st n = Ok t).
Proof.
  intros W F. destruct (parse_ok nl is W src (mkTp [] []) fuel F) as (b & s' & st & E & _ & _ & _ & R).
  exists b, st. unfold run. rewrite E. split; [reflexivity|].
  destruct (smatch is src) as [fs|] eqn:M.
  - destruct R as [-> R]. apply smatch_sound in M as M'; [|exact W]. split; [split; eauto|]. intros _. exists fs.
    split; [exact M'|]. split.
    + intros gs G. destruct (smatch_complete is src gs G W) as (hs & E1 & E2). congruence.
    + intros n t N L. apply holds_result; auto.
  - subst b. split; [|easy]. split; [easy|]. intros (fs & G).
    destruct (smatch_complete is src fs G W) as (hs & E1 & _). congruence.
Qed.
Print Assumptions parser_matches.
(** "%1=%[a-z0-9]2, %u3%" and " key=12=ab1, 42 rest": the search of field 1 has to go on after
    the first equality sign *)
Definition ex_items : list item :=
  [Blanks; Field Any NoLimits (txt "1") false; Text 61; Field (Set_ [Range 97 122; Range 48 57]) (Min (txt "2")) (txt "2") false;
   Text 44; Blanks; Field Unsigned NoLimits (txt "3") true; Rest].
Example ex_wf : wf ex_items.
Proof.
  assert (N : forall c, digit c = true -> numeral [c]) by (intros c H; split; [easy|constructor; [exact H|constructor]]).
  unfold ex_items. cbn [wf wf_kind wf_limits].
  split; [exact I|]. split; [exact I|]. split; [now apply N|]. split; [intros _; split; [reflexivity|easy]|].
  split; [|split; [now apply N|split; [now apply N|split; [intros _; split; [reflexivity|easy]|]]]].
  - clear N. split; [easy|]. repeat apply Forall_cons; [| |apply Forall_nil]; split; unfold plain; cbn; intuition discriminate.
  - split; [exact I|]. split; [exact I|]. split; [now apply N|]. split; [easy|reflexivity].
Qed.
Example ex_text : pattern ex_items = txt " %1=%(2,*)[a-z0-9]2, %u3%%".
Proof. reflexivity. Qed.
Example ex_run : let r := run [10] [] 200 (pattern ex_items) (txt " key=1=ab1, 42 rest") in
  (let! (b, st) := r in let! x := result st 1 in let! y := result st 2 in let! z := resultNat st 3 in Ok (b, x, y, z)) =
  Ok (true, txt "key=1", txt "ab1", 42).
Proof. vm_compute. reflexivity. Qed.
Example ex_fail : (let! (b, _) := run [10] [] 200 (pattern ex_items) (txt " key=1=a, 42") in Ok b) = Ok false.
Proof. vm_compute. reflexivity. Qed.

(** ** C221: a quoted field gives back the quoted text *)
Theorem parser_quoted (nl : list Z) (q e : Z) (t : list Z) (n : list Z) (is : list item) (s : list Z) (fuel : nat) :
  wf is -> numeral n -> number n <> 0%nat -> ~ In (number n) (ids is) ->
  (q = e -> match s with c :: _ => c <> q | [] => True end) ->
  (4 * length (n ++ [37%Z] ++ pattern is) + length s + 10 <= fuel)%nat ->
  exists b st, run nl [] fuel ([37; 39; q; e] ++ n ++ [37] ++ pattern is) (quoted q e t ++ s) = Ok (b, st) /\
    (b = true <-> exists fs, matches is s fs) /\
    (b = true -> result st (number n) = Ok t /\
                 exists fs, matches is s fs /\ forall m u, m <> 0%nat -> last_field fs m = Some u -> result st m = Ok u).
Proof.
  intros W Hn N0 Ni Hs F.
  assert (C : closedOk true is) by easy.
  destruct (quoted_ok nl q e t is n true s (mkTp [] []) fuel W Hn C Hs F) as (b & s' & st & E & _ & _ & _ & R).
  exists b, st. unfold run. change ([37; 39; q; e] ++ n ++ [37] ++ pattern is) with (37 :: 39 :: q :: e :: tailText n true is).
  rewrite E. split; [reflexivity|].
  destruct (smatch is s) as [fs|] eqn:M; cbn [addf option_map] in R.
  - destruct R as [-> R]. apply smatch_sound in M as M'; [|exact W]. split; [split; eauto|]. intros _.
    split.
    + apply holds_result; [exact N0|]. apply R; [exact N0|]. rewrite last_field_cons. cbn [fst snd]. rewrite Nat.eqb_refl.
      destruct (last_field fs (number n)) eqn:L; [|reflexivity]. exfalso. apply Ni. rewrite <- (smatch_ids is s fs M W).
      clear -L. induction fs as [|f fs IH]; [easy|]. rewrite last_field_cons in L. cbn [map In].
      destruct (last_field fs (number n)); [right; apply IH; congruence|].
      destruct (Nat.eqb_spec (fst f) (number n)); [left; assumption|easy].
    + exists fs. split; [exact M'|]. intros m u Hm L. apply holds_result; [exact Hm|]. apply R; [exact Hm|].
      rewrite last_field_cons, L. reflexivity.
  - subst b. split; [|easy]. split; [easy|]. intros (fs & G).
    destruct (smatch_complete is s fs G W) as (hs & E1 & _). congruence.
Qed.
Print Assumptions parser_quoted.
Example ex_quoted : (let! (b, st) := run [10] [] 200 (txt "%'""\1%, %2") (txt """a \""b\"" \\ c"", x") in
    let! x := result st 1 in let! y := result st 2 in Ok (b, x, y)) = Ok (true, txt "a ""b"" \ c", txt "x").
Proof. vm_compute. reflexivity. Qed.
Example ex_doubled : quoted 34 34 (txt "say ""hi""") = txt """say """"hi""""""" /\
  (let! (b, st) := run [10] [] 200 (txt "%'""""1%") (txt """say """"hi""""""") in let! x := result st 1 in Ok (b, x)) =
  Ok (true, txt "say ""hi""").
Proof. split; vm_compute; reflexivity. Qed.

(** ** C222: a number field gives its decimal value *)
Theorem parser_number (nl : list Z) (ds : list Z) (fuel : nat) : numeral ds -> decimal ds < 2 ^ 64 ->
  (4 * 3 + length ds < fuel)%nat ->
  exists st, run nl [] fuel (txt "%u1") ds = Ok (true, st) /\ resultNat st 1 = Ok (decimal ds).
Proof.
  intros [N D] B F.
  set (is := [Field Unsigned NoLimits (txt "1") false]).
  assert (W : wf is).
  { unfold is. cbn. split; [exact I|]. split; [exact I|]. split; [|split; [easy|exact I]].
    split; [easy|]. constructor; [reflexivity|constructor]. }
  assert (T : take Unsigned None ds = Some (ds, [])).
  { cbn [take]. unfold munch_number.
    assert (Q : munch digit None ds = (ds, [])).
    { clear -D. induction D as [|c ds Hc D IH]; [reflexivity|]. cbn [munch option_map]. now rewrite Hc, IH. }
    destruct ds as [|c ds']; [easy|]. rewrite andb_false_r, Q. reflexivity. }
  assert (M : smatch is ds = Some [(1%nat, ds)]).
  { unfold is. rewrite smatch_take by easy. cbn [hi]. rewrite T. destruct ds; [easy|]. reflexivity. }
  destruct (parse_ok nl is W ds (mkTp [] []) fuel F) as (b & s' & st & E & _ & _ & _ & R).
  rewrite M in R. destruct R as [-> R]. exists st. unfold run. change (txt "%u1") with (pattern is). rewrite E.
  split; [reflexivity|]. unfold resultNat. rewrite (holds_result st 1 ds); [|lia|apply R; [lia|reflexivity]].
  cbn [obind]. rewrite toUnsigned_ok by (split; assumption). f_equal. apply Z.mod_small. split; [|exact B].
  unfold decimal. assert (G : forall l a, Forall (fun c => digit c = true) l -> 0 <= a ->
    0 <= fold_left (fun a c => a * 10 + (c - 48)) l a).
  { clear. induction l as [|c l IH]; intros a Fl Ha; [exact Ha|]. apply Forall_cons_iff in Fl as [Hc Fl]. unfold digit in Hc.
    cbn [fold_left]. apply IH; [exact Fl|lia]. }
  apply G; [exact D|lia].
Qed.
Print Assumptions parser_number.
Example ex_number : numeral (txt "18446744073709551615") /\ decimal (txt "18446744073709551615") = 2 ^ 64 - 1.
Proof. split; [split; [easy|]; repeat constructor|reflexivity]. Qed.

(** ** C223, refuted: a set with ^ and a range does not take the characters outside the range;
    it takes exactly those up to the end of the range, those in the range included *)
Theorem parser_negated_range_refuted (nl : list Z) (a b c : Z) : a <= b -> a <> 92 -> a <> 93 -> b <> 93 ->
  forall fuel, (12 <= fuel)%nat ->
  exists st, run nl [] fuel ([37; 91; 94; a; 45; b; 93; 49]) [c] = Ok (c <=? b, st).
Proof.
  intros Hab A1 A2 B1 fuel Hf. do 12 (destruct fuel as [|fuel]; [lia|]). unfold run. rewrite parse_S.
  cbn [Z.eqb Pos.eqb escaped orb]. rewrite arg_set, charList_S.
  assert (H : charListHead [94; a; 45; b; 93; 49] = Ok (Some (false, false, [a; 45; b], [49]))).
  { unfold charListHead. cbn [Z.eqb Pos.eqb obind]. replace (a =? 92) with false by lia. cbn [obind takeWhileMax].
    cbn [under andb Z.eqb Pos.eqb negb dec option_map]. replace (b =? 93) with false by lia. reflexivity. }
  rewrite H. cbn [obind andb]. rewrite loop_S. cbn zeta.
  assert (I : eqb (inList (S (length [a; 45; b])) false c [a; 45; b]) false = (c <=? b)).
  { cbn [inList length]. cbn [Z.eqb Pos.eqb]. destruct (Z.leb_spec a c), (Z.leb_spec c b); try reflexivity; lia. }
  rewrite I. destruct (c <=? b).
  - eexists. cbn [newStep noAst rmax under data length]. cbn [Nat.ltb Nat.leb andb].
    rewrite loop_S. vm_compute. reflexivity.
  - eexists. vm_compute. reflexivity.
Qed.
Print Assumptions parser_negated_range_refuted.
(** the documented example "extract until digit is reached" *)
Example ex_negated : (let! (b, _) := run [10] [] 100 (txt "%[^0-9]1%%") (txt "abc1") in Ok b) = Ok false.
Proof. vm_compute. reflexivity. Qed.

(** ** C224, refuted: alternatives.  A text that is the second alternative is rejected if it
    starts as the first one does; and a text that is no alternative, but the first and the
    second one in a row, is accepted *)
Theorem parser_alternatives_refuted (nl : list Z) (a b c : Z) :
  special a = false -> special b = false -> special c = false -> b <> c ->
  forall fuel, (20 <= fuel)%nat ->
  (a <> c -> exists st, run nl [] fuel [37; 60; a; b; 37; 124; a; c; 37; 62] [a; c] = Ok (false, st)) /\
  (a <> b -> a <> c -> exists st, run nl [] fuel [37; 60; a; 37; 124; b; 37; 62; c] [a; b; c] = Ok (true, st)).
Proof.
  intros A B C D fuel Hf. do 20 (destruct fuel as [|fuel]; [lia|]).
  assert (Lit : forall x f pat src st, special x = false -> parse nl [] (S f) (x :: pat) src st =
    match src with y :: src' => if y =? x then parse nl [] f pat src' st else Ok (false, src, st) | [] => Ok (false, src, st) end).
  { intros x f pat src st S_. unfold special in S_. rewrite parse_S.
    replace (x =? 37) with false by lia. replace (x =? 8) with false by lia. replace (x =? 9) with false by lia.
    replace (x =? 10) with false by lia. replace (x =? 32) with false by lia. replace (x =? 95) with false by lia. reflexivity. }
  assert (Alt : forall f pat src st, parse nl [] (S (S f)) (37 :: 60 :: pat) src st = parseAlternateBranch nl [] f pat src st) by reflexivity.
  assert (AltS : forall f pat src st, parseAlternateBranch nl [] (S f) pat src st =
      let! (ok, src', st') := parse nl [] f pat src st in
      if ok : bool then Ok (true, src', st')
      else
        let! (x, pat') := skipToNextBranch f pat in
        if x : bool then parseAlternateBranch nl [] f pat' src' st' else parse nl [] f pat' src' st') by reflexivity.
  assert (Bar : forall f pat src st, parse nl [] (S (S f)) (37 :: 124 :: pat) src st =
      let! r := skipAllBranches f pat in parse nl [] f r src st) by reflexivity.
  assert (Gt : forall f pat src st, parse nl [] (S (S f)) (37 :: 62 :: pat) src st = parse nl [] f pat src st) by reflexivity.
  assert (NotP : forall x, special x = false -> x <> 37) by (unfold special; intros; lia).
  assert (Sk1 : forall f x pat, special x = false -> skipToNextBranch (S f) (x :: pat) = skipToNextBranch f pat).
  { intros f x pat S_. apply NotP in S_. destruct x as [|p|p]; try reflexivity. do 6 (destruct p as [p|p|]; try reflexivity). contradiction. }
  split.
  - intros Dac. exists (mkTp [] []). unfold run. rewrite Alt, AltS, Lit by exact A. rewrite Z.eqb_refl, Lit by exact B.
    replace (c =? b) with false by lia. cbn [obind]. rewrite !Sk1 by assumption.
    change (skipToNextBranch _ (37 :: 124 :: _)) with (Ok (true, [a; c; 37; 62])). cbn [obind].
    rewrite AltS, Lit by exact A. replace (c =? a) with false by lia. cbn [obind]. rewrite !Sk1 by assumption.
    change (skipToNextBranch _ [37; 62]) with (Ok (false, @nil Z)). cbn [obind]. rewrite parse_S. reflexivity.
  - intros Dab Dac. exists (mkTp [] []). unfold run. rewrite Alt, AltS, Lit by exact A. rewrite Z.eqb_refl, Bar.
    assert (SA : forall f, skipAllBranches (S (S (S f))) [b; 37; 62; c] = Ok [c]).
    { intros f. transitivity (let! (x, p) := skipToNextBranch (S (S f)) [b; 37; 62; c] in if x : bool then skipAllBranches (S (S f)) p else Ok p); [reflexivity|].
      rewrite Sk1 by exact B. reflexivity. }
    rewrite SA. cbn [obind]. rewrite Lit by exact C. replace (b =? c) with false by lia. cbn [obind].
    rewrite !Sk1 by assumption. change (skipToNextBranch _ (37 :: 124 :: _)) with (Ok (true, [b; 37; 62; c])). cbn [obind].
    rewrite AltS, Lit by exact B. rewrite Z.eqb_refl, Gt, Lit by exact C. rewrite Z.eqb_refl, parse_S. reflexivity.
Qed.
Print Assumptions parser_alternatives_refuted.
Example ex_alt : (let! (b, _) := run [10] [] 100 (txt "%<get%|go%>") (txt "go") in Ok b) = Ok false /\
  (let! (b, _) := run [10] [] 100 (txt "%<in%|out%> end") (txt "inout end") in Ok b) = Ok true.
Proof. split; vm_compute; reflexivity. Qed.

(** ** C225, refuted: a call does not always come to an end: never if an alternative that is
    passed over has a field number of two digits *)
Theorem parser_terminates_refuted (nl : list Z) (fuel : nat) :
  run nl [] fuel (txt "%<a%12%%|b%>") (txt "b") = NoFuel.
Proof.
  assert (Loop : forall f p, skipDigits f (50 :: p) = NoFuel).
  { induction f as [|f IH]; intros p; [reflexivity|]. cbn [skipDigits Z.eqb Pos.eqb isDigit andb Z.leb Z.compare Pos.compare Pos.compare_cont]. apply IH. }
  assert (SkP : forall f p, skipPattern f (49 :: 50 :: p) = NoFuel).
  { intros [|f] p; [reflexivity|]. cbn [skipPattern Z.eqb Pos.eqb orb isDigit andb Z.leb Z.compare Pos.compare Pos.compare_cont].
    rewrite Loop. reflexivity. }
  assert (SkB : forall f p, skipToNextBranch f (97 :: 37 :: 49 :: 50 :: p) = NoFuel).
  { intros [|[|f]] p; [reflexivity|reflexivity|].
    transitivity (let! r := skipPattern f (49 :: 50 :: p) in skipToNextBranch f r); [reflexivity|]. rewrite SkP. reflexivity. }
  unfold run. destruct fuel as [|[|[|f]]]; [reflexivity..|].
  change (txt "%<a%12%%|b%>") with (37 :: 60 :: 97 :: 37 :: 49 :: 50 :: txt "%%|b%>").
  assert (E : parse nl [] (S (S (S f))) (37 :: 60 :: 97 :: 37 :: 49 :: 50 :: txt "%%|b%>") (txt "b") {| data := []; frags := [] |} =
    let! (ok, src', st') := parse nl [] f (97 :: 37 :: 49 :: 50 :: txt "%%|b%>") (txt "b") {| data := []; frags := [] |} in
    if ok : bool then Ok (true, src', st')
    else
      let! (x, pat') := skipToNextBranch f (97 :: 37 :: 49 :: 50 :: txt "%%|b%>") in
      if x : bool then parseAlternateBranch nl [] f pat' src' st' else parse nl [] f pat' src' st') by reflexivity.
  rewrite E. destruct f as [|f]; [reflexivity|].
  assert (Ep : parse nl [] (S f) (97 :: 37 :: 49 :: 50 :: txt "%%|b%>") (txt "b") {| data := []; frags := [] |} =
    Ok (false, txt "b", {| data := []; frags := [] |})) by reflexivity.
  rewrite Ep. cbn [obind]. rewrite SkB. reflexivity.
Qed.
Print Assumptions parser_terminates_refuted.
Example ex_one_digit : (let! (b, _) := run [10] [] 100 (txt "%<a%1%%|b%>") (txt "b") in Ok b) = Ok true.
Proof. vm_compute. reflexivity. Qed.

(** ** C226, refuted: a field number used twice: the texts are not merged, the last one stays *)
Theorem parser_merge_refuted (nl : list Z) (t u : list Z) :
  t <> [] -> u <> [] -> ~ In 44 t -> ~ In 44 u -> forall fuel, (4 * 5 + length (t ++ [44%Z] ++ u) < fuel)%nat ->
  exists st, run nl [] fuel (txt "%1,%1") (t ++ [44] ++ u) = Ok (true, st) /\ result st 1 = Ok u.
Proof.
  intros Nt Nu It Iu fuel Hf.
  set (is := [Field Any NoLimits (txt "1") false; Text 44; Field Any NoLimits (txt "1") false]).
  assert (Wn : numeral (txt "1")) by (split; [easy|constructor; [reflexivity|constructor]]).
  assert (W : wf is) by (unfold is; cbn; repeat (split; [try exact I; try exact Wn; try easy|]); exact I).
  destruct (parser_matches nl is (t ++ [44] ++ u) fuel W Hf) as (b & st & E & B & R).
  assert (M : matches is (t ++ [44] ++ u) [(1%nat, t); (1%nat, u)]).
  { unfold is. apply (M_any Any NoLimits (txt "1")); [now left|destruct t; [easy|cbn; lia]|exact I|]. cbn [app]. constructor.
    rewrite <- (app_nil_r u) at 1. apply (M_any Any NoLimits (txt "1")); [now left|destruct u; [easy|cbn; lia]|exact I|constructor]. }
  destruct B as [_ B]. rewrite (B (ex_intro _ _ M)) in *. destruct (R eq_refl) as (fs & M1 & _ & F).
  exists st. split; [exact E|]. apply F; [lia|].
  (* the only match of this text *)
  unfold is in M1. inversion M1 as [| | | | |k1 l1 n1 c1 is1 t1 s1 fs1 K1 L1 H1 M2 X1 X2 X3|k1 l1 n1 c1 is1 s0 t1 s1 fs1 T1]; [|discriminate T1]. subst.
  inversion M2 as [|x is2 s2 fs2 M3 Y1 Y2| | | | |]; subst.
  inversion M3 as [| | | | |k3 l3 n3 c3 is3 t3 s3 fs3 K3 L3 H3 M4 Z1 Z2 Z3|k3 l3 n3 c3 is3 s30 t3 s3 fs3 T3]; [|discriminate T3]. subst.
  inversion M4; subst. rewrite app_nil_r in X2.
  cbn [last_field fold_left fst snd]. change (number (txt "1")) with 1%nat. cbn [Nat.eqb].
  f_equal. clear -X2 It Iu. revert t1 X2; induction t as [|c t IH]; intros t1 X2.
  - destruct t1 as [|d t1]; cbn [app] in X2; [now inversion X2|]. inversion X2; subst. exfalso. apply Iu. apply in_or_app. right. now left.
  - destruct t1 as [|d t1]; cbn [app] in X2; inversion X2; subst; [exfalso; apply It; now left|].
    apply (IH ltac:(intros Q; apply It; now right) t1). assumption.
Qed.
Print Assumptions parser_merge_refuted.

(** ** C227, refuted: an unsigned number with a plus sign, which the documentation allows, is
    rejected *)
Theorem parser_plus_refuted (nl : list Z) (ds : list Z) (fuel : nat) : (4 * 3 + length (43%Z :: ds) < fuel)%nat ->
  exists st, run nl [] fuel (txt "%u1") (43 :: ds) = Ok (false, st).
Proof.
  intros F. set (is := [Field Unsigned NoLimits (txt "1") false]).
  assert (W : wf is).
  { unfold is. cbn. split; [exact I|]. split; [exact I|]. split; [|split; [easy|exact I]].
    split; [easy|]. constructor; [reflexivity|constructor]. }
  destruct (parse_ok nl is W (43 :: ds) (mkTp [] []) fuel F) as (b & s' & st & E & _ & _ & _ & R).
  exists st. unfold run. change (txt "%u1") with (pattern is). rewrite E. cbn [obind]. f_equal. f_equal. exact R.
Qed.
Print Assumptions parser_plus_refuted.

(** ** C228, refuted: quoted fields: a text that ends with the escape sign makes the call throw,
    and a text without the final quote sign is accepted *)
Theorem parser_quote_refuted (nl : list Z) (q e : Z) (t : list Z) : q <> e ->
  forall fuel, (20 <= fuel)%nat ->
  run nl [] fuel [37; 39; q; e; 49] (q :: quoteBody q e t ++ [e]) = Throw /\
  exists st, run nl [] fuel [37; 39; q; e; 49] (q :: quoteBody q e t) = Ok (true, st) /\ result st 1 = Ok t.
Proof.
  intros D fuel Hf.
  assert (Loop : forall tail st, quotedLoop q e (quoteBody q e t ++ tail) st = quotedLoop q e tail (appData st t)).
  { intros tail. induction t as [|c u IH]; intros st.
    - cbn [quoteBody map concat app]. unfold appData, setData. rewrite app_nil_r. now destruct st.
    - change (quoteBody q e (c :: u)) with ((if (c =? q) || (c =? e) then [e; c] else [c]) ++ quoteBody q e u).
      replace (appData st (c :: u)) with (appData (addData st c) u)
        by (unfold appData, addData, setData; cbn; now rewrite <- app_assoc).
      destruct (Z.eqb_spec c q) as [->|Dq]; cbn [orb].
      + cbn [app quotedLoop]. rewrite !Z.eqb_refl. apply IH.
      + destruct (Z.eqb_spec c e) as [->|De]; cbn [app quotedLoop].
        * rewrite Z.eqb_refl. destruct (Z.eqb_spec e q); [contradiction|].
          destruct (Z.eqb_spec q e); [contradiction|]. apply IH.
        * destruct (Z.eqb_spec c e); [contradiction|]. destruct (Z.eqb_spec c q); [contradiction|]. apply IH. }
  destruct fuel as [|[|[|f]]]; [lia..|].
  assert (E : forall src, run nl [] (S (S (S f))) [37; 39; q; e; 49] (q :: src) =
    let! (ok, _, st) := (let! (src, st') := quotedLoop q e src (mkTp [] []) in parseArg nl [] f [49] src st' (noAst (newStep (mkTp [] [])))) in Ok (ok, st)).
  { intros src. unfold run. f_equal.
    transitivity (if q =? q then
       let! (src, st') := quotedLoop q e src (mkTp [] []) in parseArg nl [] f [49] src st' (noAst (newStep (mkTp [] [])))
       else Ok (false, q :: src, mkTp [] [])); [reflexivity|]. now rewrite Z.eqb_refl. }
  rewrite !E. rewrite Loop. split.
  - cbn [quotedLoop]. rewrite Z.eqb_refl. replace (q =? e) with false by lia. reflexivity.
  - rewrite <- (app_nil_r (quoteBody q e t)), Loop. cbn [quotedLoop obind].
    destruct f as [|f]; [lia|]. pose proof (finish nl [] [49] false I (parse_ok nl [] I)) as Q.
    specialize (Q ltac:(split; [easy|constructor; [reflexivity|constructor]]) ltac:(intros _; exact I)).
    specialize (Q (S f) [] (appData (mkTp [] []) t) (noAst (newStep (mkTp [] []))) [] t t ltac:(cbn; lia) eq_refl eq_refl eq_refl ltac:(auto)).
    destruct Q as (b & s' & st & Eq & _ & _ & _ & R). change (tailText [49] false []) with [49] in Eq. rewrite Eq.
    cbn [smatch addf option_map] in R. destruct R as [-> R]. cbn [obind]. exists st. split; [reflexivity|].
    apply holds_result; [lia|]. apply R; [lia|reflexivity].
Qed.
Print Assumptions parser_quote_refuted.

(** ** C229, refuted: length limits of a searching set: if the text is not stored (field 0), a
    set with limits (1,2) takes texts of any length *)
Theorem parser_limit_refuted (nl : list Z) (src : list Z) : src <> [] -> Forall (fun c => 97 <= c <= 122) src ->
  forall fuel, (30 + length src <= fuel)%nat ->
  exists st, run nl [] fuel (txt "%(1,2)[*a-z]0") src = Ok (true, st).
Proof.
  intros N F fuel Hf. do 4 (destruct fuel as [|fuel]; [lia|]).
  set (ss := mkStep 0 1 (Some 2%nat) false).
  assert (E : run nl [] (S (S (S (S fuel)))) (txt "%(1,2)[*a-z]0") src =
    let! (ok, _, st) := charListLoop nl [] fuel 0 true true [97; 45; 122] [48] src (mkTp [] []) ss in Ok (ok, st)) by reflexivity.
  rewrite E. clear E. assert (Hf' : (20 + length src <= fuel)%nat) by lia. clear Hf.
  revert N fuel Hf'. induction F as [|c s Hc F IH]; intros N fuel Hf; [contradiction|].
  cbn [length] in Hf. destruct fuel as [|fuel]; [lia|]. rewrite loop_S. cbn zeta.
  assert (I : inList (S (length [97; 45; 122])) true c [97; 45; 122] = true).
  { cbn [inList length]. cbn [Z.eqb Pos.eqb]. replace (97 <=? c) with true by lia. replace (c <=? 122) with true by lia. reflexivity. }
  rewrite I. cbn [data length Nat.ltb Nat.leb Nat.sub ss rmax under]. cbn [eqb andb addData setData data app length Nat.ltb Nat.leb Nat.sub rmin orb].
  destruct fuel as [|[|fuel]]; [lia..|]. rewrite enter_S. cbn zeta.
  assert (A : parseArg nl [] (S fuel) [48] s (addData (mkTp [] []) c) ss = Ok (match s with [] => true | _ => false end, s, mkTp [] [])).
  { destruct fuel as [|fuel]; [lia|]. reflexivity. }
  change (setData {| data := []; frags := [] |} [c]) with (addData (mkTp [] []) c). rewrite A. cbn [obind].
  destruct s as [|d s].
  - exists (mkTp [] []). reflexivity.
  - cbn [obind addData setData data app length frags Nat.ltb Nat.leb]. apply IH; [easy|]. cbn [length] in *. lia.
Qed.
Print Assumptions parser_limit_refuted.
Example ex_limit : (let! (b, _) := run [10] [] 100 (txt "%(1,2)[*a-z]0") (txt "abcdefgh") in Ok b) = Ok true /\
  (let! (b, _) := run [10] [] 100 (txt "%(1,2)[a-z]0") (txt "abcdefgh") in Ok b) = Ok false.
Proof. split; vm_compute; reflexivity. Qed.
