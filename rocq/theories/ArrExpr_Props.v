(** C169-C185: array expressions. *)
From Verif Require Import Common ArrExpr_Spec ArrExpr_Model ArrExpr_Proof.

(** a total order of the items *)
Definition ordered {T : Type} (icmp : T -> T -> comparison) : Prop :=
  (forall x y, icmp x y = Eq <-> x = y) /\ (forall x y, icmp y x = CompOpp (icmp x y)).

(** ** C169: length and items of an expression *)
Theorem expression_items : forall T (a : aexp T), sound a ->
  len a = length (items a) /\ forall i x, nth_error (items a) i = Some x -> at_ a i = Ok x.
Proof. intros T a SO. split; [symmetry; apply len_items; exact SO|]. intros i x. apply at_nth. exact SO. Qed.
Print Assumptions expression_items.

(** ** C170: visiting all items *)
Theorem for_each_visits : forall T S (f : S -> T -> bool * S) (a : aexp T) s, sound a -> easy a ->
  forEach f a 0 (len a) s = Ok (visit f (items a) s).
Proof. intros T S f a s SO E. apply forEach_whole; auto. Qed.
Print Assumptions for_each_visits.

(** ** C185: visiting any expression *)

(** Refuted: of a part that reaches over the border of a concatenation, as many items are left
    out at its end as the part starts behind the beginning. *)
Theorem for_each_concat_refuted : forall T S (f : S -> T -> bool * S) (x y : list T) s k n,
  0 < s < length x -> length x <= n -> s + n <= length x + length y ->
  forEach f (Mid (Sum (whole x) (whole y)) s n) 0 n k = Ok (visit f (skipn s x ++ firstn (n - length x) y) k).
Proof.
  intros T S f x y s k n H1 H2 H3.
  assert (WX : forall z : list T, sound (whole z) /\ straight (whole z) /\ items (whole z) = z /\ len (whole z) = length z).
  { intros z. cbn [sound straight items len whole skipn]. rewrite firstn_all. auto. }
  destruct (WX x) as (SX & TX & IX & LX), (WX y) as (SY & TY & IY & LY).
  remember (whole x) as A. remember (whole y) as B. cbn [forEach Nat.add]. rewrite LX.
  destruct (Nat.leb_spec (length x) s); [lia|]. destruct (Nat.leb_spec (s + n) (length x)); [lia|].
  rewrite (forEach_straight f A) by (auto; lia). rewrite visit_app, IX. cbn [obind].
  rewrite (firstn_all2 (n := length x - s)) by (rewrite skipn_length; lia).
  destruct (visit f (skipn s x) k) as [[|] s1]; [reflexivity|]. destruct (Nat.leb_spec (length x) n); [|lia].
  rewrite (forEach_straight f B) by (auto; lia). rewrite IY. reflexivity.
Qed.
Print Assumptions for_each_concat_refuted.

(** Refuted: visiting the items of an empty array that is repeated divides by zero. *)
Theorem for_each_repeated_refuted : forall T S (f : S -> T -> bool * S) (a : aexp T) n s, sound a -> items a = [] ->
  forEach f (Rep a n) 0 (len (Rep a n)) s = Undef.
Proof.
  intros T S f a n s SO E. pose proof (len_items a SO) as L. rewrite E in L. cbn [forEach]. rewrite <- L. reflexivity.
Qed.
Print Assumptions for_each_repeated_refuted.

(** ** C171: the first item *)
Theorem find_first : forall T (icmp : T -> T -> comparison) (a : aexp T), ordered icmp -> sound a -> easy a -> noPart a ->
  (forall x, exists r, find icmp a x = Ok r /\ first_such (fun y => y = x) (items a) r) /\
  (forall set, exists r, findOneOf icmp a set = Ok r /\ first_such (fun y => In y set) (items a) r).
Proof. intros T icmp a [O1 O2] SO E NP. split; intros; [apply find_ok; auto|apply findOneOf_ok; auto]. Qed.
Print Assumptions find_first.

(** ** C172: searching a plain array *)
Theorem find_from_position : forall T (icmp : T -> T -> comparison) (l : list T) x pos, ordered icmp ->
  exists r, findFrom icmp (whole l) x pos = Ok (match r with Some i => Some (i + N.to_nat pos) | None => None end) /\
    first_such (fun y => y = x) (skipn (N.to_nat pos) l) r.
Proof.
  intros T icmp l x pos [O1 O2]. destruct (findFrom_flat icmp O1 (whole l) x pos) as (r & E & F); [cbn; lia|exact I|].
  exists r. split; [exact E|]. cbn [items whole skipn] in F. rewrite firstn_all in F. exact F.
Qed.
Print Assumptions find_from_position.

Theorem find_array : forall T (icmp : T -> T -> comparison) (l : list T) b, ordered icmp -> sound b -> items b <> [] ->
  (N.of_nat (length l + length (items b)) < 2 ^ 64)%N ->
  exists r, findArr icmp (whole l) b = Ok r /\
    match r with
    | Some p => stands (items b) l p /\ forall j, j < p -> ~ stands (items b) l j
    | None => forall j, ~ stands (items b) l j
    end.
Proof.
  intros T icmp l b [O1 O2] SB NE WW. pose proof (len_items b SB) as LB.
  destruct (findArr_ok icmp O1 O2 (whole l) b) as (r & E & F); [cbn; lia|exact I|exact SB|exact NE|unfold lenN, W; cbn [len whole]; lia|].
  exists r. split; [exact E|]. cbn [items whole skipn] in F. rewrite firstn_all in F. exact F.
Qed.
Print Assumptions find_array.

(** ** C173: searching any expression *)

(** Refuted: nothing is ever found in a part of an expression that is not a plain array. *)
Theorem find_in_part_refuted : forall T (icmp : T -> T -> comparison) (a : aexp T) s n x, 0 < n ->
  find icmp (Mid a s n) x = Ok None.
Proof. intros T icmp a s n x H. unfold find, findP. cbn [empty]. destruct (Nat.ltb_spec 0 n); [reflexivity|lia]. Qed.
Print Assumptions find_in_part_refuted.

(** Refuted: so nothing is found behind a position of such an expression. *)
Theorem find_from_refuted : forall T (icmp : T -> T -> comparison) (a : aexp T) x pos, ~ isFlat a -> (pos < lenN a)%N ->
  findFrom icmp a x pos = Ok None.
Proof.
  intros T icmp a x pos NF H. unfold findFrom, offset. rewrite clip_min. unfold lenN in H.
  assert (E : exists b s, mkMid a (Nat.min (len a) (N.to_nat pos)) (len a - Nat.min (len a) (N.to_nat pos)) =
                Mid b s (len a - Nat.min (len a) (N.to_nat pos))).
  { destruct a; [destruct NF; exact I|..]; eexists _, _; reflexivity. }
  destruct E as (b & s & E). rewrite E, find_in_part_refuted by lia. reflexivity.
Qed.
Print Assumptions find_from_refuted.

(** ** C174: the last item *)
Theorem find_last : forall T (icmp : T -> T -> comparison) (a : aexp T) x, ordered icmp -> sound a -> noPart a ->
  exists r, findLast icmp a x = Ok r /\ last_such (fun y => y = x) (items a) r.
Proof.
  intros T icmp a x [O1 O2] SO NP. unfold findLast. destruct (findLastP_ok icmp O1 a (fun y => isEq icmp y x) SO NP) as (r & E & F).
  exists r. split; [exact E|]. eapply last_such_ext; [|exact F]. intros y. apply isEq_eq; auto.
Qed.
Print Assumptions find_last.

(** ** C175: the last occurrence of an array *)

Lemma find_last_arr_start T (icmp : T -> T -> comparison) (l pat : list T) x q t : ordered icmp -> (N.of_nat (length l + length pat) < 2 ^ 64)%N ->
  rev l = q ++ x :: t -> Forall (fun y => y <> x) q -> rev pat = x :: tl (rev pat) -> length pat <= length l ->
  findArr icmp (Rev (offset (whole l) 0)) (Rev (offset (whole pat) 0)) =
    if length q + length pat <=? length l then
      match lex icmp (firstn (length pat) (x :: t)) (rev pat) with Eq => Ok (Some (length q)) | _ => Ok None end
    else Ok None.
Proof.
  intros [O1 O2] WW E NQ EP LP.
  assert (OF : forall l : list T, offset (whole l) 0 = whole l).
  { intros z. unfold offset. rewrite clip_min. cbn [whole mkMid len]. rewrite Nat.min_r, Nat.sub_0_r by lia. reflexivity. }
  rewrite !OF. assert (SL : sound (Rev (whole l))) by (cbn; lia). assert (SP : sound (Rev (whole pat))) by (cbn; lia).
  assert (IL : items (Rev (whole l)) = rev l) by (cbn [items whole skipn]; rewrite firstn_all; reflexivity).
  assert (IP : items (Rev (whole pat)) = rev pat) by (cbn [items whole skipn]; rewrite firstn_all; reflexivity).
  assert (LL : length l = length q + S (length t)) by (apply (f_equal (@length T)) in E; rewrite rev_length, app_length in E; exact E).
  assert (PN : length pat <> 0) by (destruct pat; [discriminate|cbn; lia]).
  unfold findArr. cbn [len whole]. destruct (Nat.eqb_spec (length pat) 0); [lia|]. destruct (Nat.ltb_spec (length l) (length pat)); [lia|]. cbn [orb].
  assert (AT : at_ (Rev (whole pat)) 0 = Ok x) by (apply at_nth; [exact SP|rewrite IP, EP; reflexivity]). rewrite AT. cbn [obind].
  destruct (find_ok icmp O1 (Rev (whole l)) x SL I I) as (r & F & FS). rewrite F, IL in *. cbn [obind].
  assert (R : r = Some (length q)).
  { rewrite E in FS. destruct r as [i|]; cbn in FS.
    - destruct FS as (q2 & y & t2 & E2 & <- & -> & F2). f_equal.
      clear - E2 NQ F2. revert q2 E2 F2. induction q as [|z q IH]; intros [|z2 q2] E2 F2; cbn in *; auto.
      + inversion E2; subst. inversion F2; subst. contradiction.
      + inversion E2; subst. inversion NQ; subst. contradiction.
      + inversion E2; subst. inversion NQ; subst. inversion F2; subst. f_equal. apply IH; auto.
    - rewrite Forall_app in FS. destruct FS as [_ FS]. inversion FS; subst. contradiction. }
  subst r. destruct (length l) as [|m] eqn:LLL; [lia|]. cbn [findArrLoop]. rewrite <- LLL in *.
  assert (ST : skipn (length q) (rev l) = x :: t) by (rewrite E, skipn_app, skipn_all, Nat.sub_diag; reflexivity).
  assert (MI : items (mid (Rev (whole l)) (N.of_nat (length q)) (lenN (Rev (whole pat)))) = firstn (length pat) (x :: t) /\
               sound (mid (Rev (whole l)) (N.of_nat (length q)) (lenN (Rev (whole pat))))).
  { unfold mid, lenN. cbn [len whole]. destruct (N.leb_spec (N.of_nat (length l)) (N.of_nat (length q))); [lia|].
    destruct (N.ltb_spec (N.of_nat (length l)) ((N.of_nat (length q) + N.of_nat (length pat)) mod W)).
    - rewrite Nat2N.id. destruct (mkMid_ok (Rev (whole l)) (length q) (length l - length q) SL) as (A & B & _); [cbn [len whole]; lia|].
      split; [|exact A]. rewrite B, IL, ST. rewrite !firstn_all2; auto; cbn [length].
      + rewrite N.mod_small in *; unfold W in *; lia.
      + lia.
    - rewrite !Nat2N.id. destruct (Nat.le_gt_cases (length q + length pat) (length l)).
      + destruct (mkMid_ok (Rev (whole l)) (length q) (length pat) SL) as (A & B & _); [cbn [len whole]; lia|].
        split; [|exact A]. rewrite B, IL, ST. reflexivity.
      + exfalso. rewrite N.mod_small in *; unfold W in *; lia. }
  destruct MI as [MI MS]. rewrite compare_ok by auto. cbn [obind]. rewrite MI, IP.
  assert (NO : findFrom icmp (Rev (whole l)) x (N.of_nat (S (length q))) = Ok None).
  { destruct (N.ltb_spec (N.of_nat (S (length q))) (lenN (Rev (whole l)))) as [H1|H1]; [apply find_from_refuted; [intros []|exact H1]|].
    unfold findFrom, offset. rewrite clip_min. unfold lenN in H1. rewrite Nat.min_l by lia. rewrite Nat.sub_diag.
    cbn [mkMid]. unfold find, findP. cbn [empty]. cbn [Nat.ltb Nat.leb]. reflexivity. }
  rewrite AT. cbn [obind]. rewrite NO. cbn [obind].
  destruct (Nat.leb_spec (length q + length pat) (length l)).
  - destruct (lex icmp (firstn (length pat) (x :: t)) (rev pat)); [reflexivity|destruct m; reflexivity|destruct m; reflexivity].
  - destruct (lex icmp (firstn (length pat) (x :: t)) (rev pat)) eqn:C; [|destruct m; reflexivity|destruct m; reflexivity].
    apply (lex_eq icmp O1) in C. apply (f_equal (@length T)) in C. rewrite firstn_length, rev_length in C. cbn [length] in C. lia.
Qed.

(** Refuted: what is reported is not where the occurrence begins but where its last item is. *)
Theorem find_last_array_refuted : forall T (icmp : T -> T -> comparison) (pre pat : list T), ordered icmp -> pat <> [] ->
  (N.of_nat (length (pre ++ pat) + length pat) < 2 ^ 64)%N ->
  stands pat (pre ++ pat) (length pre) /\
  findLastArr icmp (whole (pre ++ pat)) (whole pat) = Ok (Some (length pre + length pat - 1)).
Proof.
  intros T icmp pre pat OR NE WW. split; [exists pre, []; rewrite app_nil_r; auto|].
  destruct (rev pat) as [|x r] eqn:EP; [exfalso; apply NE; rewrite <- (rev_involutive pat), EP; reflexivity|].
  assert (LP : length pat = S (length r)) by (rewrite <- (rev_length pat), EP; reflexivity).
  unfold findLastArr. rewrite (find_last_arr_start T icmp (pre ++ pat) pat x [] (r ++ rev pre) OR WW).
  - rewrite app_length. cbn [length Nat.add]. destruct (Nat.leb_spec (length pat) (length pre + length pat)); [|lia].
    replace (firstn (length pat) (x :: r ++ rev pre)) with (rev pat).
    2:{ rewrite EP. change (x :: r ++ rev pre) with ((x :: r) ++ rev pre). rewrite firstn_app, LP. cbn [length]. rewrite Nat.sub_diag.
        rewrite firstn_all2 by (cbn; lia). cbn [firstn]. rewrite app_nil_r. reflexivity. }
    destruct OR as [O1 O2]. rewrite (proj2 (lex_eq icmp O1 _ _) eq_refl). cbn [obind]. cbn [len whole]. rewrite app_length. do 2 f_equal. lia.
  - rewrite rev_app_distr, EP. reflexivity.
  - constructor.
  - rewrite EP. reflexivity.
  - rewrite app_length. lia.
Qed.
Print Assumptions find_last_array_refuted.

(** Refuted: an occurrence is missed when the last item of the array appears behind it again. *)
Theorem find_last_array_missed_refuted : forall T (icmp : T -> T -> comparison) (pre pat post : list T) x, ordered icmp ->
  pre <> [] -> pat = pre ++ [x] -> (N.of_nat (length (pat ++ post ++ [x]) + length pat) < 2 ^ 64)%N ->
  ~ stands pat (pat ++ post ++ [x]) (length (pat ++ post ++ [x]) - length pat) ->
  stands pat (pat ++ post ++ [x]) 0 /\
  findLastArr icmp (whole (pat ++ post ++ [x])) (whole pat) = Ok None.
Proof.
  intros T icmp pre pat post x OR NE EP WW NS. split; [exists [], (post ++ [x]); auto|].
  unfold findLastArr. rewrite (find_last_arr_start T icmp (pat ++ post ++ [x]) pat x [] (rev (pat ++ post)) OR WW).
  - cbn [length Nat.add]. destruct (Nat.leb_spec (length pat) (length (pat ++ post ++ [x]))); [|rewrite app_length in *; lia].
    destruct (lex icmp (firstn (length pat) (x :: rev (pat ++ post))) (rev pat)) eqn:C; [|reflexivity|reflexivity]. exfalso. apply NS.
    destruct OR as [O1 O2]. apply (lex_eq icmp O1) in C. set (z := pat ++ post) in *.
    replace (pat ++ post ++ [x]) with (z ++ [x]) in * by (unfold z; rewrite <- app_assoc; reflexivity).
    rewrite <- (rev_unit z x) in C. rewrite firstn_rev in C.
    apply (f_equal (@rev T)) in C. rewrite !rev_involutive in C.
    exists (firstn (length (z ++ [x]) - length pat) (z ++ [x])), []. rewrite app_nil_r. split.
    + rewrite <- C at 2. symmetry. apply firstn_skipn.
    + rewrite firstn_length. lia.
  - rewrite app_assoc. apply rev_unit.
  - constructor.
  - rewrite EP, rev_unit. reflexivity.
  - rewrite app_length. lia.
Qed.
Print Assumptions find_last_array_missed_refuted.

(** ** C176: comparing *)
Theorem compare_lexicographic : forall T (icmp : T -> T -> comparison) (a b : aexp T), ordered icmp -> sound a -> sound b ->
  compare icmp a b = Ok (lex icmp (items a) (items b)).
Proof. intros T icmp a b [O1 O2] SA SB. apply compare_ok; auto. Qed.
Print Assumptions compare_lexicographic.

Theorem compare_equal : forall T (icmp : T -> T -> comparison) (a b : aexp T), ordered icmp -> sound a -> sound b ->
  (compare icmp a b = Ok Eq <-> items a = items b).
Proof.
  intros T icmp a b OR SA SB. rewrite compare_lexicographic by auto. destruct OR as [O1 O2]. rewrite <- (lex_eq icmp O1).
  split; [congruence|]. intros ->. reflexivity.
Qed.
Print Assumptions compare_equal.

(** ** C177: splitting a plain array *)
Theorem split_parts : forall T (icmp : T -> T -> comparison) (l : list T) sep, ordered icmp ->
  exists parts, split icmp (whole l) sep = Ok parts /\ parts <> [] /\
    join sep (map items parts) = l /\ Forall (fun q => ~ In sep (items q)) parts.
Proof.
  intros T icmp l sep [O1 O2].
  destruct (split_ok icmp O1 O2 (whole l) sep) with (fuel := S (length l)) (pos := 0) as (parts & E & NE & J & F);
    [cbn [sound whole]; lia|exact I|lia|cbn [len whole]; lia|].
  exists parts. split; [exact E|]. split; [exact NE|]. split; [|exact F]. rewrite J. cbn [items whole skipn]. apply firstn_all.
Qed.
Print Assumptions split_parts.

(** ** C178: splitting any expression *)

(** Refuted: an expression that is not a plain array is one part, whatever it holds. *)
Theorem split_expression_refuted : forall T (icmp : T -> T -> comparison) (a : aexp T) sep, ~ isFlat a -> sound a -> 0 < len a ->
  exists part, split icmp a sep = Ok [part] /\ items part = items a.
Proof.
  intros T icmp a sep NF SO L. unfold split. cbn [splitLoop Nat.leb].
  assert (E : exists b s, offset a (N.of_nat 0) = Mid b s (len a)).
  { unfold offset. rewrite clip_min. change (N.to_nat (N.of_nat 0)) with 0. rewrite Nat.min_r, Nat.sub_0_r by lia.
    destruct a; [destruct NF; exact I|..]; eexists _, _; reflexivity. }
  destruct E as (b & s & E). rewrite E, find_in_part_refuted by exact L. cbn [obind]. rewrite Nat.sub_0_r.
  destruct (mkMid_ok a 0 (len a) SO) as (A & B & C); [lia|]. rewrite C.
  destruct (len a) as [|n] eqn:EL; [lia|]. cbn [splitLoop]. rewrite EL.
  destruct (Nat.leb_spec (0 + S n + 1) (S n)); [lia|]. cbn [obind]. eexists. split; [reflexivity|].
  rewrite B. cbn [skipn]. apply firstn_all2. rewrite len_items by exact SO. lia.
Qed.
Print Assumptions split_expression_refuted.

(** ** C179: trimming *)
Theorem trim_removes : forall T (a : aexp T) p fromLeft fromRight, sound a -> (N.of_nat (len a) < 2 ^ 64)%N ->
  exists r, trim a p fromLeft fromRight = Ok r /\
    exists pre post, items a = pre ++ items r ++ post /\
      Forall (fun x => p x = true) pre /\ Forall (fun x => p x = true) post /\
      (if fromLeft then forall x t, items r = x :: t -> p x = false else pre = []) /\
      (if fromRight then forall x t, items r = t ++ [x] -> p x = false else post = []).
Proof.
  intros T a p fl fr SO WW. pose proof (len_items a SO) as LI. unfold trim.
  assert (HL : exists beg, (if fl then trimLeft a p (len a) 0 else Ok 0) = Ok beg /\ beg <= len a /\
    Forall (fun x => p x = true) (firstn beg (items a)) /\
    (if fl then beg < len a -> exists x, nth_error (items a) beg = Some x /\ p x = false else beg = 0)).
  { destruct fl.
    - destruct (trimLeft_ok a p SO (len a) 0 eq_refl) as (k & E & K & F & X). exists k. cbn [Nat.add skipn] in *. auto.
    - exists 0. split; [reflexivity|]. split; [lia|]. split; [constructor|reflexivity]. }
  destruct HL as (beg & E1 & B1 & F1 & X1). rewrite E1. cbn [obind].
  assert (HR : exists k, (if fr then trimRight a p (len a - beg) (len a) else Ok (len a)) = Ok (len a - k) /\ k <= len a - beg /\
    Forall (fun x => p x = true) (firstn k (skipn (len a - k) (items a))) /\
    (if fr then k < len a - beg -> exists x, nth_error (items a) (len a - k - 1) = Some x /\ p x = false else k = 0)).
  { destruct fr.
    - destruct (trimRight_ok a p SO (len a - beg) (len a)) as (k & E & K & F & X); [lia|lia|]. exists k. auto.
    - exists 0. rewrite Nat.sub_0_r. split; [reflexivity|]. split; [lia|]. split; [constructor|reflexivity]. }
  destruct HR as (k & E2 & B2 & F2 & X2). rewrite E2. cbn [obind]. eexists. split; [reflexivity|].
  destruct (mid_ok a (N.of_nat beg) (N.of_nat (len a - k - beg)) SO) as (SM & IM); [unfold lenN, W; lia|unfold W; lia|]. rewrite IM, !Nat2N.id.
  set (m := firstn (len a - k - beg) (skipn beg (items a))).
  exists (firstn beg (items a)), (skipn (len a - k) (items a)). split; [|split; [exact F1|split; [|split]]].
  - rewrite <- (firstn_skipn beg (items a)) at 1. f_equal. unfold m.
    rewrite <- (firstn_skipn (len a - k - beg) (skipn beg (items a))) at 1. f_equal. rewrite skip_skip. f_equal. lia.
  - rewrite firstn_all2 in F2 by (rewrite skipn_length; lia). exact F2.
  - destruct fl; [|rewrite X1; reflexivity]. intros x t E. assert (M : nth_error m 0 = Some x) by (rewrite E; reflexivity).
    assert (0 < len a - k - beg). { apply (f_equal (@length T)) in E. unfold m in E. rewrite firstn_length in E. cbn in E. lia. }
    unfold m in M. rewrite nth_firstn, nth_skipn, Nat.add_0_r in M by lia. destruct X1 as (y & N & P); [lia|]. congruence.
  - destruct fr; [|rewrite X2, Nat.sub_0_r; apply skipn_all2; lia]. intros x t E.
    assert (LM : length m = len a - k - beg) by (unfold m; rewrite firstn_length, skipn_length; lia).
    assert (LT : length m = length t + 1) by (rewrite E, app_length; reflexivity).
    assert (M : nth_error m (length t) = Some x) by (rewrite E, nth_error_app2, Nat.sub_diag by lia; reflexivity).
    unfold m in M. rewrite nth_firstn, nth_skipn in M by lia. destruct X2 as (y & N & P); [lia|].
    replace (beg + length t) with (len a - k - 1) in M by lia. congruence.
Qed.
Print Assumptions trim_removes.

(** ** C180: parts *)
Theorem parts_of_arrays : forall T (a : aexp T), sound a -> (N.of_nat (len a) < 2 ^ 64)%N ->
  (forall pos n, (pos + n < 2 ^ 64)%N -> items (mid a pos n) = firstn (N.to_nat n) (skipn (N.to_nat pos) (items a))) /\
  (forall n, items (head a n) = firstn (N.to_nat n) (items a)) /\
  (forall n, items (offset a n) = skipn (N.to_nat n) (items a)) /\
  (forall n, items (tail a n) = skipn (length (items a) - N.to_nat n) (items a)) /\
  (forall n, items (roffset a n) = firstn (length (items a) - N.to_nat n) (items a)) /\
  (forall i j, (i + j < 2 ^ 64)%N ->
     items (crop a i j) = firstn (length (items a) - N.to_nat i - N.to_nat j) (skipn (N.to_nat i) (items a))).
Proof.
  intros T a SO WW. split; [|split; [|split; [|split; [|split]]]].
  - intros pos n H. apply mid_ok; auto.
  - intros n. apply head_ok; auto.
  - intros n. apply offset_ok; auto.
  - intros n. apply tail_ok; auto.
  - intros n. apply roffset_ok; auto.
  - intros i j H. apply crop_ok; auto.
Qed.
Print Assumptions parts_of_arrays.

Theorem parts_are_sound : forall T (a : aexp T), sound a -> (N.of_nat (len a) < 2 ^ 64)%N ->
  (forall pos n, (pos + n < 2 ^ 64)%N -> sound (mid a pos n)) /\ (forall n, sound (head a n)) /\ (forall n, sound (offset a n)) /\
  (forall n, sound (tail a n)) /\ (forall n, sound (roffset a n)) /\ (forall i j, (i + j < 2 ^ 64)%N -> sound (crop a i j)).
Proof.
  intros T a SO WW. split; [|split; [|split; [|split; [|split]]]].
  - intros pos n H. apply mid_ok; auto.
  - intros n. apply head_ok; auto.
  - intros n. apply offset_ok; auto.
  - intros n. apply tail_ok; auto.
  - intros n. apply roffset_ok; auto.
  - intros i j H. apply crop_ok; auto.
Qed.
Print Assumptions parts_are_sound.

(** ** C181: parts with large counts *)

(** Refuted: position + count passes 2^64 for counts like naturalNull; the part is longer than
    the array and reading behind its end is undefined. *)
Theorem mid_large_count_refuted : forall T (l : list T) pos n, (N.of_nat (length l) < 2 ^ 64)%N -> (pos < N.of_nat (length l))%N ->
  (n < 2 ^ 64)%N -> (2 ^ 64 <= pos + n)%N ->
  exists i, i < len (mid (whole l) pos n) /\ at_ (mid (whole l) pos n) i = Undef.
Proof.
  intros T l pos n WW H1 H2 H3. unfold mid, lenN, W. cbn [len whole]. destruct (N.leb_spec (N.of_nat (length l)) pos); [lia|].
  rewrite <- (N.mod_unique (pos + n) (2 ^ 64) 1 (pos + n - 2 ^ 64)) by lia.
  destruct (N.ltb_spec (N.of_nat (length l)) (pos + n - 2 ^ 64)); [lia|]. cbn [whole mkMid len at_ Nat.add].
  exists (length l - N.to_nat pos). split; [lia|]. rewrite (proj2 (nth_error_None _ _)); [reflexivity|lia].
Qed.
Print Assumptions mid_large_count_refuted.

Theorem crop_large_count_refuted : forall T (l : list T) i j, (N.of_nat (length l) < 2 ^ 64)%N -> (i < 2 ^ 64)%N -> (j < 2 ^ 64)%N ->
  (2 ^ 64 <= i + j)%N -> (i + j - 2 ^ 64 < N.of_nat (length l))%N ->
  exists k, k < len (crop (whole l) i j) /\ at_ (crop (whole l) i j) k = Undef.
Proof.
  intros T l i j WW H1 H2 H3 H4. unfold crop, lenN, W. cbn [len whole].
  rewrite <- (N.mod_unique (i + j) (2 ^ 64) 1 (i + j - 2 ^ 64)) by lia.
  destruct (N.leb_spec (N.of_nat (length l)) (i + j - 2 ^ 64)); [lia|].
  rewrite <- (N.mod_unique (N.of_nat (length l) + 2 * 2 ^ 64 - j - i) (2 ^ 64) 1 (N.of_nat (length l) + 2 ^ 64 - j - i)) by lia.
  cbn [whole mkMid len at_ Nat.add]. exists (N.to_nat (N.of_nat (length l) + 2 ^ 64 - j - i) - 1). split; [lia|].
  rewrite (proj2 (nth_error_None _ _)); [reflexivity|lia].
Qed.
Print Assumptions crop_large_count_refuted.

(** ** C182: iterators *)
Theorem iterators_give_all_items : forall T (a : aexp T), sound a -> (N.of_nat (len a) < 2 ^ 64)%N ->
  drain (len a) a (iterNew a true) = Ok (items a) /\ drain (len a) a (iterNew a false) = Ok (rev (items a)).
Proof.
  intros T a SO WW. pose proof (len_items a SO) as LI. split.
  - change (iterNew a true) with (mkIter (N.of_nat 0) true). rewrite (drain_fwd a (fun _ => true) SO); [reflexivity|exact WW|lia|lia].
  - unfold iterNew, lenN. destruct (len a) as [|n] eqn:EL.
    + cbn [drain]. unfold hasItems, lenN. rewrite EL. cbn [ipos]. destruct (N.ltb_spec ((N.of_nat 0 + W - 1) mod W) (N.of_nat 0)); [lia|].
      destruct (items a); [reflexivity|discriminate].
    + replace ((N.of_nat (S n) + W - 1) mod W)%N with (N.of_nat n).
      * rewrite (drain_bk a (fun _ => true) SO) by (unfold lenN, W; lia). rewrite firstn_all2 by lia. reflexivity.
      * replace (N.of_nat (S n) + W - 1)%N with (N.of_nat n + 1 * W)%N by (unfold W; lia). rewrite N.mod_add by (unfold W; discriminate).
        rewrite N.mod_small by (unfold W; lia). reflexivity.
Qed.
Print Assumptions iterators_give_all_items.

(** ** C183: moving an iterator *)

(** Partial: forward, as long as position + offset does not pass 2^64. *)
Theorem seek_forward_partial : forall T (a : aexp T) it off, (N.of_nat (len a) < 2 ^ 64)%N -> (ipos it <= N.of_nat (len a))%N ->
  (ipos it + off < 2 ^ 64)%N ->
  seek a it off true = (N.min off (N.of_nat (len a) - ipos it), mkIter (ipos it + N.min off (N.of_nat (len a) - ipos it))%N (ifwd it)).
Proof.
  intros T a [i d] off WW H1 H2. unfold seek, lenN. cbn [ipos ifwd] in *. destruct (N.eqb_spec off 0) as [->|NZ].
  - rewrite N.min_0_l, N.add_0_r. reflexivity.
  - rewrite (N.mod_small (i + off)) by (unfold W; lia). destruct (N.ltb_spec (N.of_nat (len a)) (i + off)).
    + rewrite N.min_r by lia. replace ((N.of_nat (len a) + W - i) mod W)%N with (N.of_nat (len a) - i)%N.
      * rewrite N.mod_small by (unfold W; lia). reflexivity.
      * replace (N.of_nat (len a) + W - i)%N with (N.of_nat (len a) - i + 1 * W)%N by (unfold W; lia).
        rewrite N.mod_add by (unfold W; discriminate). rewrite N.mod_small by (unfold W; lia). reflexivity.
    + rewrite N.min_l by lia. rewrite N.mod_small by (unfold W; lia). reflexivity.
Qed.
Print Assumptions seek_forward_partial.

(** Refuted: a large offset forward moves the iterator back. *)
Theorem seek_forward_refuted : forall T (a : aexp T) it off, (ipos it < N.of_nat (len a))%N -> (N.of_nat (len a) < 2 ^ 64)%N ->
  (off < 2 ^ 64)%N -> (2 ^ 64 <= ipos it + off)%N -> (ipos (snd (seek a it off true)) < ipos it)%N.
Proof.
  intros T a [i d] off H1 WW H2 H3. unfold seek, lenN. cbn [ipos ifwd] in *. destruct (N.eqb_spec off 0); [lia|].
  assert (M : ((i + off) mod W = i + off - 2 ^ 64)%N) by (symmetry; apply (N.mod_unique _ _ 1); unfold W; lia).
  rewrite M. destruct (N.ltb_spec (N.of_nat (len a)) (i + off - 2 ^ 64)); [lia|]. cbn [snd ipos]. rewrite M. lia.
Qed.
Print Assumptions seek_forward_refuted.

(** Refuted: moving back by any number moves it in front of the first item. *)
Theorem seek_backward_refuted : forall T (a : aexp T) it off, (ipos it < N.of_nat (len a))%N -> (N.of_nat (len a) < 2 ^ 64)%N -> (0 < off)%N ->
  seek a it off false = ((ipos it + 1)%N, mkIter (2 ^ 64 - 1) (ifwd it)) /\ hasItems a (snd (seek a it off false)) = false.
Proof.
  intros T a [i d] off H1 WW H2.
  assert (E : seek a (mkIter i d) off false = ((i + 1)%N, mkIter (2 ^ 64 - 1) d)).
  { unfold seek, lenN. cbn [ipos ifwd] in *. destruct (N.eqb_spec off 0); [lia|]. rewrite (N.mod_small (i + 1)) by (unfold W; lia).
    destruct (N.ltb_spec 0 (i + 1)); [|lia]. f_equal. f_equal. replace (i + W - (i + 1))%N with (2 ^ 64 - 1)%N by (unfold W; lia). reflexivity. }
  cbn [ipos ifwd]. split; [exact E|]. rewrite E. unfold hasItems, lenN. cbn [snd ipos]. apply N.ltb_ge. lia.
Qed.
Print Assumptions seek_backward_refuted.

(** ** C184: visiting a range *)

(** Refuted: when the range passes the end, (length - count) items are visited instead of all
    that are left; none at all when the count is the length. *)
Theorem for_each_range_refuted : forall T S (f : S -> T -> bool * S) (l : list T) from n s, (N.of_nat (length l) < 2 ^ 63)%N ->
  from <= n -> n <= length l -> length l < from + n ->
  forEachRange f (whole l) (N.of_nat from) (N.of_nat n) s =
    if n =? length l then Ok (true, s) else Ok (visit f (firstn (length l - n) (skipn from l)) s).
Proof.
  intros T S f l from n s WW H1 H2 H3. unfold forEachRange, lenN, W. cbn [len whole].
  destruct (N.ltb_spec (N.of_nat (length l)) (N.of_nat from)); [lia|]. rewrite (N.mod_small (N.of_nat from + N.of_nat n)) by lia.
  destruct (N.ltb_spec (N.of_nat (length l)) (N.of_nat from + N.of_nat n)); [|lia].
  assert (M : ((N.of_nat (length l) + 2 ^ 64 - N.of_nat n) mod 2 ^ 64 = N.of_nat (length l - n))%N) by (symmetry; apply (N.mod_unique _ _ 1); lia).
  rewrite M. destruct (Nat.eqb_spec n (length l)) as [E|E].
  - destruct (N.eqb_spec (N.of_nat (length l - n)) 0); [reflexivity|lia].
  - destruct (N.eqb_spec (N.of_nat (length l - n)) 0); [lia|]. rewrite !Nat2N.id.
    change (Flat l 0 (length l)) with (whole l). rewrite (forEach_straight f (whole l)); [|cbn [sound whole]; lia|exact I|cbn [len whole]; lia].
    cbn [items whole skipn]. rewrite firstn_all. reflexivity.
Qed.
Print Assumptions for_each_range_refuted.

(** ** Cases that meet the hypotheses *)
Example nat_ordered : ordered Nat.compare.
Proof. split; [apply Nat.compare_eq_iff|]. intros x y. apply Nat.compare_antisym. Qed.

Definition sample : aexp nat := Sum (Rev (whole [3; 2; 1])) (Rep (Flat [0; 4; 5; 9] 1 2) 2).
Example sample_is : items sample = [1; 2; 3; 4; 5; 4; 5] /\ sound sample /\ easy sample /\ noPart sample /\ ~ isFlat sample.
Proof. cbn. repeat split; auto; try lia; discriminate. Qed.
Example sample_found : find Nat.compare sample 5 = Ok (Some 4) /\ findLast Nat.compare sample 5 = Ok (Some 6) /\
  findFrom Nat.compare sample 5 1 = Ok None /\ findArr Nat.compare (whole [1; 2; 1; 3]) (whole [1; 3]) = Ok (Some 2).
Proof. vm_compute. auto. Qed.
Example sample_last : findLastArr Nat.compare (whole [7; 1; 2]) (whole [1; 2]) = Ok (Some 2) /\
  findLastArr Nat.compare (whole [1; 2; 9; 2]) (whole [1; 2]) = Ok None /\ ~ stands [1; 2] ([1; 2] ++ [9] ++ [2]) 2.
Proof.
  split; [vm_compute; reflexivity|]. split; [vm_compute; reflexivity|]. intros (q & t & E & L).
  destruct q as [|? [|? [|? q]]]; try discriminate.
Qed.
Example sample_split : match split Nat.compare (whole [1; 0; 2; 3; 0]) 0 with Ok p => map items p = [[1]; [2; 3]; []] | _ => False end /\
  match split Nat.compare (Sum (whole [1; 0]) (whole [2; 0])) 0 with Ok p => map items p = [[1; 0; 2; 0]] | _ => False end.
Proof. vm_compute. auto. Qed.
Example sample_visits : forEach (fun s x => (false, s ++ [x])) (Mid (Sum (whole [1; 2; 3]) (whole [4; 5; 6; 7])) 1 5) 0 5 [] =
  Ok (false, [2; 3; 4; 5]).
Proof. vm_compute. reflexivity. Qed.
Example sample_range : forEachRange (fun s x => (false, s ++ [x])) (whole [1; 2; 3; 4; 5]) 2 4 [] = Ok (false, [3]).
Proof. vm_compute. reflexivity. Qed.
